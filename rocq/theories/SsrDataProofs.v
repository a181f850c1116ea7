(* A block-diagonal state-space filter is the collection of its channels. *)
From Coq Require Import List Bool PeanoNat Lia Field_theory Ring_theory Ring Field.
From Verif Require Import PyBase Arith ArithLemmas FilterModel FilterSpec SumLemmas FilterProofs IirProofs
  FilterFacts FilterFacts2 SsrDataModel.
Import ListNotations.
Local Open Scope ar_scope.

Lemma list_sum_cons x l : list_sum (x :: l) = (x + list_sum l)%nat.
Proof. reflexivity. Qed.

Section F.
Variable A : arith.
Hypothesis HF : is_field A.
Let HF' : field_theory (@zer A) one add mul sub opp dvd inv eq := HF.
Add Field fA6 : HF'.

Lemma has_shape_iff (M : mat A) n m : has_shape M n m = true <-> shape M n m.
Proof.
  unfold has_shape, shape. rewrite andb_true_iff, Nat.eqb_eq, forallb_forall. split; intros [H1 H2]; split; auto;
    intros r Hr; apply Nat.eqb_eq; auto.
Qed.

Lemma vsum_app (u v : vec A) : vsum (u ++ v) = vsum u + vsum v.
Proof.
  unfold vsum. rewrite fold_left_app. generalize (fold_left add u 0). intros x.
  revert x. induction v as [|y v IH]; intros x; cbn [fold_left]; [ring|].
  rewrite IH, (IH (0 + y)). ring.
Qed.

Lemma map2_app {B C D} (f : B -> C -> D) l1 l2 k1 k2 : length l1 = length k1 ->
  map2 f (l1 ++ l2) (k1 ++ k2) = map2 f l1 k1 ++ map2 f l2 k2.
Proof. revert k1. induction l1; intros [|] H; try discriminate; cbn [map2 app]; auto. f_equal. auto. Qed.

Lemma dot_app (u1 u2 v1 v2 : vec A) : length u1 = length v1 -> dot (u1 ++ u2) (v1 ++ v2) = dot u1 v1 + dot u2 v2.
Proof. intros. unfold dot. rewrite map2_app by auto. apply vsum_app. Qed.

Lemma dot_zeros_l (v : vec A) : dot (zeros (length v)) v = 0.
Proof.
  rewrite (dot_sumn A _ _ (length v)); auto; [|apply repeat_length].
  apply sumn_zero; auto. intros. unfold zeros. rewrite nth_repeat_same. ring.
Qed.

Lemma dot_unit n i x (u : vec A) : length u = n -> (i < n)%nat -> dot (unit_at n i x) u = x * nth i u 0.
Proof.
  intros Lu Hi. unfold unit_at. rewrite (dot_sumn A _ _ n); auto; [|rewrite map_length, seq_length; auto].
  rewrite (sumn_single A HF n i); auto.
  - rewrite nth_map_seq, Nat.eqb_refl by auto. reflexivity.
  - intros j Hj Hn. rewrite nth_map_seq by auto. destruct (Nat.eqb_spec j i); [contradiction|]. ring.
Qed.

Lemma blk_shapes (b : blk A) : blk_ok b = true ->
  shape (bA b) (length (bA b)) (length (bA b)) /\ shape (bB b) (length (bA b)) 1 /\
  shape (bC b) 1 (length (bA b)) /\ shape (bD b) 1 1.
Proof. unfold blk_ok. rewrite !andb_true_iff, !has_shape_iff. intuition. Qed.

Definition ok_all (l : list (blk A)) := forall b, In b l -> blk_ok b = true.

(* states of the channels, one after the other *)
Definition fitx (l : list (blk A)) (xs : list (vec A)) : Prop := Forall2 (fun b x => length x = length (bA b)) l xs.

Lemma fitx_len l xs : fitx l xs -> length (concat xs) = total_states l.
Proof.
  induction 1; auto. cbn [concat]. rewrite app_length, IHForall2. unfold total_states. cbn [map].
  rewrite list_sum_cons. lia.
Qed.

Lemma mv_block_diag l xs : ok_all l -> fitx l xs ->
  mv (block_diag l) (concat xs) = concat (map2 (fun b x => mv (bA b) x) l xs).
Proof.
  intros HO H. induction H as [|b x l xs Hx H IH]; auto.
  cbn [block_diag concat map2]. unfold mv at 1. rewrite map_app, !map_map.
  destruct (blk_shapes b (HO b (or_introl eq_refl))) as ([_ HA] & _).
  f_equal.
  - unfold mv. apply map_ext_in. intros r Hr.
    rewrite dot_app by (rewrite HA; auto). rewrite <- (fitx_len _ _ H), dot_zeros_l. ring.
  - rewrite <- IH by (intros b' Hb'; apply HO; simpl; auto). unfold mv. apply map_ext. intros r.
    rewrite dot_app by (unfold zeros; rewrite repeat_length; auto).
    rewrite <- Hx, dot_zeros_l. ring.
Qed.

Lemma mv_b_rows l nf i u : length u = nf -> (i + length l <= nf)%nat -> ok_all l ->
  mv (b_rows nf i l) u = concat (map2 (fun b x => mv (bB b) [x]) l (skipn i u)).
Proof.
  intros Lu. revert i. induction l as [|b l IH]; intros i Hi HO; auto.
  cbn [b_rows length] in *. unfold mv at 1. rewrite map_app, map_map.
  destruct (skipn i u) as [|x r] eqn:Es.
  { assert (length (skipn i u) = 0%nat) by (rewrite Es; auto). rewrite skipn_length in H. lia. }
  assert (Ex : nth i u 0 = x /\ skipn (S i) u = r).
  { clear -Es. revert i Es. induction u as [|y u IHu]; intros [|i] Es; cbn [skipn nth] in *; try discriminate.
    - injection Es as <- <-. auto.
    - apply IHu. auto. }
  destruct Ex as [Ex Er]. cbn [map2 concat]. f_equal.
  - unfold mv. apply map_ext_in. intros row Hrow. rewrite dot_unit, Ex by lia.
    destruct (blk_shapes b (HO b (or_introl eq_refl))) as (_ & [_ HB] & _).
    specialize (HB row Hrow). destruct row as [|y [|]]; try discriminate. unfold dot, vsum. simpl. ring.
  - rewrite <- Er. apply IH; [lia|]. intros b' Hb'. apply HO; simpl; auto.
Qed.

Lemma mv_c_rows l : forall total pre xs, ok_all l -> fitx l xs ->
  total = (length pre + total_states l)%nat ->
  mv (c_rows total (length pre) l) (pre ++ concat xs) =
  map2 (fun b x => dot (nth 0 (bC b) []) x) l xs.
Proof.
  induction l as [|b l IH]; intros total pre xs HO H Ht; inversion H as [|? x ? xs' Hx Hl]; subst; auto.
  cbn [c_rows map2 concat]. unfold mv. cbn [map]. f_equal.
  - rewrite dot_app by (unfold zeros; rewrite repeat_length; auto).
    destruct (blk_shapes b (HO b (or_introl eq_refl))) as (_ & _ & [LC HC] & _).
    rewrite dot_app.
    2: { rewrite Hx. apply HC. apply nth_In. lia. }
    rewrite dot_zeros_l.
    replace (length pre + total_states (b :: l) - length pre - length (bA b))%nat with (length (concat xs')).
    2: { rewrite (fitx_len _ _ Hl). unfold total_states. cbn [map]. rewrite list_sum_cons. lia. }
    rewrite dot_zeros_l. ring.
  - rewrite <- (IH (length (pre ++ x) + total_states l)%nat (pre ++ x) xs'); auto.
    + unfold mv. rewrite <- app_assoc.
      replace (length (pre ++ x) + total_states l)%nat with (length pre + total_states (b :: l))%nat.
      2: { rewrite app_length. unfold total_states. cbn [map]. rewrite list_sum_cons. lia. }
      rewrite app_length, Hx. reflexivity.
    + intros b' Hb'. apply HO; simpl; auto.
Qed.

Lemma mv_d_rows (l : list (blk A)) u : length u = length l ->
  mv (d_rows l) u = map2 (fun b x => nth 0 (nth 0 (bD b) []) 0 * x) l u.
Proof.
  intros Lu. unfold d_rows, mv. rewrite map_map.
  set (e := mkBlk [] [] [] []).
  transitivity (map2 (fun b x => nth 0 (nth 0 (bD b) []) 0 * x)
    (map (fun i => nth i l e) (seq 0 (length l))) (map (fun i => nth i u 0) (seq 0 (length l)))).
  - rewrite map2_map. apply map_ext_in. intros i Hi%in_seq. rewrite dot_unit by lia. reflexivity.
  - rewrite <- map_seq_nth, <- map_seq_nth' by auto. reflexivity.
Qed.

Lemma total_len (l : list (blk A)) : length (block_diag l) = total_states l.
Proof.
  induction l as [|b l IH]; auto. cbn [block_diag]. rewrite app_length, !map_length, IH.
  unfold total_states. cbn [map]. rewrite list_sum_cons. auto.
Qed.

Lemma build_shapes l nw c : build_blocks l nw = Ok c ->
  let n := length l in let nx := total_states l in
  ok_all l /\ shape (sA c) nx nx /\ shape (sB c) nx n /\ shape (sC c) n nx /\ shape (sD c) n n.
Proof.
  unfold build_blocks. destruct (forallb blk_ok l) eqn:E; [|discriminate]. intros [= <-]. cbn [sA sB sC sD].
  assert (HO : ok_all l) by (unfold ok_all; rewrite forallb_forall in E; auto).
  cbv zeta. split; auto. split; [|split; [|split]].
  - split; [apply total_len|]. clear E. induction l as [|b l IH]; [intros r []|].
    assert (HO' : ok_all l) by (intros b' Hb'; apply HO; simpl; auto).
    destruct (blk_shapes b (HO b (or_introl eq_refl))) as ([_ HA] & _).
    intros r Hr. unfold total_states. cbn [block_diag map] in *. rewrite list_sum_cons.
    apply in_app_or in Hr as [Hr|Hr]; apply in_map_iff in Hr as (r' & <- & Hr'); rewrite app_length; unfold zeros; rewrite repeat_length.
    + rewrite HA by auto. reflexivity.
    + rewrite IH by auto. reflexivity.
  - assert (G : forall nf l i, ok_all l -> length (b_rows nf i l) = total_states l /\ forall r, In r (b_rows nf i l) -> length r = nf).
    { clear. intros nf l. induction l as [|b l IH]; intros i HO; [split; [auto|intros r []]|].
      destruct (blk_shapes b (HO b (or_introl eq_refl))) as (_ & [LB HB] & _).
      destruct (IH (S i)) as [I1 I2]; [intros b' Hb'; apply HO; simpl; auto|].
      cbn [b_rows]. split.
      - rewrite app_length, map_length, I1, LB. unfold total_states. cbn [map]. rewrite list_sum_cons. auto.
      - intros r Hr. apply in_app_or in Hr as [Hr|Hr]; auto.
        apply in_map_iff in Hr as (? & <- & _). unfold unit_at. rewrite map_length, seq_length. auto. }
    apply G; auto.
  - assert (G : forall l total off, ok_all l -> (off + total_states l <= total)%nat ->
       length (c_rows total off l) = length l /\ forall r, In r (c_rows total off l) -> length r = total).
    { clear. induction l as [|b l IH]; intros total off HO Ht; [split; [auto|intros r []]|].
      unfold total_states in Ht. cbn [map] in Ht. rewrite list_sum_cons in Ht.
      destruct (blk_shapes b (HO b (or_introl eq_refl))) as (_ & _ & [LC HC] & _).
      destruct (IH total (off + length (bA b))%nat) as [I1 I2];
        [intros b' Hb'; apply HO; simpl; auto|unfold total_states; lia|].
      cbn [c_rows length]. split; [auto|]. intros r [<-|Hr]; auto.
      rewrite !app_length. unfold zeros. rewrite !repeat_length. rewrite HC by (apply nth_In; lia). lia. }
    apply G; auto.
  - unfold d_rows, shape. rewrite map_length, seq_length. split; auto. intros r Hr.
    apply in_map_iff in Hr as (? & <- & _). unfold unit_at. rewrite map_length, seq_length. auto.
Qed.

Definition single (b : blk A) (nw : bool) : ssr A := mkSsr (bA b) (bB b) (bC b) (bD b) nw.

Lemma vadd_concat {I} (f h : I -> vec A) idx : (forall i, In i idx -> length (f i) = length (h i)) ->
  vadd (concat (map f idx)) (concat (map h idx)) = concat (map (fun i => vadd (f i) (h i)) idx).
Proof.
  induction idx as [|i idx IH]; intros H; auto. cbn [map concat]. unfold vadd at 1.
  rewrite map2_app by (apply H; simpl; auto). f_equal. apply IH. intros. apply H. simpl; auto.
Qed.

Definition e0 : blk A := mkBlk [] [] [] [].

Definition bst (l : list (blk A)) (nw : bool) (xs : list (vec A)) (u g : vec A) (i : nat) :=
  ssr_law (single (nth i l e0) nw) (nth i xs []) [nth i u 0] [nth i g 0].

(* one step of the combined filter is one step of every channel *)
Lemma block_step l nw c xs u g : build_blocks l nw = Ok c -> fitx l xs -> length u = length l -> length g = length l ->
  ssr_law c (concat xs) u g =
    (concat (map (fun i => fst (bst l nw xs u g i)) (seq 0 (length l))),
     map (fun i => nth 0 (snd (bst l nw xs u g i)) 0) (seq 0 (length l))) /\
  fitx l (map (fun i => fst (bst l nw xs u g i)) (seq 0 (length l))).
Proof.
  intros Hc Hf Lu Lg. set (st := bst l nw xs u g). destruct (build_shapes _ _ _ Hc) as (HO & _).
  assert (Ec : c = mkSsr (block_diag l) (b_rows (length l) 0 l) (c_rows (total_states l) 0 l) (d_rows l) nw).
  { unfold build_blocks in Hc. destruct (forallb blk_ok l); congruence. }
  pose proof (Forall2_len _ _ _ Hf) as Lx.
  assert (Hel : l = map (fun i => nth i l e0) (seq 0 (length l))) by apply map_seq_nth.
  assert (Hex : xs = map (fun i => nth i xs []) (seq 0 (length l))) by (apply map_seq_nth'; auto).
  assert (Heu : vmul u g = map (fun i => nth i u 0 * nth i g 0) (seq 0 (length l))).
  { rewrite (map_seq_nth' u 0 (length l) Lu) at 1. rewrite (map_seq_nth' g 0 (length l) Lg) at 1.
    unfold vmul. rewrite map2_map. auto. }
  assert (Luv : length (vmul u g) = length l) by (rewrite Heu, map_length, seq_length; auto).
  assert (HOi : forall i, (i < length l)%nat -> blk_ok (nth i l e0) = true) by (intros; apply HO, nth_In; auto).
  assert (Hxi : forall i, (i < length l)%nat -> length (nth i xs []) = length (bA (nth i l e0))).
  { intros i Hi. apply (Forall2_nth _ _ _ e0 [] Hf i Hi). }
  assert (zip : forall B C D (f : B -> C -> D) l1 l2 b c0 m, length l1 = m -> length l2 = m ->
            map2 f l1 l2 = map (fun i => f (nth i l1 b) (nth i l2 c0)) (seq 0 m)).
  { intros B C D f l1 l2 b c0 m H1 H2. rewrite (map_seq_nth' l1 b m H1) at 1. rewrite (map_seq_nth' l2 c0 m H2) at 1.
    apply map2_map. }
  assert (Est : forall i, fst (st i) = vadd (mv (bA (nth i l e0)) (nth i xs [])) (mv (bB (nth i l e0)) [nth i u 0 * nth i g 0])).
  { reflexivity. }
  assert (Ex' : vadd (mv (block_diag l) (concat xs)) (mv (b_rows (length l) 0 l) (vmul u g))
                = concat (map (fun i => fst (st i)) (seq 0 (length l)))).
  { rewrite mv_block_diag, mv_b_rows by (auto; lia). cbn [skipn].
    rewrite (zip _ _ _ (fun b x => mv (bA b) x) l xs e0 [] (length l)) by auto.
    rewrite (zip _ _ _ (fun b x => mv (bB b) [x]) l (vmul u g) e0 0 (length l)) by auto.
    rewrite vadd_concat.
    - f_equal. apply map_ext_in. intros i Hi%in_seq. rewrite Est. f_equal. f_equal. f_equal.
      rewrite Heu, nth_map_seq by lia. reflexivity.
    - intros i Hi%in_seq. rewrite !mv_length.
      destruct (blk_shapes _ (HOi i ltac:(lia))) as (_ & [-> _] & _). auto. }
  assert (Hf' : fitx l (map (fun i => fst (st i)) (seq 0 (length l)))).
  { assert (G : forall l1 (f : nat -> vec A) s, (forall i, (i < length l1)%nat -> length (f (s + i)%nat) = length (bA (nth i l1 e0))) ->
       fitx l1 (map f (seq s (length l1)))).
    { clear. induction l1 as [|b l1 IH]; intros f s H; constructor.
      - specialize (H 0%nat ltac:(simpl; lia)). rewrite Nat.add_0_r in H. auto.
      - apply IH. intros i Hi. specialize (H (S i) ltac:(simpl; lia)). rewrite Nat.add_succ_r in H. auto. }
    apply G. intros i Hi. cbn [Nat.add]. rewrite Est.
    destruct (blk_shapes _ (HOi i Hi)) as (_ & [LB _] & _).
    apply vadd_length; rewrite mv_length; auto. }
  split; auto. subst c. unfold ssr_law at 1. cbn [sA sB sC sD snew]. rewrite Ex'. f_equal.
  assert (Ey : forall zs, fitx l zs -> vadd (mv (c_rows (total_states l) 0 l) (concat zs)) (mv (d_rows l) (vmul u g)) =
     map (fun i => dot (nth 0 (bC (nth i l e0)) []) (nth i zs []) + nth 0 (nth 0 (bD (nth i l e0)) []) 0 * (nth i u 0 * nth i g 0)) (seq 0 (length l))).
  { intros zs Hz. pose proof (Forall2_len _ _ _ Hz) as Lz.
    pose proof (mv_c_rows l (total_states l) [] zs HO Hz eq_refl) as E. cbn [length app] in E. rewrite E.
    rewrite mv_d_rows by auto.
    rewrite (zip _ _ _ (fun b x => dot (nth 0 (bC b) []) x) l zs e0 [] (length l)) by auto.
    rewrite (zip _ _ _ (fun b x => nth 0 (nth 0 (bD b) []) 0 * x) l (vmul u g) e0 0 (length l)) by auto.
    unfold vadd. rewrite map2_map. apply map_ext_in. intros i Hi%in_seq.
    rewrite Heu, nth_map_seq by lia. reflexivity. }
  assert (Esd : forall i z, (i < length l)%nat ->
     nth 0 (vadd (mv (bC (nth i l e0)) z) (mv (bD (nth i l e0)) [nth i u 0 * nth i g 0])) 0 =
     dot (nth 0 (bC (nth i l e0)) []) z + nth 0 (nth 0 (bD (nth i l e0)) []) 0 * (nth i u 0 * nth i g 0)).
  { intros i z Hi. destruct (blk_shapes _ (HOi i Hi)) as (_ & _ & [LC _] & [LD HD]).
    destruct (bC (nth i l e0)) as [|cr [|]]; try discriminate.
    destruct (bD (nth i l e0)) as [|dr [|]]; try discriminate.
    specialize (HD dr (or_introl eq_refl)). destruct dr as [|d0 [|]]; try discriminate.
    cbn [mv map vadd map2 nth]. f_equal. unfold dot, vsum. simpl. ring. }
  destruct nw.
  - rewrite Ey by auto. apply map_ext_in. intros i Hi%in_seq. rewrite nth_map_seq by lia.
    unfold st at 2. unfold bst, ssr_law. cbn [snd single sA sB sC sD snew]. rewrite Esd by lia. reflexivity.
  - rewrite Ey by auto. apply map_ext_in. intros i Hi%in_seq.
    unfold st, bst, ssr_law. cbn [snd single sA sB sC sD snew]. rewrite Esd by lia. reflexivity.
Qed.

Lemma block_lrun l nw c vs : build_blocks l nw = Ok c ->
  (forall v, In v vs -> length (fst v) = length l /\ length (snd v) = length l) ->
  forall xs, fitx l xs -> forall i k, (i < length l)%nat -> (k < length vs)%nat ->
  nth i (nth k (snd (lrun _ (ssr_law c) (concat xs) vs)) []) 0 =
  nth 0 (nth k (snd (lrun _ (ssr_law (single (nth i l e0) nw)) (nth i xs [])
                       (map (fun v => ([nth i (fst v) 0], [nth i (snd v) 0])) vs))) []) 0.
Proof.
  intros Hc. induction vs as [|v r IH]; intros HL xs Hf i k Hi Hk; [simpl in Hk; lia|].
  destruct (HL v (or_introl eq_refl)) as [Lu Lg].
  destruct (block_step l nw c xs _ _ Hc Hf Lu Lg) as [E Hf']. cbn [lrun map fst snd]. rewrite E.
  set (st := bst l nw xs (fst v) (snd v)) in *.
  specialize (IH (fun v H => HL v (or_intror H)) _ Hf').
  destruct (lrun _ (ssr_law c) (concat (map (fun i => fst (st i)) (seq 0 (length l)))) r) as [x1 y1] eqn:E1.
  change (ssr_law (single (nth i l e0) nw) (nth i xs []) [nth i (fst v) 0] [nth i (snd v) 0]) with (st i).
  destruct (st i) as [x2 y2] eqn:E2.
  destruct (lrun _ (ssr_law (single (nth i l e0) nw)) x2 (map (fun v => ([nth i (fst v) 0], [nth i (snd v) 0])) r)) as [x3 y3] eqn:E3.
  cbn [snd]. destruct k as [|k].
  - cbn [nth]. rewrite nth_map_seq by auto. rewrite E2. reflexivity.
  - cbn [nth]. simpl in Hk. specialize (IH i k Hi ltac:(lia)).
    rewrite nth_map_seq, E2 in IH by auto. cbn [fst] in IH. rewrite E3 in IH. exact IH.
Qed.

(* channel [i] of an input sequence, as inputs of a one-channel filter *)
Definition chan_inputs (n : nat) (us : list (finput A)) (i : nat) : list (finput A) :=
  map (fun k => ([in_at n us k i], Some [gain_at n us k i])) (seq 0 (length us)).

Lemma blocks_channels l nw c d us s ys i : build_blocks l nw = Ok c -> ssr_run c d us = Ok (s, ys) ->
  (i < length l)%nat ->
  exists si yi, ssr_run (single (nth i l e0) nw) d (chan_inputs (length l) us i) = Ok (si, yi) /\
    forall k, (k < length us)%nat -> nd_at ys k i = nd_at yi k 0 /\ out_at ys k i = out_at yi k 0.
Proof.
  intros Hc E Hi. destruct (build_shapes _ _ _ Hc) as (HO & S1 & S2 & S3 & S4).
  set (n := length l) in *. set (b := nth i l e0).
  destruct (blk_shapes b (HO b (nth_In _ _ Hi))) as (T1 & T2 & T3 & T4).
  assert (Ls : length (chan_inputs n us i) = length us) by (unfold chan_inputs; rewrite map_length, seq_length; auto).
  assert (F : Forall (input_fits 1) (chan_inputs n us i)).
  { apply Forall_forall. intros x Hx. unfold chan_inputs in Hx. apply in_map_iff in Hx as (k & <- & _).
    split; left; reflexivity. }
  pose proof (ssr_sized' (single b nw) 1 _ T1 T2 T3 T4) as Hs1.
  destruct (proj2 (gen_ok 1 _ _ Hs1 d _) F) as (si & yi & Ei).
  exists si, yi. split; [rewrite (ssr_run_frun (single b nw) 1 _ T1 T3); auto|].
  rewrite (ssr_run_frun c n _ S1 S3) in E.
  pose proof (ssr_sized' c n _ S1 S2 S3 S4) as Hs.
  destruct (gen_inv _ _ _ Hs _ _ _ _ E) as (vs & Hv & Ey & L).
  destruct (gen_inv _ _ _ Hs1 _ _ _ _ Ei) as (ws & Hw & Ez & Li).
  pose proof (Forall2_len _ _ _ Hv) as Lv. pose proof (Forall2_len _ _ _ Hw) as Lw.
  assert (Hlen : forall v, In v vs -> length (fst v) = n /\ length (snd v) = n).
  { intros v Hin. destruct (In_nth _ _ ([], []) Hin) as (m & Hm & <-).
    eapply fitted_length. apply (Forall2_nth _ _ _ ([], None) ([], []) Hv). lia. }
  assert (Ew : ws = map (fun v => ([nth i (fst v) 0], [nth i (snd v) 0])) vs).
  { apply nth_ext with (d := ([], [])) (d' := ([nth i [] 0], [nth i [] 0])); [rewrite map_length; lia|].
    intros k Hk. rewrite (map_nth (fun v => ([nth i (fst v) 0], [nth i (snd v) 0])) vs ([], [])).
    pose proof (Forall2_nth _ _ _ ([], None) ([], []) Hw k ltac:(lia)) as Hf.
    pose proof (Forall2_nth _ _ _ ([], None) ([], []) Hv k ltac:(lia)) as Hg.
    assert (En : nth k (chan_inputs n us i) ([], None) = ([in_at n us k i], Some [gain_at n us k i])).
    { unfold chan_inputs. rewrite nth_map_seq by lia. reflexivity. }
    rewrite En in Hf. destruct Hf as [F1 F2]. cbn [fst snd] in F1, F2. unfold fit in F1, F2. cbn in F1, F2.
    destruct (nth k ws ([], [])) as [w1 w2]. cbn [fst snd] in F1, F2. injection F1 as <-. injection F2 as <-.
    destruct Hg as [G1 G2]. unfold in_at, gain_at. rewrite <- (fit_chan n _ _ i Hi G1). f_equal. f_equal.
    destruct (snd (nth k us ([], None))).
    - rewrite <- (fit_chan n _ _ i Hi G2). reflexivity.
    - injection G2 as <-. unfold ones. rewrite repeat_map_seq, nth_map_seq by auto. reflexivity. }
  assert (ND : forall k, (k < length us)%nat -> nd_at ys k i = nd_at yi k 0).
  { intros k Hk. subst ys yi. rewrite !nd_at_outs by (rewrite lrun_length; lia).
    assert (Hz : fitx l (map (fun b : blk A => @zeros A (length (bA b))) l) /\ concat (map (fun b : blk A => @zeros A (length (bA b))) l) = zeros (total_states l)).
    { clear. induction l as [|b l [I1 I2]]; [split; [constructor|reflexivity]|]. split.
      - constructor; auto. apply repeat_length.
      - cbn [map concat]. rewrite I2. unfold total_states. cbn [map]. rewrite list_sum_cons.
        unfold zeros. rewrite repeat_app. reflexivity. }
    destruct Hz as [Hz1 Hz2]. rewrite <- Hz2.
    rewrite (block_lrun l nw c vs Hc Hlen _ Hz1 i k Hi) by lia.
    rewrite Ew. fold b.
    rewrite (nth_indep (map (fun b : blk A => @zeros A (length (bA b))) l) [] (@zeros A (length (bA e0)))) by (rewrite map_length; auto).
    rewrite (map_nth (fun b : blk A => @zeros A (length (bA b)))). reflexivity. }
  intros k Hk. split; auto.
  rewrite (gen_out n _ _ Hs d us s ys) by auto.
  rewrite (gen_out 1 _ _ Hs1 d (chan_inputs n us i) si yi) by (auto; lia).
  assert (EA : forall j, ago (fun k => nd_at ys k i) k j = ago (fun k => nd_at yi k 0) k j).
  { intros j. apply ago_ext. intros m Hm. apply ND. lia. }
  destruct d; rewrite !EA; reflexivity.
Qed.

Lemma integrator_blocks_nth g ff l : integrator_blocks g ff = Ok l -> length l = length g /\
  forall i, (i < length g)%nat -> nth i l e0 = mkBlk [[ff_at A g ff i]] [[nth i g 0]] [[1]] [[0]].
Proof.
  unfold integrator_blocks. intros E.
  destruct (match ff with Some f => fit (length g) f | None => Ok (ones (length g)) end) as [f|] eqn:Ef; [|discriminate].
  injection E as <-.
  assert (Lf : length f = length g).
  { destruct ff; [eapply fit_length; eauto|]. injection Ef as <-. apply repeat_length. }
  split; [rewrite map2_length; lia|]. intros i Hi.
  rewrite map2_nth with (a := 0) (b := 0) by lia. f_equal. f_equal. f_equal.
  unfold ff_at. destruct ff.
  - eapply fit_chan; eauto.
  - injection Ef as <-. unfold ones. rewrite repeat_map_seq, nth_map_seq by auto. reflexivity.
Qed.

Lemma chan_inputs_at n us i k : (k < length us)%nat ->
  in_at 1 (chan_inputs n us i) k 0 = in_at n us k i /\ gain_at 1 (chan_inputs n us i) k 0 = gain_at n us k i.
Proof. intros Hk. unfold in_at at 1, gain_at at 1, chan_inputs. rewrite nth_map_seq by auto. auto. Qed.

(* the state-space integrator is the recursive integrator *)
Lemma ssr_integrator_closed g ff l c d us s ys i k : integrator_blocks g ff = Ok l ->
  build_blocks l true = Ok c -> ssr_run c d us = Ok (s, ys) -> (i < length g)%nat -> (k < length us)%nat ->
  nd_at ys k i = sumn (S k) (fun t => nth i g 0 * pow (ff_at A g ff i) (k - t) *
     (gain_at (length g) us t i * in_at (length g) us t i)).
Proof.
  intros El Hc E Hi Hk. destruct (integrator_blocks_nth _ _ _ El) as [Ll Hl].
  destruct (blocks_channels _ _ _ _ _ _ _ i Hc E ltac:(lia)) as (si & yi & Ei & HY).
  destruct (HY k Hk) as [-> _]. rewrite Hl in Ei by auto. rewrite Ll in Ei.
  set (a := nth i g 0) in *. set (f := ff_at A g ff i) in *.
  set (b := mkBlk [[f]] [[a]] [[1]] [[0]]) in *.
  destruct (blk_shapes b eq_refl) as (T1 & T2 & T3 & T4).
  destruct (ssr_run_rec (single b true) 1 1 T1 T2 T3 T4 d _ _ _ Ei) as (x & X0 & HX).
  set (vs := chan_inputs (length g) us i) in *.
  assert (Lv : length vs = length us) by (unfold vs, chan_inputs; rewrite map_length, seq_length; auto).
  assert (Hin : forall m, (m < length us)%nat -> ssr_in 1 vs m = [in_at (length g) us m i * gain_at (length g) us m i]).
  { intros m Hm. unfold ssr_in. cbn [seq map]. destruct (chan_inputs_at (length g) us i m Hm) as [Q1 Q2]. fold vs in Q1, Q2. rewrite Q1, Q2. reflexivity. }
  assert (St : forall m, (m <= length us)%nat -> x m = [sumn m (fun t => a * pow f (m - 1 - t) * (gain_at (length g) us t i * in_at (length g) us t i))]).
  { induction m as [|m IH]; intros Hm; [exact X0|].
    destruct (HX m ltac:(lia)) as [-> _]. rewrite IH, Hin by lia. unfold single. cbn [sA sB bA bB b mv map vadd map2].
    unfold dot, vsum. cbn [map2 fold_left]. cbn [sumn]. f_equal.
    replace (S m - 1 - m)%nat with 0%nat by lia. cbn [pow].
    rewrite (sumn_ext m (fun t => a * pow f (S m - 1 - t) * (gain_at (length g) us t i * in_at (length g) us t i))
      (fun t => f * (a * pow f (m - 1 - t) * (gain_at (length g) us t i * in_at (length g) us t i)))).
    2: { intros t Ht. replace (S m - 1 - t)%nat with (S (m - 1 - t)) by lia. cbn [pow]. ring. }
    rewrite sumn_scale by auto. ring. }
  destruct (HX k ltac:(lia)) as [_ Hy]. unfold nd_at. rewrite Hy. rewrite St, Hin by lia.
  unfold single. cbn [snew sC sD bC bD b mv map vadd map2 nth]. unfold dot, vsum. cbn [map2 fold_left].
  rewrite (sumn_ext (S k) (fun t => a * pow f (S k - 1 - t) * (gain_at (length g) us t i * in_at (length g) us t i))
     (fun t => a * pow f (k - t) * (gain_at (length g) us t i * in_at (length g) us t i))).
  2: { intros t Ht. replace (S k - 1 - t)%nat with (k - t)%nat by lia. reflexivity. }
  ring.
Qed.

Lemma ssr_gain (g : vec A) c nw d (us : list (finput A)) s ys i k : build_blocks (gain_blocks g) nw = Ok c ->
  ssr_run c d us = Ok (s, ys) -> (i < length g)%nat -> (k < length us)%nat ->
  nd_at ys k i = nth i g 0 * (gain_at (length g) us k i * in_at (length g) us k i).
Proof.
  intros Hc E Hi Hk.
  assert (Ll : length (gain_blocks g) = length g) by apply map_length.
  destruct (blocks_channels _ _ _ _ _ _ _ i Hc E ltac:(lia)) as (si & yi & Ei & HY).
  destruct (HY k Hk) as [-> _]. rewrite Ll in Ei.
  assert (Hl : nth i (gain_blocks g) e0 = mkBlk [[0]] [[0]] [[0]] [[nth i g 0]]).
  { unfold gain_blocks. rewrite (nth_indep _ e0 (mkBlk [[0]] [[0]] [[0]] [[0]])) by (rewrite map_length; auto).
    rewrite (map_nth (fun a => mkBlk [[0]] [[0]] [[0]] [[a]])). reflexivity. }
  rewrite Hl in Ei. set (b := mkBlk [[0]] [[0]] [[0]] [[nth i g 0]]) in *.
  destruct (blk_shapes b eq_refl) as (T1 & T2 & T3 & T4).
  destruct (ssr_run_rec (single b nw) 1 1 T1 T2 T3 T4 d _ _ _ Ei) as (x & X0 & HX).
  set (vs := chan_inputs (length g) us i) in *.
  assert (Lv : length vs = length us) by (unfold vs, chan_inputs; rewrite map_length, seq_length; auto).
  destruct (HX k ltac:(lia)) as [_ Hy]. unfold nd_at. rewrite Hy.
  unfold ssr_in. cbn [seq map]. destruct (chan_inputs_at (length g) us i k Hk) as [Q1 Q2]. fold vs in Q1, Q2. rewrite Q1, Q2.
  unfold single. cbn [snew sC sD bC bD b mv map vadd map2 nth]. unfold dot, vsum. cbn [map2 fold_left].
  destruct (if nw then x (S k) else x k) as [|q [|]]; cbn [map2 fold_left]; ring.
Qed.
End F.
