(* Integrator, delay transfer function, state-space filter. *)
From Coq Require Import List Bool PeanoNat Wf_nat Lia Field_theory Ring_theory Ring Field.
From Verif Require Import PyBase Arith ArithLemmas FilterModel FilterSpec SumLemmas FilterProofs IirProofs FilterFacts.
Import ListNotations.
Local Open Scope ar_scope.

Lemma expand_length {B} (ms : list nat) (l : list B) : length ms = length l ->
  length (expand ms l) = list_sum ms.
Proof.
  unfold expand. revert l. induction ms as [|m ms IH]; intros [|x l] H; try discriminate; auto.
  cbn [map2 concat]. rewrite app_length, repeat_length, IH by (simpl in H; lia). reflexivity.
Qed.

Lemma expand_nth {B} (ms : list nat) (l : list B) (e : B) b i : length ms = length l ->
  (list_sum (firstn b ms) <= i < list_sum (firstn (S b) ms))%nat -> nth i (expand ms l) e = nth b l e.
Proof.
  revert l b i. induction ms as [|m ms IH]; intros [|x l] b i H; try discriminate.
  - intros Hi. simpl in Hi. destruct b; simpl in Hi; lia.
  - intros Hi. unfold expand. cbn [map2 concat]. destruct b as [|b].
    + cbn [firstn] in Hi. unfold list_sum in Hi. cbn [fold_right] in Hi.
      rewrite app_nth1 by (rewrite repeat_length; lia). cbn [nth].
      clear -Hi. revert i Hi. induction m; intros [|i] Hi; simpl; auto; try lia. apply IHm. lia.
    + change (firstn (S b) (m :: ms)) with (m :: firstn b ms) in Hi.
      change (firstn (S (S b)) (m :: ms)) with (m :: firstn (S b) ms) in Hi.
      assert (Es : forall q, list_sum (m :: q) = (m + list_sum q)%nat) by reflexivity.
      rewrite !Es in Hi.
      rewrite app_nth2 by (rewrite repeat_length; lia). rewrite repeat_length. cbn [nth].
      apply IH; [simpl in H; lia|lia].
Qed.

Section Field.
Variable A : arith.
Hypothesis HF : is_field A.
Let HF' : field_theory (@zer A) one add mul sub opp dvd inv eq := HF.
Add Field fA4 : HF'.

Lemma one_neq_zero : (1 : A) <> 0.
Proof. exact (F_1_neq_0 HF'). Qed.

Definition ff_at (g : vec A) (ff : option (vec A)) (b : nat) : A :=
  match ff with None => 1 | Some f => chan_val (length g) f b end.

Lemma integrator_shape modes g ff ig c : integrator modes g ff ig = Ok c ->
  iinteg c = ig /\ shape (inum c) (n_channels modes g) 2 /\ shape (iden c) (n_channels modes g) 2 /\
  forall b i, in_group modes b i -> (i < n_channels modes g)%nat ->
    nth i (inum c) [] = [0; nth b g 0] /\ nth i (iden c) [] = [opp (ff_at g ff b); 1].
Proof.
  unfold integrator, from_gain_and_ff. intros E.
  assert (G : exists G F, integ_expand modes g ff = Ok (G, F) /\ length G = n_channels modes g /\
     (forall b i, in_group modes b i -> (i < n_channels modes g)%nat -> nth i G 0 = nth b g 0) /\
     (forall w, match F with None => Ok (ones (length G)) | Some f => fit (length G) f end = Ok w ->
        length w = length G /\
        forall b i, in_group modes b i -> (i < n_channels modes g)%nat -> nth i w 0 = ff_at g ff b)).
  { unfold integ_expand in *. destruct modes as [ms|]; cbn [n_channels in_group] in *.
    - destruct (Nat.eqb_spec (length ms) (length g)) as [e|]; [|discriminate]. cbn [negb] in *.
      destruct ff as [f|].
      + destruct (Nat.eqb_spec (length ms) (length f)) as [e2|]; [|discriminate]. cbn [negb] in *.
        exists (expand ms g), (Some (expand ms f)). split; auto. rewrite !expand_length by auto.
        split; auto. split; [intros; apply expand_nth; auto|].
        intros w Hw. unfold fit in Hw. rewrite expand_length, Nat.eqb_refl in Hw by auto.
        injection Hw as <-. split; [apply expand_length; auto|]. intros b i Hb Hi. unfold ff_at, chan_val.
        replace (Nat.eqb (length f) (length g)) with true by (symmetry; apply Nat.eqb_eq; congruence).
        apply expand_nth; auto.
      + exists (expand ms g), None. split; auto. rewrite !expand_length by auto.
        split; auto. split; [intros; apply expand_nth; auto|].
        intros w [= <-]. unfold ones. split; [apply repeat_length|]. intros b i _ Hi. unfold ff_at.
        rewrite repeat_map_seq, nth_map_seq by auto. reflexivity.
    - exists g, ff. split; auto. split; auto. split; [intros; subst; auto|].
      intros w Hw. destruct ff as [f|].
      + split; [eapply fit_length; eauto|]. intros b i -> Hi. unfold ff_at. eapply fit_chan; eauto.
      + injection Hw as <-. unfold ones. split; [apply repeat_length|]. intros b i _ Hi. unfold ff_at.
        rewrite repeat_map_seq, nth_map_seq by auto. reflexivity. }
  destruct G as (G & F & E1 & LG & HG & HW). rewrite E1 in E. cbn [bind fst snd] in E.
  destruct (match F with None => Ok (ones (length G)) | Some f => fit (length G) f end) as [w|] eqn:Ew; [|discriminate].
  destruct (HW w eq_refl) as [Lw Hw]. cbn [bind] in E. injection E as <-. cbn [inum iden iinteg].
  split; auto. split; [|split].
  - split; [rewrite map_length; auto|]. intros r Hr. apply in_map_iff in Hr as (? & <- & _). auto.
  - split; [rewrite map_length; lia|]. intros r Hr. apply in_map_iff in Hr as (? & <- & _). auto.
  - intros b i Hb Hi. split.
    + rewrite <- (HG b i Hb Hi). rewrite (nth_indep _ [] [0; 0]) by (rewrite map_length; lia).
      rewrite (map_nth (fun a => [0; a])). reflexivity.
    + rewrite <- (Hw b i Hb Hi). rewrite (nth_indep _ [] [opp 0; 1]) by (rewrite map_length; lia).
      rewrite (map_nth (fun a => [opp a; 1])). reflexivity.
Qed.

Lemma integrator_closed modes g ff c d us s ys b i k : integrator modes g ff true = Ok c ->
  iir_run c d us = Ok (s, ys) -> in_group modes b i -> (i < n_channels modes g)%nat -> (k < length us)%nat ->
  let n := n_channels modes g in
  nd_at ys k i = sumn (S k) (fun t => nth b g 0 * pow (ff_at g ff b) (k - t) * (gain_at n us t i * in_at n us t i)).
Proof.
  intros Ei E Hb Hi Hk n.
  destruct (integrator_shape _ _ _ _ _ Ei) as (Hg & S1 & S2 & HR). fold n in S1, S2, HR.
  destruct (HR b i Hb Hi) as [Rn Rd].
  assert (Rec : forall k, (k < length us)%nat -> nd_at ys k i =
            ff_at g ff b * ago (fun k => nd_at ys k i) k 1 + nth b g 0 * (gain_at n us k i * in_at n us k i)).
  { intros m Hm. pose proof (iir_diff_eq A HF c n 1 1 S1 S2 d us s ys m i Hg E Hm Hi) as H.
    rewrite Rn, Rd in H. specialize (H one_neq_zero). cbn [sumn nth Nat.sub] in H.
    change (ago (fun k => nd_at ys k i) m 0) with (nd_at ys (m - 0) i) in H.
    change (ago (fun k => in_at n us k i) m 0) with (in_at n us (m - 0) i) in H.
    rewrite Nat.sub_0_r in H.
    transitivity ((0 + 1 * nd_at ys m i + opp (ff_at g ff b) * ago (fun k0 => nd_at ys k0 i) m 1)
                  + ff_at g ff b * ago (fun k0 => nd_at ys k0 i) m 1); [ring|]. rewrite H. ring. }
  clear E. induction k as [|k IH].
  - rewrite Rec by auto. unfold ago. cbn [Nat.leb sumn pow Nat.sub]. ring.
  - rewrite Rec by auto. cbn [sumn]. rewrite Nat.sub_diag. cbn [pow].
    change (ago (fun k => nd_at ys k i) (S k) 1) with (nd_at ys (S k - 1) i).
    replace (S k - 1)%nat with k by lia. rewrite IH by lia. cbn [sumn]. rewrite Nat.sub_diag.
    replace (S k - k)%nat with 1%nat by lia. cbn [pow].
    rewrite (sumn_ext k (fun t => nth b g 0 * pow (ff_at g ff b) (S k - t) * (gain_at n us t i * in_at n us t i))
       (fun t => ff_at g ff b * (nth b g 0 * pow (ff_at g ff b) (k - t) * (gain_at n us t i * in_at n us t i)))).
    2: { intros t Ht. replace (S k - t)%nat with (S (k - t)) by lia. cbn [pow]. ring. }
    rewrite sumn_scale by auto. ring.
Qed.

(* -------------------------------------------------------- delay transfer function *)
Definition tf_filter (d : delay A) : iir A := mkIir [fst (delay_tf d)] [snd (delay_tf d)] true.

Lemma tf_shape d : shape (inum (tf_filter d)) 1 (S (dceil d)) /\ shape (iden (tf_filter d)) 1 (S (dceil d)).
Proof.
  unfold tf_filter, delay_tf. split; (split; [reflexivity|]); intros r [<-|[]]; destruct d;
    cbn [inum iden fst snd dceil]; rewrite ?map_length, ?seq_length, ?app_length; unfold zeros; rewrite ?repeat_length; simpl; lia.
Qed.

Lemma tf_run d (w : list A) s ys k : iir_run (tf_filter d) (DInt 0) (map (fun x => ([x], None)) w) = Ok (s, ys) ->
  (k < length w)%nat ->
  out_at ys k 0 = match d with
                  | DInt m => ago (fun k => nth k w 0) k m
                  | DFrac m f => f * ago (fun k => nth k w 0) k (S m) + (1 - f) * ago (fun k => nth k w 0) k m
                  end.
Proof.
  intros E Hk. destruct (tf_shape d) as [S1 S2].
  set (us := map (fun x => ([x], None)) w) in *.
  assert (Lu : length us = length w) by (unfold us; rewrite map_length; auto).
  rewrite (iir_out _ 1 _ _ S1 S2 _ _ _ _ _ _ E) by lia.
  unfold ago at 1. cbn [Nat.leb]. rewrite Nat.sub_0_r.
  assert (Hin : forall m, (m < length w)%nat -> in_at 1 us m 0 = nth m w 0).
  { intros m Hm. unfold in_at, us. rewrite (nth_indep _ _ ([0:A], None)) by (rewrite map_length; lia).
    rewrite (map_nth (fun x => ([x], None))). reflexivity. }
  assert (Hgn : gain_at 1 us k 0 = 1).
  { unfold gain_at, us. rewrite (nth_indep _ _ ([0:A], None)) by (rewrite map_length; lia).
    rewrite (map_nth (fun x => ([x], None))). reflexivity. }
  assert (Hd : forall j, (j < dceil d)%nat -> nth j (nth 0 (iden (tf_filter d)) []) 0 = 0).
  { intros j Hj. unfold tf_filter, delay_tf. destruct d; cbn [iden nth snd dceil] in *;
      rewrite app_nth1 by (unfold zeros; rewrite repeat_length; lia); apply nth_repeat_same. }
  assert (Hl : nth (dceil d) (nth 0 (iden (tf_filter d)) []) 0 = 1).
  { unfold tf_filter, delay_tf. destruct d; cbn [iden nth snd dceil] in *;
      rewrite app_nth2 by (unfold zeros; rewrite repeat_length; lia);
      unfold zeros; rewrite repeat_length, Nat.sub_diag; reflexivity. }
  pose proof (iir_diff_eq A HF (tf_filter d) 1 _ _ S1 S2 (DInt 0) us s ys k 0 eq_refl E ltac:(lia) ltac:(lia)) as H.
  rewrite Hl in H. specialize (H one_neq_zero).
  rewrite sumn_first in H by auto. rewrite Nat.sub_0_r, Hl in H.
  rewrite (sumn_zero A HF (dceil d)) in H.
  2: { intros j Hj. rewrite Hd by lia. ring. }
  change (ago (fun k => nd_at ys k 0) k 0) with (nd_at ys (k - 0) 0) in H. rewrite Nat.sub_0_r in H.
  rewrite Hgn in H.
  transitivity (1 * nd_at ys k 0 + 0); [ring|]. rewrite H. clear H.
  assert (Ha : forall j, ago (fun k => in_at 1 us k 0) k j = ago (fun k => nth k w 0) k j).
  { intros j. apply ago_ext. intros. apply Hin. lia. }
  unfold tf_filter, delay_tf. destruct d as [m|m f]; cbn [inum nth fst dceil].
  - rewrite (sumn_single A HF _ m); [|lia|].
    + rewrite Nat.sub_diag, nth_map_seq, Ha by lia. cbn [Nat.eqb]. ring.
    + intros j Hj Hn. rewrite nth_map_seq by lia.
      destruct (Nat.eqb_spec (m - j) 0); [lia|]. ring.
  - cbn [sumn]. rewrite (sumn_zero A HF m).
    2: { intros j Hj. rewrite nth_map_seq by lia.
         destruct (Nat.eqb_spec (S m - j) 0); [lia|]. destruct (Nat.eqb_spec (S m - j) 1); [lia|]. ring. }
    rewrite !nth_map_seq by lia. rewrite Nat.sub_diag. replace (S m - m)%nat with 1%nat by lia.
    cbn [Nat.eqb]. rewrite !Ha. ring.
Qed.
End Field.

(* ------------------------------------------------------------------- state space *)
Section Ssr.
Context {A : arith}.
Variable c : ssr A.
Variables n nx : nat.
Hypothesis SA : shape (sA c) nx nx.
Hypothesis SB : shape (sB c) nx n.
Hypothesis SC : shape (sC c) n nx.
Hypothesis SD : shape (sD c) n n.

Definition ssr_inv (x : vec A) : Prop := length x = nx.

Lemma ssr_law_ok x u g : ssr_inv x -> length u = n -> length g = n ->
  ssr_inv (fst (ssr_law c x u g)) /\ length (snd (ssr_law c x u g)) = n.
Proof.
  intros Hx Lu Lg. unfold ssr_law, ssr_inv, vadd. cbn [fst snd].
  destruct SA, SB, SC, SD. rewrite !map2_length, !mv_length. lia.
Qed.

Lemma ssr_sized : sized n (ssr_law c) (zeros (length (sA c))).
Proof.
  exists ssr_inv. split; [unfold ssr_inv, zeros; rewrite repeat_length; apply SA|]. apply ssr_law_ok.
Qed.

Lemma ssr_run_frun d us : ssr_run c d us = frun n d (ssr_law c) (finit n d (zeros nx)) us.
Proof. unfold ssr_run. destruct SC as [-> _], SA as [-> _]. reflexivity. Qed.

Lemma ssr_sized' : sized n (ssr_law c) (zeros nx).
Proof. destruct SA as [H _]. rewrite <- H. apply ssr_sized. Qed.

(* modulated input of step k *)
Definition ssr_in (us : list (vec A * option (vec A))) (k : nat) : vec A :=
  map (fun i => in_at n us k i * gain_at n us k i) (seq 0 n).

Lemma ssr_run_rec d us s ys : ssr_run c d us = Ok (s, ys) ->
  exists x : nat -> vec A, x 0%nat = zeros nx /\ forall k, (k < length us)%nat ->
    x (S k) = vadd (mv (sA c) (x k)) (mv (sB c) (ssr_in us k)) /\
    snd (nth k ys ([], [])) = vadd (mv (sC c) (if snew c then x (S k) else x k)) (mv (sD c) (ssr_in us k)).
Proof.
  rewrite ssr_run_frun. intros E.
  destruct (gen_inv _ _ _ ssr_sized' _ _ _ _ E) as (vs & Hv & -> & L). rewrite outs_length, lrun_length in L.
  assert (Hu : forall k, (k < length us)%nat -> vmul (fst (nth k vs ([], []))) (snd (nth k vs ([], []))) = ssr_in us k).
  { intros k Hk. pose proof (Forall2_nth _ _ _ ([], None) ([], []) Hv k Hk) as Hf.
    destruct (fitted_length _ _ _ Hf) as [L1 L2]. destruct Hf as [F1 F2].
    rewrite (map_seq_nth' _ 0 n L1) at 1. rewrite (map_seq_nth' _ 0 n L2) at 1.
    unfold vmul, ssr_in. rewrite map2_map. apply map_ext_in. intros i Hi%in_seq. f_equal.
    - unfold in_at. eapply fit_chan; eauto. lia.
    - unfold gain_at. destruct (snd (nth k us ([], None))).
      + eapply fit_chan; eauto. lia.
      + injection F2 as <-. unfold ones. rewrite repeat_map_seq, nth_map_seq; auto. lia. }
  clear E Hv.
  assert (G : forall vs x0, exists x : nat -> vec A, x 0%nat = x0 /\ forall k, (k < length vs)%nat ->
     let u := vmul (fst (nth k vs ([], []))) (snd (nth k vs ([], []))) in
     x (S k) = vadd (mv (sA c) (x k)) (mv (sB c) u) /\
     nth k (snd (lrun _ (ssr_law c) x0 vs)) [] = vadd (mv (sC c) (if snew c then x (S k) else x k)) (mv (sD c) u)).
  { clear. induction vs as [|v r IH]; intros x0.
    - exists (fun _ => x0). split; auto. intros k Hk. simpl in Hk. lia.
    - destruct (IH (fst (ssr_law c x0 (fst v) (snd v)))) as (x & X0 & HX).
      exists (fun k => match k with 0%nat => x0 | S m => x m end). split; auto.
      intros [|k] Hk.
      + cbn [nth]. rewrite X0. cbn [lrun]. unfold ssr_law at 1 2. cbn [fst snd].
        unfold ssr_law at 1.
        match goal with |- context [lrun ?a ?b ?cc r] => destruct (lrun a b cc r) end.
        split; auto.
      + cbn [nth]. simpl in Hk. specialize (HX k ltac:(lia)). cbv zeta in HX.
        cbn [lrun]. destruct (ssr_law c x0 (fst v) (snd v)) as [x' y] eqn:El. cbn [fst] in *.
        destruct (lrun _ (ssr_law c) x' r). exact HX. }
  destruct (G vs (zeros nx)) as (x & X0 & HX). exists x. split; auto. intros k Hk.
  specialize (HX k ltac:(lia)). cbv zeta in HX. rewrite Hu in HX by auto. destruct HX as [H1 H2].
  split; auto. rewrite outs_nth by (rewrite lrun_length; lia). exact H2.
Qed.

Lemma ssr_reset d us0 s0 y0 us : ssr_run c d us0 = Ok (s0, y0) ->
  match frun n d (ssr_law c) (freset ssr_rx s0) us, ssr_run c d us with
  | Ok (_, y1), Ok (_, y2) => y1 = y2
  | Err e1, Err e2 => e1 = e2
  | _, _ => False
  end.
Proof.
  rewrite !ssr_run_frun. intros E.
  assert (I0 : ssr_inv (zeros nx)) by (unfold ssr_inv, zeros; apply repeat_length).
  destruct (run_inv _ n d (ssr_law c) ssr_inv ssr_law_ok us0 _ [] s0 y0 (rep_init _ n d _) I0 E)
    as (vs & Hv & _ & Ex & Hx & Hr).
  assert (Ez : ssr_rx (fx s0) = zeros nx) by (unfold ssr_rx, zeros; apply map_const_rev; exact Hx).
  apply outs_reset with (P := ssr_inv); auto.
  - apply ssr_law_ok.
  - eapply rep_reset; eauto.
  - apply rep_init.
  - cbn [freset fx]. rewrite Ez. exact I0.
Qed.

Hypothesis HF : is_field A.
Let HF' : field_theory (@zer A) one add mul sub opp dvd inv eq := HF.
Add Field fA5 : HF'.

Lemma mpow_length k v : length v = nx -> length (mpow (sA c) k v) = nx.
Proof. intros. destruct k; auto. cbn [mpow]. rewrite mv_length. apply SA. Qed.

Lemma vsumn_length m k (v : nat -> vec A) : (forall j, (j < k)%nat -> length (v j) = m) -> length (vsumn m k v) = m.
Proof.
  induction k; intros H; cbn [vsumn]; [apply repeat_length|]. apply vadd_length; auto.
Qed.

Lemma vsumn_ext m k (v w : nat -> vec A) : (forall j, (j < k)%nat -> v j = w j) -> vsumn m k v = vsumn m k w.
Proof. induction k; intros H; cbn [vsumn]; auto. rewrite IHk, H; auto. Qed.

Lemma vsumn_first m k (v : nat -> vec A) : (forall j, (j < S k)%nat -> length (v j) = m) ->
  vsumn m (S k) v = vadd (v 0%nat) (vsumn m k (fun j => v (S j))).
Proof.
  induction k as [|k IH]; intros H.
  - cbn [vsumn]. rewrite <- (H 0%nat) by lia. apply vadd_comm; auto.
  - change (vsumn m (S (S k)) v) with (vadd (vsumn m (S k) v) (v (S k))).
    rewrite IH by (intros; apply H; lia).
    rewrite <- vadd_assoc by auto. reflexivity.
Qed.

Lemma mv_vsumn (M : mat A) p m k (v : nat -> vec A) : shape M p m -> (forall j, (j < k)%nat -> length (v j) = m) ->
  mv M (vsumn m k v) = vsumn p k (fun j => mv M (v j)).
Proof.
  intros HM. induction k; intros H; cbn [vsumn].
  - apply mv_zeros; auto.
  - rewrite (mv_add A HF M _ _ p m), IHk; auto. apply vsumn_length; auto.
Qed.

(* response to an impulse of value [v], [j] steps later *)
Definition ssr_resp (j : nat) (v : vec A) : vec A :=
  if snew c
  then match j with
       | 0%nat => vadd (mv (sC c) (mv (sB c) v)) (mv (sD c) v)
       | S _ => mv (sC c) (mpow (sA c) j (mv (sB c) v))
       end
  else match j with
       | 0%nat => mv (sD c) v
       | S m => mv (sC c) (mpow (sA c) m (mv (sB c) v))
       end.

Lemma ssr_in_length us k : length (ssr_in us k) = n.
Proof. unfold ssr_in. rewrite map_length, seq_length. auto. Qed.

Lemma mv_len (M : mat A) p m v : shape M p m -> length (mv M v) = p.
Proof. intros [H _]. rewrite mv_length. auto. Qed.

Lemma ssr_conv d us s ys k : ssr_run c d us = Ok (s, ys) -> (k < length us)%nat ->
  snd (nth k ys ([], [])) = vsumn n (S k) (fun j => ssr_resp j (ssr_in us (k - j))).
Proof.
  intros E Hk. destruct (ssr_run_rec _ _ _ _ E) as (x & X0 & HX).
  assert (St : forall k, (k <= length us)%nat ->
     x k = vsumn nx k (fun j => mpow (sA c) j (mv (sB c) (ssr_in us (k - 1 - j))))).
  { clear k Hk. induction k as [|k IH]; intros Hk; [exact X0|].
    destruct (HX k ltac:(lia)) as [-> _]. rewrite IH by lia.
    assert (LB : forall j, length (mv (sB c) (ssr_in us j)) = nx) by (intros; eapply mv_len; apply SB).
    rewrite (mv_vsumn _ nx nx) by (auto; intros; apply mpow_length; auto).
    rewrite vsumn_first by (intros; apply mpow_length; auto). cbn [mpow].
    replace (S k - 1 - 0)%nat with k by lia. rewrite vadd_comm by auto. f_equal.
    apply vsumn_ext. intros j Hj. replace (S k - 1 - S j)%nat with (k - 1 - j)%nat by lia. reflexivity. }
  destruct (HX k Hk) as [X1 Y1]. rewrite Y1.
  assert (LB : forall j, length (mv (sB c) (ssr_in us j)) = nx) by (intros; eapply mv_len; apply SB).
  unfold ssr_resp. destruct (snew c).
  - rewrite St by lia. rewrite (mv_vsumn _ n nx) by (auto; intros; apply mpow_length; auto).
    rewrite vsumn_first by (intros; eapply mv_len; apply SC). cbn [mpow].
    rewrite vsumn_first.
    2: { intros [|j] Hj; [apply vadd_length|]; eapply mv_len; eauto. }
    replace (S k - 1 - 0)%nat with k by lia. rewrite Nat.sub_0_r.
    rewrite <- !vadd_assoc by auto. f_equal. rewrite vadd_comm by auto. f_equal.
    apply vsumn_ext. intros j Hj. replace (S k - 1 - S j)%nat with (k - S j)%nat by lia. reflexivity.
  - rewrite St by lia. rewrite (mv_vsumn _ n nx) by (auto; intros; apply mpow_length; auto).
    rewrite vsumn_first.
    2: { intros [|j] Hj; eapply mv_len; eauto. }
    rewrite Nat.sub_0_r. rewrite vadd_comm by auto. f_equal.
    apply vsumn_ext. intros j Hj. replace (k - 1 - j)%nat with (k - S j)%nat by lia. reflexivity.
Qed.

(* linearity *)
Lemma vcomb_add a b (u1 u2 w1 w2 : vec A) :
  vadd (vadd (vscale a u1) (vscale b u2)) (vadd (vscale a w1) (vscale b w2)) =
  vadd (vscale a (vadd u1 w1)) (vscale b (vadd u2 w2)).
Proof.
  unfold vadd, vscale. revert u2 w1 w2. induction u1 as [|x u1 IH]; intros [|x2 u2] [|y1 w1] [|y2 w2];
    cbn [map map2]; auto. f_equal; auto. ring.
Qed.

Lemma mv_comb (M : mat A) p m a b u v : shape M p m -> length u = m -> length v = m ->
  mv M (vadd (vscale a u) (vscale b v)) = vadd (vscale a (mv M u)) (vscale b (mv M v)).
Proof.
  intros HM Lu Lv. rewrite (mv_add A HF M _ _ p m), !(mv_scale A HF M _ _ p m); auto; rewrite vscale_length; auto.
Qed.

Lemma mpow_comb a b k u v : length u = nx -> length v = nx ->
  mpow (sA c) k (vadd (vscale a u) (vscale b v)) = vadd (vscale a (mpow (sA c) k u)) (vscale b (mpow (sA c) k v)).
Proof.
  intros Lu Lv. induction k; auto. cbn [mpow]. rewrite IHk. apply mv_comb with (p := nx) (m := nx); auto;
    apply mpow_length; auto.
Qed.

Lemma resp_comb a b j u v : length u = n -> length v = n ->
  ssr_resp j (vadd (vscale a u) (vscale b v)) = vadd (vscale a (ssr_resp j u)) (vscale b (ssr_resp j v)).
Proof.
  intros Lu Lv. assert (LB : forall w, length (mv (sB c) w) = nx) by (intros; eapply mv_len; apply SB).
  unfold ssr_resp. rewrite (mv_comb (sB c) nx n), (mv_comb (sD c) n n) by auto.
  destruct (snew c), j; rewrite ?mpow_comb, ?(mv_comb (sC c) n nx) by (auto; apply mpow_length; auto); auto.
  apply vcomb_add.
Qed.

Lemma vsumn_comb a b m k (v w : nat -> vec A) :
  vsumn m k (fun j => vadd (vscale a (v j)) (vscale b (w j))) = vadd (vscale a (vsumn m k v)) (vscale b (vsumn m k w)).
Proof.
  induction k; cbn [vsumn].
  - unfold zeros, vscale, vadd. induction m; cbn [repeat map map2]; auto. f_equal; auto. ring.
  - rewrite IHk. apply vcomb_add.
Qed.

Lemma nth_comb a b (u v : vec A) i : length u = length v ->
  nth i (vadd (vscale a u) (vscale b v)) 0 = a * nth i u 0 + b * nth i v 0.
Proof.
  intros L. unfold vadd, vscale. destruct (Nat.lt_ge_cases i (length u)).
  - rewrite map2_nth with (a := 0) (b := 0) by (rewrite map_length; lia).
    rewrite !(nth_map0 A) by ring. reflexivity.
  - rewrite !nth_overflow; [ring| | |]; rewrite ?map2_length, ?map_length; lia.
Qed.

Lemma in_comb_at (a b : A) (us1 us2 us : list (finput A)) : length us1 = length us -> length us2 = length us ->
  (forall k, (k < length us)%nat -> in_comb a b (nth k us1 ([], None)) (nth k us2 ([], None)) (nth k us ([], None))) ->
  forall k i, (k < length us)%nat ->
    in_at n us k i = a * in_at n us1 k i + b * in_at n us2 k i /\
    gain_at n us k i = gain_at n us1 k i /\ gain_at n us k i = gain_at n us2 k i.
Proof.
  intros L1 L2 Hc k i Hk. destruct (Hc k Hk) as (Ha & Hg1 & Hg2 & Hb).
  unfold gain_at. rewrite <- Hg1 at 1. rewrite <- Hg2 at 1. split; [|split; auto; rewrite Hg1; congruence].
  unfold in_at, chan_val. rewrite Hb.
  assert (Ll : length (vadd (vscale a (fst (nth k us1 ([], None)))) (vscale b (fst (nth k us2 ([], None)))))
               = length (fst (nth k us1 ([], None)))).
  { unfold vadd, vscale. rewrite map2_length, !map_length. lia. }
  rewrite Ll, <- Ha, !nth_comb by auto. destruct (Nat.eqb _ n); reflexivity.
Qed.

Lemma ssr_linear a b d us1 us2 us s1 y1 s2 y2 :
  length us1 = length us -> length us2 = length us ->
  (forall k, (k < length us)%nat -> in_comb a b (nth k us1 ([], None)) (nth k us2 ([], None)) (nth k us ([], None))) ->
  ssr_run c d us1 = Ok (s1, y1) -> ssr_run c d us2 = Ok (s2, y2) ->
  exists s y, ssr_run c d us = Ok (s, y) /\ forall k i, (k < length us)%nat -> (i < n)%nat ->
    nd_at y k i = a * nd_at y1 k i + b * nd_at y2 k i /\
    out_at y k i = a * out_at y1 k i + b * out_at y2 k i.
Proof.
  intros L1 L2 Hc E1 E2.
  assert (F : Forall (input_fits n) us).
  { apply Forall_forall. intros x Hx. destruct (In_nth _ _ ([], None) Hx) as (k & Hk & <-).
    assert (F1 : Forall (input_fits n) us1)
      by (apply (proj1 (gen_ok n _ _ ssr_sized' d us1)); exists s1, y1; rewrite <- ssr_run_frun; auto).
    assert (Hk1 : (k < length us1)%nat) by lia.
    rewrite Forall_forall in F1. specialize (F1 _ (nth_In us1 ([], None) Hk1)).
    destruct F1 as [Fa Fb]. destruct (Hc k Hk) as (Ha & Hs & _ & Hb). split; [|rewrite <- Hs; exact Fb].
    unfold fits in *. rewrite Hb. unfold vadd, vscale. rewrite map2_length, !map_length. lia. }
  apply (proj2 (gen_ok n _ _ ssr_sized' d us)) in F as (s & y & E).
  rewrite <- ssr_run_frun in E.
  exists s, y. split; auto.
  assert (Hu : forall k, (k < length us)%nat -> ssr_in us k = vadd (vscale a (ssr_in us1 k)) (vscale b (ssr_in us2 k))).
  { intros k Hk. unfold ssr_in, vadd, vscale. rewrite !map_map, map2_map. apply map_ext. intros i.
    destruct (in_comb_at a b us1 us2 us L1 L2 Hc k i Hk) as (-> & <- & <-). ring. }
  assert (HV : forall k, (k < length us)%nat ->
     snd (nth k y ([], [])) = vadd (vscale a (snd (nth k y1 ([], [])))) (vscale b (snd (nth k y2 ([], []))))).
  { intros k Hk. rewrite (ssr_conv d us s y k E Hk), (ssr_conv d us1 s1 y1 k E1), (ssr_conv d us2 s2 y2 k E2) by lia.
    rewrite <- vsumn_comb. apply vsumn_ext. intros j Hj. rewrite Hu by lia.
    apply resp_comb; apply ssr_in_length. }
  assert (ND : forall k i, (k < length us)%nat -> nd_at y k i = a * nd_at y1 k i + b * nd_at y2 k i).
  { intros k i Hk. unfold nd_at. rewrite HV by auto. apply nth_comb.
    rewrite ssr_run_frun in E1, E2.
    destruct (gen_size n _ _ ssr_sized' d us1 s1 y1 k E1 ltac:(lia)) as [_ ->].
    destruct (gen_size n _ _ ssr_sized' d us2 s2 y2 k E2 ltac:(lia)) as [_ ->]. reflexivity. }
  intros k i Hk Hi. split; auto. rewrite ssr_run_frun in E, E1, E2.
  rewrite (gen_out n _ _ ssr_sized' d us s y) by auto.
  rewrite (gen_out n _ _ ssr_sized' d us1 s1 y1) by (auto; lia).
  rewrite (gen_out n _ _ ssr_sized' d us2 s2 y2) by (auto; lia).
  assert (EA : forall j, ago (fun k => nd_at y k i) k j = a * ago (fun k => nd_at y1 k i) k j + b * ago (fun k => nd_at y2 k i) k j).
  { intros j. rewrite <- (ago_lin A HF). apply ago_ext. intros m Hm. apply ND. lia. }
  destruct d; rewrite !EA; ring.
Qed.
End Ssr.

Lemma pow_one A (HF : is_field A) n : pow (one : A) n = one.
Proof.
  induction n as [|n IH]; cbn [pow]; auto. rewrite IH. destruct HF as [[_ _ _ H _ _ _ _ _] _ _ _]. apply H.
Qed.
