(* The IIR filter in terms of its input and output sequences. *)
From Coq Require Import List Bool PeanoNat Lia Field_theory Ring_theory Ring Field.
From Verif Require Import PyBase Arith ArithLemmas FilterModel FilterSpec SumLemmas FilterProofs.
Import ListNotations.
Local Open Scope ar_scope.

Lemma rev_win_shl {A : arith} n (h : list A) : shl (rev (win (S n) h)) = rev (win n h) ++ [0].
Proof. unfold shl. rewrite win_S, rev_app_distr. reflexivity. Qed.

Lemma set_last_win {A : arith} n (x : A) (h : list A) :
  set_last (shl (rev (win (S n) h))) x = rev (win (S n) (x :: h)).
Proof. rewrite rev_win_shl. unfold set_last. rewrite removelast_snoc, win_cons. reflexivity. Qed.

Lemma map_const_rev {A B} (b : B) (l : list A) n : length l = n -> map (fun _ => b) l = repeat b n.
Proof. intros <-. induction l; simpl; f_equal; auto. Qed.

Lemma nth_map_const {A B} (b e : B) (l : list A) j : (j < length l)%nat -> nth j (map (fun _ => b) l) e = b.
Proof. revert j; induction l; intros [|j]; simpl; intros; try lia; auto. apply IHl. lia. Qed.

Lemma rev_repeat {A} (x : A) n : rev (repeat x n) = repeat x n.
Proof.
  induction n; auto. simpl. rewrite IHn. clear. induction n; simpl; auto. f_equal. auto.
Qed.

Section Iir.
Context {A : arith}.
Variable c : iir A.
Variables n ni no : nat.
Hypothesis Snum : shape (inum c) n (S ni).
Hypothesis Sden : shape (iden c) n (S no).

Definition xrep (x : mat A * mat A) (hu hy : list (vec A)) : Prop :=
  fst x = map (fun i => rev (win (S ni) (chan i hu))) (seq 0 n) /\
  snd x = map (fun i => rev (win (S no) (chan i hy))) (seq 0 n).

Definition nrow (i : nat) := nth i (inum c) [].
Definition drow (i : nat) := nth i (iden c) [].
Definition mrow (r : vec A) : vec A :=
  if iinteg c then map (fun _ => 1) r else map (fun _ => 0) (removelast r) ++ [1].

(* one output value of one channel, from the latest-first histories *)
Definition iir_y (nr dr : vec A) (g : A) (h hy : list A) : A :=
  (1 / last dr 0) *
  (vsum (vmul (map (fun a => a * g) nr) (rev (win (S ni) h))) -
   vsum (vmul (vmul (removelast dr) (removelast (mrow dr))) (rev (win no hy)))).

Lemma num_rows : inum c = map nrow (seq 0 n).
Proof. destruct Snum. apply map_seq_nth'; auto. Qed.
Lemma den_rows : iden c = map drow (seq 0 n).
Proof. destruct Sden. apply map_seq_nth'; auto. Qed.

Lemma xrep_zero x0 : length (fst x0) = n -> (forall r, In r (fst x0) -> length r = S ni) ->
  length (snd x0) = n -> (forall r, In r (snd x0) -> length r = S no) ->
  xrep (iir_rx x0) [] [].
Proof.
  intros L1 W1 L2 W2. unfold xrep, iir_rx. cbn [fst snd chan map].
  rewrite !win_nil. unfold zeros. rewrite !rev_repeat.
  split.
  - rewrite (map_seq_nth' (fst x0) [] n L1), map_map. apply map_ext_in.
    intros i Hi%in_seq. apply map_const_rev. apply W1, nth_In. lia.
  - rewrite (map_seq_nth' (snd x0) [] n L2), map_map. apply map_ext_in.
    intros i Hi%in_seq. apply map_const_rev. apply W2, nth_In. lia.
Qed.

Lemma xrep_init : xrep (iir_x0 c) [] [].
Proof. destruct Snum, Sden. apply (xrep_zero (inum c, iden c)); auto. Qed.

Lemma xrep_reset x hu hy : xrep x hu hy -> xrep (iir_rx x) [] [].
Proof.
  intros [E1 E2]. apply xrep_zero; rewrite ?E1, ?E2, ?map_length, ?seq_length; auto;
    intros r Hr; apply in_map_iff in Hr as (i & <- & _); rewrite rev_length, win_length; auto.
Qed.

Lemma iir_law_rep x hu hy u g : xrep x hu hy -> length u = n -> length g = n ->
  let y := map (fun i => iir_y (nrow i) (drow i) (nth i g 0) (chan i (u :: hu)) (chan i hy)) (seq 0 n) in
  iir_law c x u g = ((map (fun i => rev (win (S ni) (chan i (u :: hu)))) (seq 0 n),
                      map (fun i => rev (win (S no) (chan i (y :: hy)))) (seq 0 n)), y).
Proof.
  intros [E1 E2] Lu Lg y. unfold iir_law. rewrite E1, E2. rewrite !map_map.
  assert (Ei : map2 set_last (map (fun i => shl (rev (win (S ni) (chan i hu)))) (seq 0 n)) u
               = map (fun i => rev (win (S ni) (chan i (u :: hu)))) (seq 0 n)).
  { rewrite (map_seq_nth' u 0 n Lu) at 1. rewrite map2_map. apply map_ext. intros i.
    rewrite set_last_win. reflexivity. }
  rewrite Ei.
  assert (Ey : vmul (map (fun r => 1 / last r 0) (iden c))
     (vsub (map vsum (map2 vmul (map2 (fun r g0 => map (fun a => a * g0) r) (inum c) g)
              (map (fun i => rev (win (S ni) (chan i (u :: hu)))) (seq 0 n))))
           (map vsum (map2 vmul (map2 vmul (map (@removelast _) (iden c)) (map (@removelast _) (den_mask c)))
              (map (fun i => removelast (shl (rev (win (S no) (chan i hy))))) (seq 0 n))))) = y).
  { unfold den_mask. rewrite num_rows, den_rows. rewrite (map_seq_nth' g 0 n Lg) at 1.
    rewrite !map_map. unfold vmul at 1, vsub.
    rewrite !map2_map, !map_map, !map2_map. apply map_ext. intros i.
    unfold iir_y, mrow. rewrite rev_win_shl, removelast_snoc. reflexivity. }
  rewrite Ey. f_equal. f_equal.
  rewrite (map_seq_nth' y 0 n) at 1 by (unfold y; rewrite map_length, seq_length; auto).
  rewrite map2_map. apply map_ext. intros i. rewrite set_last_win. reflexivity.
Qed.

Definition iinv (x : mat A * mat A) : Prop := exists hu hy, xrep x hu hy.

Lemma iir_law_ok x u g : iinv x -> length u = n -> length g = n ->
  iinv (fst (iir_law c x u g)) /\ length (snd (iir_law c x u g)) = n.
Proof.
  intros (hu & hy & H) Lu Lg. rewrite (iir_law_rep _ _ _ _ _ H Lu Lg). cbn [fst snd]. split.
  - eexists _, _. split; reflexivity.
  - rewrite map_length, seq_length. auto.
Qed.

Lemma iir_lrun vs : forall x hu hy, xrep x hu hy ->
  (forall v, In v vs -> length (fst v) = n /\ length (snd v) = n) ->
  forall k i, (k < length vs)%nat -> (i < n)%nat ->
  let ys := snd (lrun _ (iir_law c) x vs) in
  nth i (nth k ys []) 0 =
  iir_y (nrow i) (drow i) (nth i (snd (nth k vs ([], []))) 0)
        (chan i (rev (firstn (S k) (map fst vs)) ++ hu)) (chan i (rev (firstn k ys) ++ hy)).
Proof.
  induction vs as [|v r IH]; intros x hu hy Hx HL k i Hk Hi; [simpl in Hk; lia|].
  destruct (HL v (or_introl eq_refl)) as [Lu Lg].
  pose proof (iir_law_rep x hu hy _ _ Hx Lu Lg) as E. cbv zeta in E.
  cbn [lrun]. rewrite E. match type of E with _ = (?a, ?b) => set (x' := a) in *; set (y := b) in * end.
  destruct (lrun _ (iir_law c) x' r) as [x'' ys] eqn:El. cbn [snd].
  destruct k as [|k].
  - cbn [nth]. unfold y. rewrite nth_map_seq by auto. cbn [firstn map rev app]. reflexivity.
  - assert (Hx' : xrep x' (fst v :: hu) (y :: hy)) by (split; reflexivity).
    specialize (IH x' _ _ Hx' (fun v H => HL v (or_intror H)) k i ltac:(simpl in Hk; lia) Hi).
    rewrite El in IH. cbv zeta in IH. cbn [snd nth] in *. rewrite IH.
    cbn [map firstn rev]. rewrite <- !app_assoc. reflexivity.
Qed.
End Iir.

Section Ago.
Context {A : arith}.

Lemma nth_chan_ago (us : list (vec A)) k i j : (k < length us)%nat ->
  nth j (chan i (rev (firstn (S k) us) ++ [])) 0 = ago (fun k => nth i (nth k us []) 0) k j.
Proof. rewrite app_nil_r. apply chan_hist_ago. Qed.

Lemma nth_chan_ago_prev (us : list (vec A)) k i j : (k <= length us)%nat ->
  nth j (chan i (rev (firstn k us) ++ [])) 0 = ago (fun k => nth i (nth k us []) 0) k (S j).
Proof.
  intros Hk. rewrite app_nil_r. destruct k as [|k].
  - simpl. destruct j; auto.
  - rewrite chan_hist_ago by lia. reflexivity.
Qed.

Lemma ago_ext (f g : nat -> A) k j : (forall m, (m <= k)%nat -> f m = g m) -> ago f k j = ago g k j.
Proof. intros H. unfold ago. destruct (Nat.leb_spec j k); auto. apply H. lia. Qed.

Lemma ago_ext_lt (f g : nat -> A) k j : (forall m, (m < k)%nat -> f m = g m) -> ago f k (S j) = ago g k (S j).
Proof. intros H. unfold ago. destruct (Nat.leb_spec (S j) k); auto. apply H. lia. Qed.
End Ago.

(* ------------------------------------------------------------------ recursion *)

Section Rec.
Variable A : arith.
Hypothesis HF : is_field A.
Let HF' : field_theory (@zer A) one add mul sub opp dvd inv eq := HF.
Add Field fA2 : HF'.

Lemma vsum_rev_win (r h : list A) m : length r = m ->
  vsum (vmul r (rev (win m h))) = sumn m (fun j => nth (m - 1 - j) r 0 * nth j h 0).
Proof.
  intros L. change (vsum (vmul r (rev (win m h)))) with (dot r (rev (win m h))).
  rewrite dot_sumn with (n := m); auto; [|rewrite rev_length, win_length; auto].
  rewrite (sumn_rev A HF). apply sumn_ext. intros j Hj. f_equal.
  rewrite rev_nth; rewrite win_length; [|lia]. rewrite win_nth by lia. f_equal. lia.
Qed.

Lemma nth_map0 (f : A -> A) (l : list A) j : f 0 = 0 -> nth j (map f l) 0 = f (nth j l 0).
Proof. intros H. rewrite <- H at 1. apply map_nth. Qed.

Lemma nth_removelast (B : Type) (l : list B) (e : B) j : (S j < length l)%nat -> nth j (removelast l) e = nth j l e.
Proof.
  intros H. destruct (@exists_last _ l) as (l' & a & ->); [destruct l; simpl in *; [lia|discriminate]|].
  rewrite removelast_snoc. rewrite app_length in H. simpl in H. rewrite app_nth1; auto. lia.
Qed.

Lemma removelast_length (B : Type) (l : list B) m : length l = S m -> length (removelast l) = m.
Proof.
  intros H. destruct (@exists_last _ l) as (l' & a & ->); [destruct l; simpl in *; [lia|discriminate]|].
  rewrite removelast_snoc. rewrite app_length in H. simpl in H. lia.
Qed.

Lemma last_nth (B : Type) (l : list B) (e : B) m : length l = S m -> last l e = nth m l e.
Proof.
  intros H. destruct (@exists_last _ l) as (l' & a & ->); [destruct l; simpl in *; [lia|discriminate]|].
  rewrite last_last. rewrite app_length in H. simpl in H. rewrite app_nth2 by lia.
  replace (m - length l')%nat with 0%nat by lia. reflexivity.
Qed.

Variable c : iir A.
Variables n ni no : nat.
Hypothesis Snum : shape (inum c) n (S ni).
Hypothesis Sden : shape (iden c) n (S no).

Let fb : A := if iinteg c then 1 else 0.

Lemma iir_y_sum i g h hy : (i < n)%nat ->
  iir_y c ni no (nrow c i) (drow c i) g h hy =
  (1 / nth no (drow c i) 0) *
  (sumn (S ni) (fun j => nth (ni - j) (nrow c i) 0 * g * nth j h 0) -
   sumn no (fun j => nth (no - 1 - j) (drow c i) 0 * fb * nth j hy 0)).
Proof.
  intros Hi. destruct Snum as [L1 W1], Sden as [L2 W2].
  assert (Ln : length (nrow c i) = S ni) by (apply W1, nth_In; lia).
  assert (Ld : length (drow c i) = S no) by (apply W2, nth_In; lia).
  unfold iir_y. rewrite (last_nth _ _ _ no) by auto. f_equal. f_equal.
  - rewrite vsum_rev_win by (rewrite map_length; auto).
    apply sumn_ext. intros j Hj. rewrite nth_map0 by ring. f_equal. f_equal. f_equal. lia.
  - assert (Lm : length (removelast (mrow c (drow c i))) = no).
    { apply removelast_length. unfold mrow. destruct (iinteg c).
      - rewrite map_length. auto.
      - rewrite app_length, map_length. rewrite (removelast_length _ _ no) by auto. simpl. lia. }
    assert (Lr : length (removelast (drow c i)) = no) by (apply removelast_length; auto).
    rewrite vsum_rev_win by (unfold vmul; rewrite map2_length, Lm, Lr; lia).
    apply sumn_ext. intros j Hj. f_equal. unfold vmul.
    rewrite map2_nth with (a := 0) (b := 0) by lia.
    f_equal.
    + apply nth_removelast. lia.
    + unfold fb, mrow. destruct (iinteg c).
      * rewrite removelast_map. apply nth_map_const. lia.
      * rewrite removelast_snoc. apply (nth_map0 (fun _ => 0)). reflexivity.
Qed.

(* The recursion that computes each undelayed output value. *)
Definition iir_rec (u g y : nat -> A) (i k : nat) : Prop :=
  y k = (1 / nth no (drow c i) 0) *
        (sumn (S ni) (fun j => nth (ni - j) (nrow c i) 0 * g k * ago u k j) -
         sumn no (fun j => nth (no - 1 - j) (drow c i) 0 * fb * ago y k (S j))).

Lemma iir_run_rec d us s ys : iir_run c d us = Ok (s, ys) ->
  length ys = length us /\
  forall k i, (k < length us)%nat -> (i < n)%nat ->
  iir_rec (fun k => in_at n us k i) (fun k => gain_at n us k i) (fun k => nd_at ys k i) i k.
Proof.
  intros E. unfold iir_run in E. destruct Snum as [L1 W1] eqn:ES. rewrite L1 in E.
  assert (I0 : iinv n ni no (fx (finit n d (iir_x0 c)))) by (exists [], []; apply xrep_init; auto).
  destruct (run_inv _ n d (iir_law c) (iinv n ni no) (iir_law_ok c n ni no Snum Sden) us _ []
    s ys (rep_init _ n d _) I0 E) as (vs & Hv & -> & _).
  set (x0 := fx (finit n d (iir_x0 c))) in *.
  set (yl := snd (lrun _ (iir_law c) x0 vs)).
  assert (Ll : length yl = length vs) by apply lrun_length.
  assert (Lv : length us = length vs) by (eapply Forall2_len; eauto).
  split; [rewrite outs_length; lia|]. intros k i Hk Hi. unfold iir_rec.
  assert (Hlen : forall v, In v vs -> length (fst v) = n /\ length (snd v) = n).
  { intros v Hin. destruct (In_nth _ _ ([], []) Hin) as (m & Hm & Em).
    assert (Hf : fitted n (nth m us ([], None)) (nth m vs ([], []))).
    { clear -Hv Hm. revert m Hm. induction Hv; intros [|m]; simpl; intros; try lia; auto. apply IHHv; lia. }
    rewrite Em in Hf. eapply fitted_length; eauto. }
  assert (Hfit : forall m, (m < length vs)%nat -> fitted n (nth m us ([], None)) (nth m vs ([], []))).
  { clear -Hv. induction Hv; intros [|m]; simpl; intros; try lia; auto. apply IHHv; lia. }
  rewrite nd_at_outs by lia.
  pose proof (iir_lrun c n ni no Snum Sden vs x0 [] [] (xrep_init c n ni no Snum Sden) Hlen k i
                ltac:(lia) Hi) as H. cbv zeta in H. fold yl in H. rewrite H.
  rewrite iir_y_sum by auto. f_equal. f_equal.
  - apply sumn_ext. intros j Hj. f_equal; [f_equal|].
    + destruct (Hfit k ltac:(lia)) as [_ F]. unfold gain_at.
      destruct (snd (nth k us ([], None))).
      * eapply fit_chan; eauto.
      * injection F as <-. unfold ones. rewrite repeat_map_seq, nth_map_seq; auto.
    + rewrite nth_chan_ago by (rewrite map_length; lia). apply ago_ext. intros m Hm.
      destruct (Hfit m ltac:(lia)) as [F _]. unfold in_at.
      rewrite <- (fit_chan n _ _ _ Hi F).
      change (@nil A) with (fst (@nil A, @nil A)) at 1. rewrite map_nth. reflexivity.
  - apply sumn_ext. intros j Hj. f_equal. rewrite nth_chan_ago_prev by lia.
    apply ago_ext_lt. intros m Hm. rewrite nd_at_outs; auto. lia.
Qed.
End Rec.
