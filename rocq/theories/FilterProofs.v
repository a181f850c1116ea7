(* Proofs about the filters. *)
From Coq Require Import List Bool PeanoNat Lia Field_theory Ring_theory Field.
From Verif Require Import PyBase Arith ArithLemmas FilterModel FilterSpec.
Import ListNotations.
Local Open Scope ar_scope.

Definition chan {A : arith} (i : nat) (h : list (vec A)) : list A := map (fun v => nth i v 0) h.

Section Base.
Context {A : arith}.
Variable X : Type.
Variable n : nat.
Variable d : delay A.
Variable law : X -> vec A -> vec A -> X * vec A.
Variable Inv : X -> Prop.
Hypothesis law_ok : forall x u g, Inv x -> length u = n -> length g = n ->
  Inv (fst (law x u g)) /\ length (snd (law x u g)) = n.

(* the bare law, iterated *)
Fixpoint lrun (x : X) (vs : list (vec A * vec A)) : X * list (vec A) :=
  match vs with
  | [] => (x, [])
  | v :: r =>
      let (x', y) := law x (fst v) (snd v) in
      let (x'', ys) := lrun x' r in (x'', y :: ys)
  end.

Definition fitted (i : finput A) (v : vec A * vec A) : Prop :=
  fit n (fst i) = Ok (fst v) /\
  match snd i with Some g => fit n g | None => Ok (ones n) end = Ok (snd v).

Lemma fit_length (v w : vec A) : fit n v = Ok w -> length w = n.
Proof.
  unfold fit. destruct (Nat.eqb_spec (length v) n); [intros [= <-]; auto|].
  destruct v as [|x [|]]; try discriminate. intros [= <-]. apply repeat_length.
Qed.

Lemma fitted_length i v : fitted i v -> length (fst v) = n /\ length (snd v) = n.
Proof.
  intros [H1 H2]. split; [eapply fit_length; eauto|].
  destruct (snd i); [eapply fit_length; eauto|]. injection H2 as <-. apply repeat_length.
Qed.

Lemma fit_iff (v : vec A) : (exists w, fit n v = Ok w) <-> fits n v.
Proof.
  unfold fit, fits. destruct (Nat.eqb_spec (length v) n) as [e|e].
  - split; eauto.
  - split.
    + intros [w H]. destruct v as [|x [|]]; try discriminate. auto.
    + intros [H|H]; [easy|]. destruct v as [|x [|]]; try discriminate. eauto.
Qed.

Lemma fit_chan (v w : vec A) i : (i < n)%nat -> fit n v = Ok w -> nth i w 0 = chan_val n v i.
Proof.
  intros Hi. unfold fit, chan_val. destruct (Nat.eqb_spec (length v) n); [intros [= <-]; auto|].
  destruct v as [|x [|]]; try discriminate. intros [= <-]. simpl.
  revert i Hi; clear; induction n; intros [|i] H; simpl; try lia; auto. apply IHn0; lia.
Qed.

Definition delayed_val (h : list A) : A :=
  match d with
  | DInt m => nth m h 0
  | DFrac m f => f * nth (S m) h 0 + (1 - f) * nth m h 0
  end.
Definition delayed (h : list (vec A)) : vec A := map (fun i => delayed_val (chan i h)) (seq 0 n).

Fixpoint outs (hy ys : list (vec A)) : list (vec A * vec A) :=
  match ys with
  | [] => []
  | y :: r => (delayed (y :: hy), y) :: outs (y :: hy) r
  end.

Definition rep (s : fstate A X) (hy : list (vec A)) : Prop :=
  fbuf s = map (fun i => win (S (dceil d)) (chan i hy)) (seq 0 n).

Lemma rep_init x0 : rep (finit n d x0) [].
Proof.
  unfold rep, finit, mzeros. cbn [fbuf]. rewrite repeat_map_seq. apply map_ext. intros i.
  cbn [chan map]. rewrite win_nil. auto.
Qed.

Lemma col_rep (hy : list (vec A)) (j w : nat) : (j < w)%nat ->
  col j (map (fun i => win w (chan i hy)) (seq 0 n)) = map (fun i => nth j (chan i hy) 0) (seq 0 n).
Proof. intros. unfold col. rewrite map_map. apply map_ext. intros. apply win_nth; auto. Qed.

Lemma step_ok s hy i v : rep s hy -> Inv (fx s) -> fitted i v ->
  exists s', fstep n d law s i = Ok s' /\ (fx s', snd (law (fx s) (fst v) (snd v))) = law (fx s) (fst v) (snd v) /\
    rep s' (snd (law (fx s) (fst v) (snd v)) :: hy) /\ Inv (fx s') /\
    fouts s' = (delayed (snd (law (fx s) (fst v) (snd v)) :: hy), snd (law (fx s) (fst v) (snd v))).
Proof.
  intros Hr HI Hf. pose proof (fitted_length _ _ Hf) as [L1 L2].
  destruct (law_ok _ _ _ HI L1 L2) as [HI' Ly].
  destruct Hf as [F1 F2]. unfold fstep, fprepare. rewrite F1. cbn [bind]. rewrite F2. cbn [bind].
  set (x := fx s) in *. set (u := fst v) in *. set (g := snd v) in *.
  unfold ftrigger at 1. cbn [fx fdelta fgain fbuf fout fnd].
  destruct (law x u g) as [x' y] eqn:El. cbn [fst snd] in *.
  assert (Hb : set_col0 (if dpos d then map shr (fbuf s) else fbuf s) y
               = map (fun i => win (S (dceil d)) (chan i (y :: hy))) (seq 0 n)).
  { unfold rep in Hr. rewrite Hr. rewrite (map_seq_nth' y 0 n Ly) at 1.
    unfold set_col0. destruct (dpos d) eqn:Ed.
    - rewrite map_map, map2_map. apply map_ext. intros k. unfold chan. cbn [map].
      rewrite win_shift. f_equal.
    - assert (dceil d = 0%nat) as -> by (destruct d as [[|m]|m f]; try discriminate; auto).
      rewrite map2_map. apply map_ext. intros k. reflexivity. }
  eexists. split; [reflexivity|].
  split; [reflexivity|].
  split; [unfold rep; cbn [fbuf fpost]; exact Hb|].
  split; [exact HI'|].
  unfold fouts, fread, fpost. cbn [fout fnd fbuf]. rewrite Hb.
  f_equal.
  - unfold delayed, delayed_val. destruct d as [[|m]|m f].
    + rewrite col_rep by lia. reflexivity.
    + rewrite col_rep by (simpl; lia). reflexivity.
    + rewrite !col_rep by (simpl; lia). rewrite map2_map. reflexivity.
  - rewrite col_rep by lia. cbn [chan map nth]. symmetry. apply map_seq_nth'. exact Ly.
Qed.

Lemma run_ok us : forall s hy vs, rep s hy -> Inv (fx s) -> Forall2 fitted us vs ->
  exists s', frun n d law s us = Ok (s', outs hy (snd (lrun (fx s) vs))) /\
    fx s' = fst (lrun (fx s) vs) /\ Inv (fx s') /\ rep s' (rev (snd (lrun (fx s) vs)) ++ hy).
Proof.
  induction us as [|i r IH]; intros s hy vs Hr HI HF; inversion HF; subst; cbn [frun lrun].
  - eexists. split; [reflexivity|]. auto.
  - destruct (step_ok s hy i y Hr HI H1) as (s1 & E1 & E2 & R1 & I1 & O1).
    rewrite E1. cbn [bind].
    destruct (IH s1 _ _ R1 I1 H3) as (s2 & E3 & E4 & I2 & R2).
    rewrite E3. cbn [bind fst snd].
    rewrite <- E2. destruct (lrun (fx s1) l') as [x'' ys] eqn:El. cbn [fst snd outs] in *.
    rewrite O1. eexists. split; [reflexivity|].
    split; [auto|]. split; [auto|]. cbn [rev]. rewrite <- app_assoc. exact R2.
Qed.

(* ... and the run fails exactly when an input does not fit *)
Lemma fitted_iff us : (exists vs, Forall2 fitted us vs) <-> Forall (input_fits n) us.
Proof.
  induction us as [|i r IH].
  - split; eauto.
  - split.
    + intros [vs H]. inversion H; subst. constructor; [|apply IH; eauto].
      destruct H2 as [F1 F2]. split; [apply fit_iff; eauto|].
      destruct (snd i); [apply fit_iff; eauto|auto].
    + intros H. inversion H; subst. destruct H2 as [F1 F2]. apply IH in H3 as [vs Hv].
      apply fit_iff in F1 as [w F1].
      destruct (snd i) eqn:E.
      * apply fit_iff in F2 as [g F2]. exists ((w, g) :: vs). constructor; auto. split; auto.
        rewrite E. auto.
      * exists ((w, ones n) :: vs). constructor; auto. split; auto. rewrite E. auto.
Qed.

Lemma run_err us : forall s, ~ Forall (input_fits n) us -> frun n d law s us = Err ValueError.
Proof.
  induction us as [|i r IH]; intros s H; [destruct H; constructor|].
  cbn [frun].
  assert (fit_err : forall v : vec A, ~ fits n v -> fit n v = Err ValueError).
  { intros v Hv. unfold fit, fits in *. destruct (Nat.eqb_spec (length v) n); [intuition|].
    destruct v as [|x [|]]; auto. simpl in Hv. intuition. }
  destruct (fstep n d law s i) as [s1|e] eqn:E.
  - cbn [bind]. rewrite IH; auto. intros Hr. apply H. constructor; auto.
    unfold fstep, fprepare in E. destruct (fit n (fst i)) eqn:E1; [|discriminate].
    split; [apply fit_iff; eauto|]. cbn [bind] in E.
    destruct (snd i) as [g|]; auto. destruct (fit n g) eqn:E2; [|discriminate]. apply fit_iff; eauto.
  - cbn [bind]. f_equal. unfold fstep, fprepare in E.
    destruct (fit n (fst i)) eqn:E1; cbn [bind] in E.
    + destruct (snd i) as [g|]; [|discriminate].
      destruct (fit n g) eqn:E2; [discriminate|]. cbn [bind] in E. injection E as <-.
      unfold fit in E2. destruct (Nat.eqb (length g) n); [discriminate|].
      destruct g as [|? [|]]; congruence.
    + injection E as <-. unfold fit in E1. destruct (Nat.eqb (length (fst i)) n); [discriminate|].
      destruct (fst i) as [|? [|]]; congruence.
Qed.

Lemma run_inv us s hy s' ys : rep s hy -> Inv (fx s) -> frun n d law s us = Ok (s', ys) ->
  exists vs, Forall2 fitted us vs /\ ys = outs hy (snd (lrun (fx s) vs)) /\
    fx s' = fst (lrun (fx s) vs) /\ Inv (fx s') /\ rep s' (rev (snd (lrun (fx s) vs)) ++ hy).
Proof.
  intros Hr HI E.
  assert (D : (exists vs, Forall2 fitted us vs) \/ ~ (exists vs, Forall2 fitted us vs)).
  { clear E s hy Hr HI s' ys. induction us as [|i r IH]; [left; eauto|].
    destruct (fit n (fst i)) as [w|] eqn:E1.
    - destruct (match snd i with Some g => fit n g | None => Ok (ones n) end) as [g|] eqn:E2.
      + destruct IH as [[vs H]|H].
        * left. exists ((w, g) :: vs). constructor; auto. split; auto.
        * right. intros [vs Hv]. inversion Hv; subst. eauto.
      + right. intros [vs Hv]. inversion Hv; subst. destruct H1. congruence.
    - right. intros [vs Hv]. inversion Hv; subst. destruct H1. congruence. }
  destruct D as [[vs H]|H].
  - destruct (run_ok us s hy vs Hr HI H) as (s1 & E1 & R). rewrite E1 in E. injection E as <- <-.
    exists vs. intuition.
  - rewrite fitted_iff in H. rewrite run_err in E; auto. discriminate.
Qed.

Lemma outs_length ys : forall hy, length (outs hy ys) = length ys.
Proof. induction ys; simpl; intros; auto. Qed.

Lemma outs_nth ys : forall hy k, (k < length ys)%nat ->
  nth k (outs hy ys) ([], []) = (delayed (rev (firstn (S k) ys) ++ hy), nth k ys []).
Proof.
  induction ys as [|y r IH]; intros hy k Hk; simpl in Hk; [lia|].
  cbn [outs]. destruct k as [|k]; [reflexivity|].
  cbn [nth]. rewrite IH by lia. f_equal. f_equal. cbn [firstn rev]. rewrite <- app_assoc. reflexivity.
Qed.

Lemma outs_nd ys : forall hy, map snd (outs hy ys) = ys.
Proof. induction ys; simpl; intros; f_equal; auto. Qed.

Lemma lrun_length vs : forall x, length (snd (lrun x vs)) = length vs.
Proof.
  induction vs as [|v r IH]; intros x; simpl; auto. destruct (law x (fst v) (snd v)) as [x' y].
  specialize (IH x'). destruct (lrun x' r). simpl in *. auto.
Qed.
End Base.

Section Seq.
Context {A : arith}.

Lemma nth_rev_firstn (B : Type) (l : list B) dd k j : (k < length l)%nat -> (j <= k)%nat ->
  nth j (rev (firstn (S k) l)) dd = nth (k - j) l dd.
Proof.
  intros Hk Hj. rewrite rev_nth; rewrite firstn_length_le by lia; [|lia].
  replace (S k - S j)%nat with (k - j)%nat by lia.
  rewrite <- (firstn_skipn (S k) l) at 2. rewrite app_nth1; auto. rewrite firstn_length_le; lia.
Qed.

(* reading the history latest-first is reading the sequence backwards *)
Lemma chan_hist_ago (ys : list (vec A)) k i j : (k < length ys)%nat ->
  nth j (chan i (rev (firstn (S k) ys))) 0 = ago (fun k => nth i (nth k ys []) 0) k j.
Proof.
  intros Hk. unfold ago. destruct (Nat.leb_spec j k).
  - unfold chan. rewrite nth_indep with (d' := nth i (@nil A) 0) by
      (rewrite map_length, rev_length, firstn_length_le; lia).
    rewrite (map_nth (fun v => nth i v 0)). f_equal. apply nth_rev_firstn; auto.
  - apply nth_overflow. unfold chan. rewrite map_length, rev_length, firstn_length_le; lia.
Qed.

Lemma nd_at_outs n (d : delay A) (ys : list (vec A)) k i : (k < length ys)%nat ->
  nd_at (outs n d [] ys) k i = nth i (nth k ys []) 0.
Proof. intros. unfold nd_at. rewrite outs_nth; auto. Qed.

Lemma out_at_outs n (d : delay A) (ys : list (vec A)) k i : (k < length ys)%nat -> (i < n)%nat ->
  out_at (outs n d [] ys) k i =
  match d with
  | DInt m => ago (fun k => nd_at (outs n d [] ys) k i) k m
  | DFrac m f => f * ago (fun k => nd_at (outs n d [] ys) k i) k (S m)
                 + (1 - f) * ago (fun k => nd_at (outs n d [] ys) k i) k m
  end.
Proof.
  intros Hk Hi. unfold out_at. rewrite outs_nth by auto. cbn [fst]. rewrite app_nil_r.
  unfold delayed. rewrite nth_map_seq by auto.
  assert (E : forall j, nth j (chan i (rev (firstn (S k) ys))) 0 = ago (fun k => nd_at (outs n d [] ys) k i) k j).
  { intros j. rewrite chan_hist_ago by auto. unfold ago. destruct (Nat.leb_spec j k); auto.
    rewrite nd_at_outs; auto. lia. }
  unfold delayed_val. destruct d; rewrite !E; reflexivity.
Qed.
End Seq.
