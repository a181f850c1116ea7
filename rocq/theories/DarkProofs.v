(* Proofs about dark frames. *)
From Coq Require Import List Bool PeanoNat ZArith Lia Field_theory Ring_theory Ring Field.
From Verif Require Import PyBase PyLemmas Arith ArithLemmas FilterSpec SumLemmas MultirateModel DarkModel.
Import ListNotations.
Local Open Scope ar_scope.
Section Dark.
Variable A : arith.
Hypothesis HF : is_field A.
Let HF' : field_theory (@zer A) one add mul sub opp dvd inv eq := HF.
Add Field fA21 : HF'.
Variable size : nat.

Lemma add_0_l' (a : A) : 0 + a = a. Proof. ring. Qed.
Definition df0 : dframe A := mkDF 0 [] false false None None.
Definition pix (es : list (dframe A)) (k p : nat) : A := nth p (d_pix (nth k es df0)) 0.
Definition sizes (es : list (dframe A)) := Forall (fun e => length (d_pix e) = size) es.
Definition steady (es : list (dframe A)) := Forall (fun e => d_n e = None) es.
Definition quiet (es : list (dframe A)) := Forall (fun e => d_trigger e = false) es.
Definition good (s : dark A) := length (k_sum s) = size /\ length (k_dark s) = size /\ (k_n s <> 0)%nat /\
  (k_left s = 0%nat -> forall p, nth p (k_sum s) 0 = 0).

Lemma nth_zeros n p : nth p (@zeros A n) 0 = 0.
Proof. unfold zeros. revert p. induction n; intros [|p]; simpl; auto. Qed.
Lemma good_init n s : dark_init n size = Ok s -> good s /\ k_left s = 0%nat.
Proof.
  unfold dark_init. destruct (Nat.eqb_spec n 0); [discriminate|]. intros [= <-]. unfold good. cbn. unfold zeros at 1 2. rewrite repeat_length.
  repeat split; auto. intros _ p. apply nth_zeros.
Qed.

Lemma times_zero (v : vec A) p : nth p (map (fun x => x * 0) v) 0 = 0.
Proof. revert p. induction v; intros [|p]; simpl; auto. ring. Qed.
Lemma over (v : vec A) c p : nth p (map (fun x => x / c) v) 0 = if Nat.ltb p (length v) then nth p v 0 / c else 0.
Proof. revert p. induction v; intros [|p]; simpl; auto. rewrite IHv. reflexivity. Qed.

(* what a step does *)
Definition eff (s : dark A) (e : dframe A) : nat := if d_trigger e then k_n s else k_left s.
Definition shown (s : dark A) (e : dframe A) (p : nat) : A := if d_reset e then 0 else nth p (k_dark s) 0.

Lemma step_facts s e s' : good s -> length (d_pix e) = size -> dark_step s e = Ok s' ->
  good s' /\ (d_n e = None -> k_n s' = k_n s) /\ k_sub_t s' = d_time e /\
  (forall p, (p < size)%nat -> nth p (k_sub s') 0 = nth p (d_pix e) 0 - shown s e p) /\
  match eff s e with
  | 0%nat => k_left s' = 0%nat /\ (forall p, nth p (k_dark s') 0 = shown s e p) /\ (d_load e = None -> k_dark_t s' = k_dark_t s)
  | 1%nat => k_left s' = 0%nat /\ k_dark_t s' = d_time e /\
       (forall p, (p < size)%nat -> nth p (k_dark s') 0 = (nth p (k_sum s) 0 + nth p (d_pix e) 0) / of_nat (k_n s'))
  | S m => k_left s' = m /\ (forall p, nth p (k_dark s') 0 = shown s e p) /\ (d_load e = None -> k_dark_t s' = k_dark_t s) /\
       (forall p, (p < size)%nat -> nth p (k_sum s') 0 = nth p (k_sum s) 0 + nth p (d_pix e) 0)
  end.
Proof.
  intros (G1 & G2 & G3 & G4) Lp E. unfold dark_step, dark_prepare in E. inv_bind E. inv_bind E0. inv_bind E0.
  injection E0 as <-. injection E as <-. rename a0 into n'. rename a1 into t'.
  assert (Hn : (n' <> 0)%nat /\ (d_n e = None -> n' = k_n s)).
  { destruct (d_n e) as [[z|]|]; [|discriminate|].
    - destruct (Z.leb_spec z 0); [discriminate|]. injection E1 as <-. split; [lia|discriminate].
    - injection E1 as <-. auto. }
  assert (Ht : d_load e = None -> t' = k_dark_t s) by (intros Q; rewrite Q in E2; injection E2 as <-; auto).
  set (dk := if d_reset e then map (fun x => x * 0) (k_dark s) else k_dark s).
  assert (Ld : length dk = size) by (unfold dk; destruct (d_reset e); rewrite ?map_length; auto).
  assert (Hd : forall p, nth p dk 0 = shown s e p).
  { intros p. unfold dk, shown. destruct (d_reset e); auto. apply times_zero. }
  assert (Hs : forall p, (p < size)%nat -> nth p (vsub (d_pix e) dk) 0 = nth p (d_pix e) 0 - shown s e p).
  { intros p Hp. unfold vsub. rewrite map2_nth with (a := 0) (b := 0) by lia. rewrite Hd. reflexivity. }
  assert (La : length (vadd (k_sum s) (d_pix e)) = size) by (unfold vadd; rewrite map2_length; lia).
  assert (Ha : forall p, (p < size)%nat -> nth p (vadd (k_sum s) (d_pix e)) 0 = nth p (k_sum s) 0 + nth p (d_pix e) 0).
  { intros p Hp. unfold vadd. rewrite map2_nth with (a := 0) (b := 0); auto; lia. }
  unfold dark_trigger. cbn [k_left k_n k_sum k_dark k_dark_t]. fold (eff s e). fold dk.
  unfold good.
  destruct (eff s e) as [|[|m]] eqn:Ee; cbn [k_left k_n k_sum k_dark k_dark_t k_sub k_sub_t].
  - split; [|intuition]. repeat split; auto; try apply Hn. intros _. apply G4. unfold eff in Ee. destruct (d_trigger e); congruence.
  - split; [|split; [apply Hn|split; auto; split; auto; split; auto; split; auto]].
    + rewrite !map_length. repeat split; auto; try apply Hn. intros _ p. apply times_zero.
    + intros p Hp. rewrite over. destruct (Nat.ltb_spec p (length (vadd (k_sum s) (d_pix e)))); [|lia]. rewrite Ha; auto.
  - split; [|intuition]. repeat split; auto; try apply Hn. discriminate.
Qed.

Lemma dark_run_cons (s : dark A) e es s' : dark_run s (e :: es) = Ok s' -> exists s1, dark_step s e = Ok s1 /\ dark_run s1 es = Ok s'.
Proof. unfold dark_run. cbn [fold_res]. intros E. inv_bind E. eauto. Qed.

Lemma run_good es : forall s s', good s -> sizes es -> dark_run s es = Ok s' -> good s'.
Proof.
  induction es as [|e es IH]; intros s s' G F E; [injection E as <-; auto|].
  destruct (dark_run_cons _ _ _ _ E) as (s1 & E1 & E2). inversion F; subst.
  destruct (step_facts _ _ _ G H1 E1) as [G1 _]. eauto.
Qed.

Definition any_reset (es : list (dframe A)) := existsb (fun e => d_reset e) es.
Lemma pix_cons e es k p : pix (e :: es) (S k) p = pix es k p. Proof. reflexivity. Qed.

(* while frames are missing *)
Lemma wait es : forall s s', good s -> sizes es -> steady es -> quiet es -> (length es < k_left s)%nat \/ k_left s = 0%nat ->
  dark_run s es = Ok s' ->
  k_n s' = k_n s /\ k_left s' = (k_left s - length es)%nat /\
  (forall p, nth p (k_dark s') 0 = if any_reset es then 0 else nth p (k_dark s) 0) /\
  (forall p, (p < size)%nat -> (0 < k_left s)%nat -> nth p (k_sum s') 0 = nth p (k_sum s) 0 + sumn (length es) (fun m => pix es m p)).
Proof.
  induction es as [|e es IH]; intros s s' G F1 F2 F3 HL E.
  - injection E as <-. cbn. split; auto. split; [lia|]. split; auto. intros. ring.
  - destruct (dark_run_cons _ _ _ _ E) as (s1 & E1 & E2). inversion F1; subst. inversion F2; subst. inversion F3; subst.
    destruct (step_facts _ _ _ G H1 E1) as (G1 & N1 & _ & _ & C). specialize (N1 H3).
    assert (Ef : eff s e = k_left s) by (unfold eff; rewrite H5; auto). rewrite Ef in C. cbn [length] in HL.
    destruct (k_left s) as [|[|m]] eqn:Ek; cbn [any_reset existsb] in *.
    + destruct C as (C1 & C2 & _). destruct (IH s1 s' G1 H2 H4 H6 (or_intror C1) E2) as (I1 & I2 & I3 & I4).
      split; [congruence|]. split; [lia|]. split; [|lia]. intros p. rewrite I3, C2. unfold shown.
      fold (any_reset es). destruct (d_reset e), (any_reset es); reflexivity.
    + lia.
    + destruct C as (C1 & C2 & C3 & C4). destruct (IH s1 s' G1 H2 H4 H6) as (I1 & I2 & I3 & I4); auto; [lia|].
      split; [congruence|]. split; [cbn [length]; lia|]. split.
      * intros p. rewrite I3, C2. unfold shown. fold (any_reset es). destruct (d_reset e), (any_reset es); reflexivity.
      * intros p Hp _. rewrite I4 by (auto; lia). rewrite C4 by auto. cbn [length]. rewrite (sumn_first A HF).
        rewrite (sumn_ext (length es) (fun j => pix (e :: es) (S j) p) (fun m => pix es m p)) by reflexivity.
        unfold pix at 2. cbn [nth]. ring.
Qed.

(* the last missing frame *)
Lemma finish es : forall s s', good s -> sizes es -> steady es -> quiet es -> length es = k_left s -> (0 < k_left s)%nat ->
  dark_run s es = Ok s' ->
  k_n s' = k_n s /\ k_left s' = 0%nat /\ k_dark_t s' = d_time (last es df0) /\
  (forall p, (p < size)%nat -> nth p (k_dark s') 0 = (nth p (k_sum s) 0 + sumn (length es) (fun m => pix es m p)) / of_nat (k_n s)).
Proof.
  induction es as [|e es IH]; intros s s' G F1 F2 F3 HL HP E; [cbn in HL; lia|].
  destruct (dark_run_cons _ _ _ _ E) as (s1 & E1 & E2). inversion F1; subst. inversion F2; subst. inversion F3; subst.
  destruct (step_facts _ _ _ G H1 E1) as (G1 & N1 & _ & _ & C). specialize (N1 H3).
  assert (Ef : eff s e = k_left s) by (unfold eff; rewrite H5; auto). rewrite Ef in C. cbn [length] in HL.
  destruct (k_left s) as [|[|m]] eqn:Ek; [lia| |].
  - destruct es; [|cbn in HL; lia]. injection E2 as <-. destruct C as (C1 & C2 & C3). cbn [last length sumn].
    split; auto. split; auto. split; auto. intros p Hp. rewrite C3 by auto. rewrite N1. unfold pix. cbn [nth]. f_equal. ring.
  - destruct C as (C1 & C2 & C3 & C4). destruct (IH s1 s' G1 H2 H4 H6 ltac:(lia) ltac:(lia) E2) as (I1 & I2 & I3 & I4).
    split; [congruence|]. split; auto. split.
    + rewrite I3. destruct es; [cbn in HL; lia|reflexivity].
    + intros p Hp. rewrite I4 by auto. rewrite C4, N1 by auto. f_equal. cbn [length]. rewrite (sumn_first A HF).
      rewrite (sumn_ext (length es) (fun j => pix (e :: es) (S j) p) (fun m => pix es m p)) by reflexivity.
      unfold pix at 2. cbn [nth]. ring.
Qed.

(* a trigger is a change of the counter *)
Definition armed (s : dark A) : dark A := mkDk (k_n s) (k_n s) (k_sum s) (k_dark s) (k_dark_t s) (k_sub s) (k_sub_t s).
Definition calm (e : dframe A) : dframe A := mkDF (d_time e) (d_pix e) false (d_reset e) (d_n e) (d_load e).
Lemma trigger_armed s e : d_trigger e = true -> dark_step s e = dark_step (armed s) (calm e).
Proof. intros H. unfold dark_step, dark_prepare, dark_trigger, armed, calm. cbn. rewrite H. reflexivity. Qed.
Lemma good_armed s : good s -> good (armed s).
Proof. intros (G1 & G2 & G3 & G4). repeat split; auto. cbn. lia. Qed.

Lemma run_armed s e es s' : d_trigger e = true -> dark_run s (e :: es) = Ok s' -> dark_run (armed s) (calm e :: es) = Ok s'.
Proof. intros H E. unfold dark_run in *. cbn [fold_res] in *. rewrite <- trigger_armed by auto. exact E. Qed.

Lemma pix_calm e es m p : pix (calm e :: es) m p = pix (e :: es) m p. Proof. destruct m; reflexivity. Qed.

Lemma acquired s e es s' : good s -> sizes (e :: es) -> steady (e :: es) -> d_trigger e = true -> quiet es -> S (length es) = k_n s ->
  dark_run s (e :: es) = Ok s' ->
  k_n s' = k_n s /\ k_left s' = 0%nat /\ k_dark_t s' = d_time (last (e :: es) df0) /\
  (forall p, (p < size)%nat -> nth p (k_dark s') 0 = (nth p (k_sum s) 0 + sumn (k_n s) (fun m => pix (e :: es) m p)) / of_nat (k_n s)).
Proof.
  intros G F1 F2 Ht Q HL E. inversion F1; subst. inversion F2; subst.
  destruct (finish (calm e :: es) (armed s) s' (good_armed s G)) as (I1 & I2 & I3 & I4); auto.
  - constructor; auto.
  - constructor; auto.
  - constructor; auto.
  - cbn [armed k_left]. rewrite <- HL. lia.
  - apply run_armed; auto.
  - cbn [armed k_n k_sum] in *. split; auto. split; auto. split; [rewrite I3; destruct es; reflexivity|].
    intros p Hp. rewrite I4 by auto. f_equal. f_equal. rewrite <- HL. cbn [length]. apply sumn_ext. intros j _. apply pix_calm.
Qed.

Lemma acquiring s e es s' : good s -> sizes (e :: es) -> steady (e :: es) -> d_trigger e = true -> quiet es -> (S (length es) < k_n s)%nat ->
  dark_run s (e :: es) = Ok s' ->
  k_n s' = k_n s /\ k_left s' = (k_n s - S (length es))%nat /\
  (forall p, nth p (k_dark s') 0 = if any_reset (e :: es) then 0 else nth p (k_dark s) 0) /\
  (forall p, (p < size)%nat -> nth p (k_sum s') 0 = nth p (k_sum s) 0 + sumn (S (length es)) (fun m => pix (e :: es) m p)).
Proof.
  intros G F1 F2 Ht Q HL E. inversion F1; subst. inversion F2; subst.
  destruct (wait (calm e :: es) (armed s) s' (good_armed s G)) as (I1 & I2 & I3 & I4); auto.
  - constructor; auto.
  - constructor; auto.
  - constructor; auto.
  - apply run_armed; auto.
  - cbn [armed k_n k_sum k_left k_dark length] in *. split; auto. split; auto. split; [exact I3|].
    intros p Hp. rewrite I4 by (auto; lia). f_equal. apply sumn_ext. intros j _. apply pix_calm.
Qed.

Lemma dark_run_app a b : forall (s s' : dark A), dark_run s (a ++ b) = Ok s' -> exists s1, dark_run s a = Ok s1 /\ dark_run s1 b = Ok s'.
Proof.
  unfold dark_run. induction a as [|e a IH]; intros s s' E; [exists s; auto|].
  cbn [app fold_res] in *. inv_bind E. destruct (IH _ _ E) as (s1 & H1 & H2). exists s1. rewrite E0. auto.
Qed.

Lemma pix_app a b m p : pix (a ++ b) (length a + m) p = pix b m p.
Proof. unfold pix. rewrite app_nth2 by lia. do 2 f_equal. f_equal. lia. Qed.
Lemma pix_app1 a b m p : (m < length a)%nat -> pix (a ++ b) m p = pix a m p.
Proof. intros. unfold pix. rewrite app_nth1; auto. Qed.

(* an acquisition begun again before its end *)
Lemma restarted s e1 r1 e2 r2 s' : good s -> k_left s = 0%nat -> sizes (e1 :: r1) -> sizes (e2 :: r2) -> steady (e1 :: r1) -> steady (e2 :: r2) ->
  d_trigger e1 = true -> quiet r1 -> d_trigger e2 = true -> quiet r2 -> (S (length r1) < k_n s)%nat -> S (length r2) = k_n s ->
  dark_run s ((e1 :: r1) ++ (e2 :: r2)) = Ok s' ->
  forall p, (p < size)%nat -> nth p (k_dark s') 0 =
    sumn (S (length r1) + k_n s) (fun m => pix ((e1 :: r1) ++ (e2 :: r2)) m p) / of_nat (k_n s).
Proof.
  intros G K F1 F2 S1 S2 T1 Q1 T2 Q2 L1 L2 E p Hp.
  apply dark_run_app in E as (s1 & E1 & E2).
  destruct (acquiring s e1 r1 s1 G F1 S1 T1 Q1 L1 E1) as (I1 & I2 & I3 & I4).
  pose proof (run_good _ _ _ G F1 E1) as G1.
  destruct (acquired s1 e2 r2 s' G1 F2 S2 T2 Q2 ltac:(lia) E2) as (J1 & J2 & J3 & J4).
  rewrite J4 by auto. rewrite I1. f_equal. rewrite I4 by auto. destruct G as (_ & _ & _ & G). rewrite (G K).
  rewrite (sumn_app A HF). rewrite <- (sumn_ext (S (length r1)) (fun m => pix ((e1 :: r1) ++ (e2 :: r2)) m p) (fun m => pix (e1 :: r1) m p)).
  2: { intros j Hj. apply pix_app1. exact Hj. }
  rewrite <- (sumn_ext (k_n s) (fun m => pix ((e1 :: r1) ++ (e2 :: r2)) (S (length r1) + m) p) (fun m => pix (e2 :: r2) m p)).
  2: { intros j _. apply (pix_app (e1 :: r1)). }
  ring.
Qed.

Lemma run_ok es : forall s : dark A, (exists s', dark_run s es = Ok s') <->
  Forall (fun e => match d_n e with Some (Some z) => (0 < z)%Z | Some None => False | None => True end /\ d_load e <> Some None) es.
Proof.
  induction es as [|e es IH]; intros s; [split; [constructor|]; intros _; exists s; reflexivity|].
  assert (Q : (exists s1, dark_step s e = Ok s1) <-> (match d_n e with Some (Some z) => (0 < z)%Z | Some None => False | None => True end /\ d_load e <> Some None)).
  { unfold dark_step, dark_prepare. destruct (d_n e) as [[z|]|].
    - destruct (Z.leb_spec z 0); cbn [bind].
      + split; [intros [? [=]]|]. intros [? _]. lia.
      + destruct (d_load e) as [[|]|]; cbn [bind]; split; eauto; try (split; [lia|congruence]). intros [? [=]]. intros [_ []]. reflexivity.
    - cbn [bind]. split; [intros [? [=]]|intros [[] _]].
    - cbn [bind]. destruct (d_load e) as [[|]|]; cbn [bind]; split; eauto; try (split; [exact I|congruence]). intros [? [=]]. intros [_ []]. reflexivity. }
  split.
  - intros [s' E]. destruct (dark_run_cons _ _ _ _ E) as (s1 & E1 & E2). constructor; [apply Q; eauto|]. apply (IH s1). eauto.
  - intros F. inversion F; subst. apply Q in H1 as [s1 E1]. destruct (proj2 (IH s1) H2) as [s' E2]. exists s'.
    unfold dark_run in *. cbn [fold_res]. rewrite E1. exact E2.
Qed.
End Dark.
