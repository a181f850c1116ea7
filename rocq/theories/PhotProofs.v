From Coq Require Import String Reals List Bool Arith Lia Lra.
From Verif Require Import PyBase PyLemmas PhotModel PhotSpec.
Import ListNotations.
Local Open Scope R_scope.

Lemma position_some {X} (p : X -> bool) l i d : position p l = Some i -> (i < length l)%nat /\ p (nth i l d) = true /\ forall j, (j < i)%nat -> p (nth j l d) = false.
Proof.
  revert i. induction l as [|x l IH]; intros i H; [discriminate|]. cbn [position] in H. destruct (p x) eqn:E.
  - injection H as <-. cbn. repeat split; [lia|exact E|lia].
  - destruct (position p l) as [k|]; [|discriminate]. cbn in H. injection H as <-. destruct (IH k eq_refl) as (A & B & C). cbn. repeat split; [lia|exact B|]. intros [|j] J; [exact E|apply C; lia].
Qed.
Lemma position_none {X} (p : X -> bool) l : position p l = None <-> forall x, In x l -> p x = false.
Proof.
  induction l as [|x l IH]; [split; [intros _ ? []|reflexivity]|]. cbn [position]. destruct (p x) eqn:E.
  - split; [discriminate|]. intros H. rewrite H in E by (now left). discriminate.
  - destruct (position p l) as [k|]; cbn.
    + split; [discriminate|]. intros H. exfalso. assert (G : Some k = None) by (apply IH; intros; apply H; now right). discriminate.
    + split; [|reflexivity]. intros _ y [<-|Hy]; [exact E|]. now apply IH.
Qed.
Lemma fold_min l : forall a, fold_left Rmin l a <= a /\ (forall x, In x l -> fold_left Rmin l a <= x) /\ (fold_left Rmin l a = a \/ In (fold_left Rmin l a) l).
Proof.
  induction l as [|y l IH]; intros a; [cbn; repeat split; [lra|intros _ []|now left]|]. cbn [fold_left]. destruct (IH (Rmin a y)) as (A & B & C). assert (M1 := Rmin_l a y). assert (M2 := Rmin_r a y). repeat split.
  - lra.
  - intros x [<-|H]; [lra|now apply B].
  - destruct C as [C|C]; [|right; now right]. rewrite C. unfold Rmin. destruct (Rle_dec a y); [now left|right; now left].
Qed.
Lemma least_spec l : l <> [] -> In (least l) l /\ forall x, In x l -> least l <= x.
Proof.
  destruct l as [|a l]; [intros H; now destruct H|]. intros _. cbn [least]. destruct (fold_min l a) as (A & B & C). split; [destruct C as [->|C]; [now left|now right]|]. intros x [<-|H]; [exact A|now apply B].
Qed.
Lemma same_true x y : same x y = true <-> x = y.
Proof. unfold same. destruct (Req_EM_T x y); split; congruence. Qed.
Lemma nearest_spec x l : l <> [] -> exists i, position (same (least (map (fun y => Rabs (y - x)) l))) (map (fun y => Rabs (y - x)) l) = Some i /\ nearest x l i.
Proof.
  intros H. set (v := map (fun y => Rabs (y - x)) l). assert (V : v <> []) by (unfold v; destruct l; [now destruct H|discriminate]).
  destruct (least_spec v V) as [A B]. assert (N : forall j, (j < length l)%nat -> nth j v 0 = Rabs (nth j l 0 - x)). { intros j J. unfold v. rewrite (nth_indep _ 0 (Rabs (0 - x))) by (rewrite map_length; exact J). apply (map_nth (fun y => Rabs (y - x))). }
  assert (Lv : length v = length l) by (unfold v; apply map_length).
  destruct (position (same (least v)) v) as [i|] eqn:P.
  - exists i. split; [reflexivity|]. apply (position_some _ _ _ 0) in P. destruct P as (P1 & P2 & P3). apply same_true in P2. unfold nearest. repeat split.
    + lia.
    + intros j J. rewrite <- !N by lia. rewrite <- P2. apply B, nth_In. lia.
    + intros j J. rewrite <- !N by lia. rewrite <- P2. assert (L := B (nth j v 0) ltac:(apply nth_In; lia)). destruct L as [L|L]; [exact L|]. assert (G := P3 j J). rewrite L in G. exfalso. assert (T : same (nth j v 0) (nth j v 0) = true) by now apply same_true. congruence.
  - exfalso. rewrite position_none in P. assert (G := P _ A). assert (T : same (least v) (least v) = true) by now apply same_true. congruence.
Qed.
Lemma nearest_unique x l i j : nearest x l i -> nearest x l j -> i = j.
Proof.
  intros (A & B & C) (A' & B' & C'). destruct (Nat.lt_trichotomy i j) as [L|[L|L]]; [|exact L|].
  - assert (G := C' i L). assert (K := B j A'). lra.
  - assert (G := C j L). assert (K := B' i A). lra.
Qed.
Lemma Rpower10_pos x : 0 < Rpower 10 x. Proof. apply exp_pos. Qed.
Lemma flux_eq l t s w e mag : l <> 0 -> l * t * s * (w * 10 ^ 6) * e / (planck * light) * Rpower 10 (- mag / (5 / 2)) = flux l t s (w * 10 ^ 6) e mag.
Proof.
  intros H. unfold flux, planck, light. rewrite <- Rpower_Ropp. replace (- (mag * (2 / 5))) with (- mag / (5 / 2)) by field. field. repeat split; try lra; exact H.
Qed.
