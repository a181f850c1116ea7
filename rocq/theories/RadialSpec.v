(* Small specification of radial profiles. *)
From Coq Require Import List ZArith Bool Arith QArith Qcanon.
From Verif Require Import Arith OpticalModel SlopecSpec.
Import ListNotations.
Local Open Scope Qc_scope.

(* the sum over the pixels of an image *)
Definition flux (h w : nat) (img : nat -> nat -> Qc) : Qc := qsum h (fun i => qsum w (fun j => img i j)).
(* the image inside a circle *)
Definition inside (dist : nat -> nat -> Qc) (limit : Qc) (img : nat -> nat -> Qc) : nat -> nat -> Qc := fun i j => if qlt (dist i j) limit then img i j else 0.
(* the distance of a pixel to a centre *)
Definition distance (root : Qc -> Qc) (cy cx : Qc) (i j : nat) : Qc := root ((qnat j - cx) * (qnat j - cx) + (qnat i - cy) * (qnat i - cy)).
Fixpoint sum (l : list Qc) : Qc := match l with [] => 0 | x :: r => x + sum r end.
(* non-decreasing, strictly increasing *)
Definition ascending (l : list Qc) : Prop := forall i, (S i < length l)%nat -> nth i l 0 <= nth (S i) l 0.
Definition increasing (l : list Qc) : Prop := forall i, (S i < length l)%nat -> nth i l 0 < nth (S i) l 0.
(* a value between two values *)
Definition between (a x b : Qc) : Prop := (a <= x /\ x <= b) \/ (b <= x /\ x <= a).
(* the part of an image whose distance is from b to b+1, excluded *)
Definition ring (dist : nat -> nat -> Qc) (b : nat) (img : nat -> nat -> Qc) : nat -> nat -> Qc :=
  fun i j => if Qclt_le_dec (dist i j) (qnat b) then 0 else if Qclt_le_dec (dist i j) (qnat (S b)) then img i j else 0.
Definition middle (n : nat) : Qc := qnat n / (1 + 1).
(* the largest entry *)
Definition is_peak (m : Qc) (l : list Qc) : Prop := In m l /\ forall x, In x l -> x <= m.
