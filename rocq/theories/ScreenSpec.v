(* What phase screens should be. *)
From Coq Require Import List ZArith Bool Arith QArith Qcanon.
From Verif Require Import Arith FilterSpec FitsModel RebinSpec CutSpec SlopecSpec InterpModel ScreenModel.
Import ListNotations.
Local Open Scope Qc_scope.

(* Screens asked for cannot be confused: their file names differ, also when L0 is rounded. *)
Definition distinct_names (rs : list recipe) : Prop := forall p q, In p rs -> In q rs ->
  (name_of false false p = name_of false false q -> p = q) /\ (name_of false true p = name_of false false q -> p = q).

(* [g] is proportional to [f], up to a constant, with zero mean *)
Definition centred_copy (r c : nat) (k : Qc) (f g : nat -> nat -> Qc) : Prop :=
  flux (A:=qc) r c g = 0 /\ forall i j i' j', (i < r)%nat -> (j < c)%nat -> (i' < r)%nat -> (j' < c)%nat -> g i j - g i' j' = k * (f i j - f i' j').
Definition mirror (c : nat) (f : nat -> nat -> Qc) : nat -> nat -> Qc := fun i j => f i (c - 1 - j)%nat.
Definition mean2 (r c : nat) (f : nat -> nat -> Qc) : Qc := flux (A:=qc) r c f / qnat (r * c).
Definition spread (r c : nat) (f : nat -> nat -> Qc) : Qc := flux (A:=qc) r c (fun i j => (f i j - mean2 r c f) * (f i j - mean2 r c f)).
