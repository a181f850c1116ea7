(* What the number-of-modes operations should do. *)
From Coq Require Import List ZArith Arith.
From Verif Require Import PyBase FitsModel FitsSpec.
Import ListNotations.

(* [out] has [r] rows and [c] columns with entries [f] *)
Definition entries {V} (d : V) (r c : nat) (f : nat -> nat -> V) (out : arr2 V) : Prop :=
  a_r out = r /\ a_c out = c /\ (forall x, In x (a_rows out) -> length x = c) /\
  forall i j, i < r -> j < c -> nth j (nth i (a_rows out) []) d = f i j.
(* entry i j of [m] *)
Definition entry {V} (d : V) (m : arr2 V) (i j : nat) : V := nth j (nth i (a_rows m) []) d.
