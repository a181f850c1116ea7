(* The screens expected from a sequence of triggers. *)
From Coq Require Import String Reals List Arith ZArith.
Import ListNotations.

(* number of the frame, squares in a screen, triggers per square *)
Definition square_of (frame squares every : nat) : nat := (frame / every) mod squares.
Definition round_of (frame squares every : nat) : nat := (frame / every) / squares.
(* pixel (y, x) of square k of an image cut in n x n squares of p pixels, row by row *)
Definition cut (a : nat -> nat -> R) (n p k : nat) : nat -> nat -> R := fun y x => a (k / n * p + y)%nat (k mod n * p + x)%nat.
(* Fried parameter at 500 nm and at the zenith, from the seeing in arcsec *)
Definition fried (seeing : R) : R := (9759 / 10000 * (1 / 2) / (4848 / 1000 * seeing))%R.
(* no "_layer" in a name, after an underscore *)
Definition simple_name (x : string) : Prop := forall a b, ("_" ++ x)%string <> (a ++ "_layer" ++ b)%string.
