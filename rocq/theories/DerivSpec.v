(* Slopes of sub-apertures. *)
From Coq Require Import List ZArith Arith QArith Qcanon.
Import ListNotations.
Local Open Scope Qc_scope.

(* pixel (r, c) is in block k of nx blocks per row, of n times n pixels *)
Definition in_block (nx n k r c : nat) : Prop := (n * (k / nx) <= r < n * (k / nx) + n /\ n * (k mod nx) <= c < n * (k mod nx) + n)%nat.
(* phase with a constant and two inclinations *)
Definition num (n : nat) : Qc := Q2Qc (Z.of_nat n # 1).
Definition plane (a b c : Qc) (r col : nat) : Qc := a + b * num col + c * num r.
(* sum of a function over pairs *)
Fixpoint over (f : nat * nat -> Qc) (l : list (nat * nat)) : Qc := match l with [] => 0 | p :: r => f p + over f r end.
