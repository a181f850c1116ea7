(* Values of floating-point numbers. *)
From Coq Require Import ZArith QArith.
From Verif Require Import SecondsModel.

(* the value of a floating-point number *)
Definition value (x : fl) : Q := inject_Z (fl_m x) * 2 ^ fl_e x.
(* [x] is a best 53-bit approximation of [q] *)
Definition rounds_to (q : Q) (x : fl) : Prop :=
  2 ^ 52 * 2 ^ fl_e x <= q /\ q < 2 ^ 53 * 2 ^ fl_e x /\
  - (2 ^ fl_e x) <= 2 * (value x - q) /\ 2 * (value x - q) <= 2 ^ fl_e x.
