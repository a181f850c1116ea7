(* Floating-point values that may be infinite or not numbers.

   numpy does not raise an exception for a division by zero: the result is an infinity or
   NaN, which then spreads.  The finite values are exact rationals.  Simplifications: no
   rounding, no overflow, and no sign of zero (dividing by zero gives the infinity with the
   sign of the numerator). *)
From Coq Require Import List QArith Qcanon Bool.
From Verif Require Import Arith OpticalModel.
Import ListNotations.

Inductive ext := Fin (q : Qc) | Inf (negative : bool) | NaN.

Definition is0 (x : Qc) : bool := if Qc_eq_dec x 0%Qc then true else false.
Definition is_neg (x : Qc) : bool := qlt x 0%Qc.

Definition eopp (x : ext) : ext := match x with Fin a => Fin (- a)%Qc | Inf n => Inf (negb n) | NaN => NaN end.
Definition eadd (x y : ext) : ext :=
  match x, y with
  | NaN, _ | _, NaN => NaN
  | Fin a, Fin b => Fin (a + b)%Qc
  | Fin _, Inf n | Inf n, Fin _ => Inf n
  | Inf n, Inf m => if eqb n m then Inf n else NaN
  end.
Definition esub (x y : ext) : ext :=
  match x, y with Fin a, Fin b => Fin (a - b)%Qc | _, _ => eadd x (eopp y) end.
Definition emul (x y : ext) : ext :=
  match x, y with
  | NaN, _ | _, NaN => NaN
  | Fin a, Fin b => Fin (a * b)%Qc
  | Fin a, Inf n | Inf n, Fin a => if is0 a then NaN else Inf (xorb n (is_neg a))
  | Inf n, Inf m => Inf (xorb n m)
  end.
Definition ediv (x y : ext) : ext :=
  match x, y with
  | NaN, _ | _, NaN => NaN
  | Fin a, Fin b => if is0 b then (if is0 a then NaN else Inf (is_neg a)) else Fin (a / b)%Qc
  | Fin _, Inf _ => Fin 0%Qc
  | Inf n, Fin b => Inf (xorb n (is_neg b))
  | Inf _, Inf _ => NaN
  end.
(* x < y; every comparison with NaN is false *)
Definition eltb (x y : ext) : bool :=
  match x, y with
  | NaN, _ | _, NaN => false
  | Fin a, Fin b => qlt a b
  | Fin _, Inf n => negb n
  | Inf n, Fin _ => n
  | Inf n, Inf m => n && negb m
  end.

Definition extar : arith := mkArith ext (Fin 0%Qc) (Fin 1%Qc) eadd emul esub eopp ediv (ediv (Fin 1%Qc)).
