(* What an atmosphere carried by the wind looks like. *)
From Coq Require Import List ZArith Bool Arith QArith Qcanon.
From Verif Require Import Arith FilterSpec SlopecSpec InterpSpec InterpModel.
Import ListNotations.
Local Open Scope Qc_scope.

(* the value at x of the broken line joining the c values of f *)
Definition along (c : nat) (f : nat -> Qc) (x : Qc) : Qc := sumn (A:=qc) c (fun k => f k * tent (x - qnat k)).
(* a quarter turn, anticlockwise, of a square of n x n values, and k of them *)
Definition quarter {X} (n : nat) (f : nat -> nat -> X) : nat -> nat -> X := fun i j => f j (n - 1 - i)%nat.
Definition quarters {X} (n : nat) (k : Z) (f : nat -> nat -> X) : nat -> nat -> X := Nat.iter (Z.to_nat (k mod 4)) (quarter n) f.
(* a direction in degrees: k quarter turns and less than one quarter turn in the same sense *)
Definition angle_is (dir : Qc) (k : Z) (rest : Qc) : Prop :=
  dir = qz 90 * qz k + rest /\ (0 <= dir -> 0 <= rest /\ rest < qz 90) /\ (dir < 0 -> - qz 90 < rest /\ rest <= 0).

(* times (nanoseconds) and wind speeds (m/s): distance in pixels from time t0 *)
Definition elapsed (t0 t : Z) : Qc := qz (t - t0) / qz 1000000000.
Fixpoint path (pitch : Qc) (t0 : Z) (l : list (Z * Qc)) : Qc :=
  match l with [] => 0 | (t, v) :: r => v * elapsed t0 t / pitch + path pitch t r end.
Definition end_time (t0 : Z) (l : list (Z * Qc)) : Z := last (map fst l) t0.
