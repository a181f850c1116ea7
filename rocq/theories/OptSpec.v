(* What the optimiser of the gains should do. *)
From Coq Require Import List ZArith Bool Arith QArith Qcanon.
From Verif Require Import PyBase Arith FilterSpec SlopecSpec.
Import ListNotations.
Local Open Scope Qc_scope.

(* the k-th of N gains up to the largest one *)
Definition candidate (gmax : Qc) (N k : nat) : Qc := gmax * qnat (S k) / qnat N.
(* the first of the smallest costs *)
Definition first_best (N : nat) (cost : nat -> Qc) (k : nat) : Prop :=
  (k < N)%nat /\ (forall j, (j < N)%nat -> cost k <= cost j) /\ (forall j, (j < k)%nat -> cost k < cost j).
(* residual variance: spectrum times squared rejection, added over the frequencies *)
Definition residual (rejection spectrum : list Qc) : Qc := sumn (A := qc) (length spectrum) (fun f => nth f rejection 0 * nth f spectrum 0).
(* what the sensor would have measured without correction, for one mode: the command of the previous frame plus the
   measurement *)
Fixpoint open_loop_from (before : Qc) (l : list (Qc * Qc)) : list Qc :=
  match l with [] => [] | (d, u) :: r => (before + d) :: open_loop_from u r end.
Definition open_loop (l : list (Qc * Qc)) : list Qc := open_loop_from 0 l.
(* the smaller of two *)
Definition lesser (a b : Qc) : Qc := if Qclt_le_dec a b then a else b.
(* change of the optical gain between the last two frames *)
Definition change (l : list Qc) : Qc := match rev l with a :: b :: _ => a / b | _ => 1 end.
