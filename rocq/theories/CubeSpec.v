(* Arrays by index, straight lines in time. *)
From Coq Require Import List ZArith Bool Arith QArith Qcanon.
From Verif Require Import Arith SlopecSpec.
Import ListNotations.
Local Open Scope nat_scope.

(* position, in row order, of an index in an array of the given shape *)
Fixpoint volume (shape : list nat) : nat := match shape with [] => 1 | n :: s => n * volume s end.
Fixpoint place (shape idx : list nat) : nat :=
  match shape, idx with n :: s, i :: r => i * volume s + place s r | _, _ => 0 end.
Inductive index_in : list nat -> list nat -> Prop :=
| index_nil : index_in [] []
| index_cons n s i r : i < n -> index_in s r -> index_in (n :: s) (i :: r).

Local Open Scope Qc_scope.
(* at time t, on the line from v0 at t0 to v1 at t1 *)
Definition line_at (t0 t1 v0 v1 t : Qc) : Qc := v0 + (v1 - v0) * ((t - t0) / (t1 - t0)).
Definition increasing (l : list Qc) : Prop := forall i j, (i < j)%nat -> (j < length l)%nat -> nth i l 0 < nth j l 0.
