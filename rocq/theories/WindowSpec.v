(* Vocabulary for the window properties. *)
From Coq Require Import List ZArith PeanoNat.
From Verif Require Import PyBase Arith FilterSpec.
Import ListNotations.
Local Open Scope Z_scope.

(* integration has begun *)
Definition begun (start t : Z) : Prop := start <= 0 \/ start <= t.
(* the step beginning at [t] is the last one of a window: its end is a whole number of
   window lengths after the start *)
Definition window_end (loop dt start t : Z) : Prop := exists q, t + loop = start + q * dt.

Definition time_of {B} (us : list (Z * B)) (k : nat) : Z := nth k (map fst us) 0.
Definition val_of {A : arith} (n : nat) (us : list (Z * vec A)) (k i : nat) : A :=
  chan_val n (nth k (map snd us) []) i.

(* the window ending at step [k] begins at step [m]: it is the first step or follows a
   window end, and there is no window end in between *)
Definition window {B} (loop dt start : Z) (us : list (Z * B)) (m k : nat) : Prop :=
  (m <= k)%nat /\
  (m = 0%nat \/ exists p, m = S p /\ begun start (time_of us p) /\ window_end loop dt start (time_of us p)) /\
  (forall j, (m <= j < k)%nat -> ~ (begun start (time_of us j) /\ window_end loop dt start (time_of us j))).

(* one trigger per loop step, from time 0 *)
Definition every_step {B} (loop : Z) (us : list (Z * B)) : Prop :=
  forall k, (k < length us)%nat -> time_of us k = Z.of_nat k * loop.
