(* What averaging over blocks means. *)
From Coq Require Import List ZArith Bool Arith.
From Verif Require Import PyBase Arith FilterSpec.
Import ListNotations.
Local Open Scope ar_scope.

Section S.
Context {A : arith}.
Implicit Types f : nat -> nat -> A.
(* sum of all pixels of an M x N frame *)
Definition flux (M N : nat) f : A := sumn M (fun i => sumn N (fun j => f i j)).
(* the numbers 1, 1+1, ... and none of them is zero *)
Definition counts (ofn : nat -> A) : Prop := (forall n, ofn n = sumn n (fun _ => 1)) /\ forall n, (0 < n)%nat -> ofn n <> 0.
(* an array of this shape with these pixels *)
Definition frame (M N : nat) f (rows : list (list A)) : Prop :=
  length rows = M /\ (forall i, (i < M)%nat -> length (nth i rows []) = N) /\
  forall i j, (i < M)%nat -> (j < N)%nat -> nth j (nth i rows []) 0 = f i j.
End S.
