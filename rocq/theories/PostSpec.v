(* Filtering of slopes: what it should remove. *)
From Coq Require Import List ZArith Bool PeanoNat.
From Verif Require Import Arith FilterSpec.
Import ListNotations.

Section Post.
Context {A : arith}.
(* element (i, j) of a matrix *)
Definition elem (M : mat A) (i j : nat) : A := nth j (nth i M []) zer.
(* the amplitude of mode j in the slopes v, with one row per slope in the reconstructor *)
Definition amplitude (n : nat) (R : mat A) (v : nat -> A) (j : nat) : A := sumn n (fun k => mul (v k) (elem R k j)).
(* the slopes of the modes with amplitudes c *)
Definition of_modes (m : nat) (N : mat A) (c : nat -> A) (i : nat) : A := sumn m (fun j => mul (elem N i j) (c j)).
(* the reconstructor measures the modes of the interaction matrix *)
Definition measures (n m : nat) (N R : mat A) : Prop :=
  forall j l, j < m -> l < m -> sumn n (fun k => mul (elem R k j) (elem N k l)) = if Nat.eqb j l then one else zer.
End Post.
