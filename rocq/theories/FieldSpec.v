(* What electric fields are. *)
From Coq Require Import List ZArith Bool Arith.
From Verif Require Import PyBase Arith FilterSpec FitsModel CutSpec FieldModel.
Import ListNotations.
Local Open Scope ar_scope.

Section S.
Context {A : arith}.
(* [a] is an array of r rows and c columns with these values *)
Definition image (r c : nat) (f : nat -> nat -> A) (a : arr2 A) : Prop := entries 0 r c f a.
(* [e] is a field of r rows and c columns with this amplitude and phase *)
Definition field (r c : nat) (amp ph : nat -> nat -> A) (e : efield A) : Prop := image r c amp (ef_A A e) /\ image r c ph (ef_ph A e).
(* sum and product over a list *)
Fixpoint sum_over {X} (f : X -> A) (l : list X) : A := match l with [] => 0 | x :: r => f x + sum_over f r end.
Fixpoint prod_over {X} (f : X -> A) (l : list X) : A := match l with [] => 1 | x :: r => f x * prod_over f r end.
End S.
(* amplitude and phase of a pixel of a field *)
Definition amp_at {A : arith} (e : efield A) (i j : nat) : A := entry 0 (ef_A A e) i j.
Definition ph_at {A : arith} (e : efield A) (i j : nat) : A := entry 0 (ef_ph A e) i j.
(* a field with arrays of r rows and c columns *)
Definition sized {A : arith} (e : efield A) (r c : nat) : Prop := field r c (amp_at e) (ph_at e) e.
