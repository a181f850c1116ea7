(* Sequences with resets, and gains in force. *)
From Coq Require Import List Bool PeanoNat.
From Verif Require Import PyBase Arith.
Import ListNotations.
Local Open Scope ar_scope.
Section S.
Context {A : arith}.
(* the value j steps before step k; zero before the latest reset *)
Fixpoint back (reset : nat -> bool) (x : nat -> A) (k j : nat) {struct j} : A :=
  match j with
  | 0%nat => x k
  | S j' => if reset k then 0 else match k with 0%nat => 0 | S k' => back reset x k' j' end
  end.
(* the gain of a channel after the first k events, each giving at most one value *)
Fixpoint in_force (start : A) (given : nat -> option A) (k : nat) : A :=
  match k with 0%nat => start | S m => match given m with Some g => g | None => in_force start given m end end.
End S.
Section G.
Context {A : arith}.
Variable finite : A -> bool.
(* the new gain that an event carries for channel i of n: one value for every channel, or one value
   per channel; values that are not finite do not count *)
Inductive newgain := NoGain | OneGain (x : A) | Gains (v : vec A).
Definition gain_for (g : newgain) (i : nat) : option A :=
  match g with
  | NoGain => None
  | OneGain x => if finite x then Some x else None
  | Gains v => match nth_error v i with Some x => if finite x then Some x else None | None => None end
  end.
End G.
Arguments newgain : clear implicits.
