(* Signals, element by element. *)
From Coq Require Import Reals List Arith.
Import ListNotations.
Local Open Scope R_scope.

(* element i of a vector, or its only one *)
Definition at_ (l : list R) (i : nat) : R := match l with [x] => x | _ => nth i l 0 end.
(* a length that is one or n *)
Definition fits (n : nat) (l : list R) : Prop := length l = 1%nat \/ length l = n.
(* weights of the radial degree n *)
Definition inverse_weight (n : nat) : R := match n with O => 1 | _ => / INR n end.
Definition linear_weight (n : nat) : R := match n with O => 1 | _ => INR n end.
Fixpoint squares (l : list R) : R := match l with [] => 0 | a :: r => a ^ 2 + squares r end.
