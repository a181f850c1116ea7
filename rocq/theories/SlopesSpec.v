(* What the X and Y slopes of a slope vector are. *)
From Coq Require Import List ZArith Bool Arith Permutation.
Import ListNotations.

(* [p] and [q] list every position of a vector of n elements, each once *)
Definition halves (n : nat) (p q : list Z) : Prop := Permutation (p ++ q) (map Z.of_nat (seq 0 n)).

(* Taking turns: x0 y0 x1 y1 ... *)
Fixpoint interleaved {V} (v : list V) : list V * list V :=
  match v with
  | x :: y :: r => let (a, b) := interleaved r in (x :: a, y :: b)
  | _ => ([], [])
  end.

(* The frame [f] of [np] pixels shows [v]: the k-th value at the k-th position, [z] elsewhere *)
Definition shows_at {V} (z : V) (np : nat) (idx : list Z) (v f : list V) : Prop :=
  length f = np /\
  (forall k i x, nth_error idx k = Some i -> nth_error v k = Some x -> nth_error f (Z.to_nat i) = Some x) /\
  (forall p, p < np -> ~ In (Z.of_nat p) idx -> nth_error f p = Some z).
