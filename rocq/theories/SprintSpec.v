(* Vocabulary for C122. *)
From Coq Require Import List ZArith Arith QArith Qcanon.
Import ListNotations.

Section Batches.
Context {X : Type}.
(* at none of these samples an estimation is due: less than dt since the last one, or fewer than ten samples *)
Definition waits (dt last : Z) (l : list (Z * X)) : Prop := forall i e, nth_error l i = Some e -> (fst e - last < dt)%Z \/ (S i < 10)%nat.
(* bs are the samples of the successive estimations, rest those after the last one *)
Fixpoint batches (dt last : Z) (bs : list (list (Z * X))) (rest : list (Z * X)) : Prop :=
  match bs with
  | [] => waits dt last rest
  | b :: bs => exists pre t x, b = pre ++ [(t, x)] /\ waits dt last pre /\ (dt <= t - last)%Z /\ (10 <= length b)%nat /\ batches dt t bs rest
  end.
(* time of the last estimation *)
Definition last_time (bs : list (list (Z * X))) : option Z := match rev bs with [] => None | b :: _ => match rev b with [] => None | e :: _ => Some (fst e) end end.
End Batches.

(* a chain of values, each obtained from the previous one *)
Section Chain.
Context {P E : Type} (next : P -> option (P * E)) (stop : E -> bool).
(* from x to y in k steps, the last one with outcome e, none of the others stopping *)
Inductive reaches : nat -> P -> P -> E -> Prop :=
| reach_one x y e : next x = Some (y, e) -> reaches 1 x y e
| reach_more k x y z e e' : next x = Some (y, e) -> stop e = false -> reaches k y z e' -> reaches (S k) x z e'.
End Chain.
