(* Tiles of an image, sums of their pixels. *)
From Coq Require Import List ZArith Bool Arith QArith Qcanon.
Local Open Scope nat_scope.
Import ListNotations.

Definition flux (img : nat -> nat -> Qc) (l : list (nat * nat)) : Qc := fold_right (fun p a => (img (fst p) (snd p) + a)%Qc) 0%Qc l.
(* the pixels of the tile of row a and column b, for tiles of s pixels *)
Definition tile (rows cols s a b : nat) : list (nat * nat) :=
  filter (fun p => (fst p / s =? a)%nat && (snd p / s =? b)%nat) (list_prod (seq 0 rows) (seq 0 cols)).
Definition number (cols : nat) (p : nat * nat) : Z := (Z.of_nat (fst p) * Z.of_nat cols + Z.of_nat (snd p))%Z.
(* l holds the pixels of the square of m pixels from row a and column b *)
Definition is_square (cols : nat) (l : list Z) (a b m : nat) : Prop :=
  l = map (number cols) (list_prod (seq a m) (seq b m)).
Definition box (a b m : nat) : list (nat * nat) := list_prod (seq a m) (seq b m).
(* t is the largest of the values *)
Definition is_top (n : nat) (f : nat -> nat -> Qc) (t : Qc) : Prop :=
  (exists i j, i < n /\ j < n /\ f i j = t) /\ forall i j, i < n -> j < n -> (f i j <= t)%Qc.
Definition before (p q : nat * nat) : Prop := fst p < fst q \/ (fst p = fst q /\ snd p < snd q).
