(* Discs and annuli of pixels, centroids. *)
From Coq Require Import Reals List Arith Bool ZArith.
Import ListNotations.
Local Open Scope R_scope.

(* pixel (row, column) is at most at the distance b, and at least at the distance a, of (x, y) *)
Definition annulus (x y a b : R) (p : nat * nat) : Prop := a * a <= (INR (snd p) - x) * (INR (snd p) - x) + (INR (fst p) - y) * (INR (fst p) - y) <= b * b.
Definition sum_of {X} (f : X -> R) (l : list X) : R := fold_right (fun x a => f x + a) 0 l.
(* centre of mass of some pixels *)
Definition centroid (l : list (nat * nat)) (x y : R) : Prop :=
  INR (length l) * x = sum_of (fun p => INR (snd p)) l /\ INR (length l) * y = sum_of (fun p => INR (fst p)) l.
(* the squares on the left and right of the middle column, above and below the middle row: 0 1 above, 2 3 below *)
Definition quadrant (h w i : nat) (p : nat * nat) : Prop :=
  let d := Nat.min (w / 2) (h / 2) in
  (if (i <? 2)%nat then h / 2 - d <= fst p < h / 2 else h / 2 <= fst p < h / 2 + d)%nat /\
  (if Nat.even i then w / 2 - d <= snd p < w / 2 else w / 2 <= snd p < w / 2 + d)%nat.
Definition column (i : nat) (rows : list (list Z)) : list Z := map (fun r => nth i r (-1)%Z) rows.
(* pixel of an image of w columns as a number *)
Definition number (w : nat) (p : nat * nat) : Z := (Z.of_nat (fst p) * Z.of_nat w + Z.of_nat (snd p))%Z.
Definition nearest (z : Z) (x : R) : Prop := Rabs (IZR z - x) <= 1 / 2.
(* number of a pixel moved by (dy, dx), if it remains in the image *)
Definition moved_number (h w : nat) (dy dx : Z) (p : nat * nat) : list Z :=
  let y := (Z.of_nat (fst p) + dy)%Z in let x := (Z.of_nat (snd p) + dx)%Z in
  if ((0 <=? y) && (y <? Z.of_nat h) && (0 <=? x) && (x <? Z.of_nat w))%Z then [(y * Z.of_nat w + x)%Z] else [].
