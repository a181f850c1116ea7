(* How a phase goes on beyond the edge of a pupil. *)
From Coq Require Import List ZArith Bool Arith QArith Qcanon.
From Verif Require Import Arith SlopecSpec InterpSpec.
Import ListNotations.
Local Open Scope Qc_scope.

(* the four ways, in the order used: down, up, right, left *)
Inductive way := Down | Up | Right | Left.
Definition ways : list way := [Down; Up; Right; Left].
Definition step (w : way) (k : Z) (p : Z * Z) : Z * Z :=
  match w with
  | Down => (fst p + k, snd p) | Up => (fst p - k, snd p) | Right => (fst p, snd p + k) | Left => (fst p, snd p - k)
  end%Z.
Section Pupil.
(* the pupil, and values on the plane *)
Variable pupil : Z * Z -> bool.
Variable f : Z * Z -> Qc.
Definition next_to (p : Z * Z) (w : way) : bool := pupil (step w 1 p).
Definition two_deep (p : Z * Z) (w : way) : bool := pupil (step w 1 p) && pupil (step w 2 p).
(* the straight line through two pixels *)
Definition line (p : Z * Z) (w : way) : Qc := f (step w 1 p) + (f (step w 1 p) - f (step w 2 p)).
(* the ways that meet the pupil; a pupil one pixel deep counts only if met first *)
Definition first_way (p : Z * Z) : option way := find (next_to p) ways.
Definition shallow_first (p : Z * Z) : list Qc :=
  match first_way p with Some w => if two_deep p w then [] else [f (step w 1 p)] | None => [] end.
Definition guesses (p : Z * Z) : list Qc := shallow_first p ++ map (line p) (filter (two_deep p) ways).
Definition total (l : list Qc) : Qc := fold_right Qcplus 0 l.
Definition average (l : list Qc) : Qc := total l / qnat (length l).
Definition beside (p : Z * Z) : bool := negb (pupil p) && existsb (next_to p) ways.
Definition extension (p : Z * Z) : Qc := if pupil p then f p else if beside p then average (guesses p) else 0.
(* the first way that meets the pupil finds it at least two pixels deep *)
Definition deep (p : Z * Z) : Prop := match first_way p with Some w => two_deep p w = true | None => True end.
End Pupil.
(* a plane *)
Definition plane (k0 ky kx : Qc) (y x : Qc) : Qc := k0 + ky * y + kx * x.
(* a pixel touches a point when the surface at the point depends on it *)
Definition touches (y x : Qc) (i j : nat) : Prop := - (1) < y - qnat i /\ y - qnat i < 1 /\ - (1) < x - qnat j /\ x - qnat j < 1.
