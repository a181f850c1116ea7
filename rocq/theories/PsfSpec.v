(* What the image of a point is: the modulus squared of a sum over the pupil. *)
From Coq Require Import Reals List ZArith.
From Verif Require Import Fourier.
Local Open Scope R_scope.

(* The field at the (signed) spatial frequency (p, q) of an array of N rows and M columns, from a pupil of n rows and m columns *)
Definition focal (n m N M : nat) (amp phase : nat -> nat -> R) (p q : Z) : C :=
  csum2 n m (fun i j => cmul (creal (amp i j)) (cis (phase i j - 2 * PI * (INR i * IZR p / INR N + INR j * IZR q / INR M)))).
(* The sum of the squared amplitudes, and of the amplitudes *)
Definition energy (n m : nat) (amp : nat -> nat -> R) : R := rsum2 n m (fun i j => amp i j * amp i j).
Definition area (n m : nat) (amp : nat -> nat -> R) : R := rsum2 n m amp.
(* Strehl ratio: energy on the axis, compared with that of the same aperture without aberrations *)
Definition strehl (n m : nat) (amp phase : nat -> nat -> R) : R :=
  abs2 (csum2 n m (fun i j => cmul (creal (amp i j)) (cis (phase i j)))) / (area n m amp * area n m amp).
(* Equality of two phases up to whole waves *)
Definition same_wave (x y : R) : Prop := exists z : Z, x - y = 2 * PI * IZR z.
(* Average and average of squares over a list *)
Definition rlist (l : list R) : R := List.fold_right Rplus 0 l.
Definition average (l : list R) : R := rlist l / INR (length l).
