(* What the image of a Shack-Hartmann sensor should be. *)
From Coq Require Import Reals List ZArith Bool Arith.
From Verif Require Import Fourier PsfModel ShImageModel.
Import ListNotations.
Local Open Scope R_scope.

(* the light that n x n samples of a field send in the direction (X + 1/2, Y + 1/2), in units of wavelength / (F samples) *)
Definition spot (F n : nat) (v : field) (X Y : Z) : R :=
  abs2 (csum2 n n (fun a b => cmul (v a b) (cis (- (2 * PI * (INR a * (IZR X + / 2) + INR b * (IZR Y + / 2)) / INR F))))).
(* the samples of subaperture (i, j) *)
Definition subaperture (u : field) (sub i j : nat) : field := fun a b => u (i * sub + a)%nat (j * sub + b)%nat.
Definition lit (n : nat) (v : field) : R := rsum2 n n (fun a b => abs2 (v a b)).

Record sane (x : sh) : Prop := mkSane { sane_n : (0 < x_n x)%nat; sane_sub : (0 < x_sub x <= x_fft x)%nat; sane_cut : (x_cut x < x_fft x)%nat; sane_bin : (0 < x_bin x)%nat; sane_div : (x_cutsize x = x_bin x * (x_cutsize x / x_bin x))%nat }.
Definition all_rows (x : sh) : Prop := x_start x = 0%nat /\ x_stop x = x_n x.
Definition npx (x : sh) : nat := (x_cutsize x / x_bin x)%nat.
(* pixel k of the kept part of the focal plane, counted from the centre of the focal plane *)
Definition from_centre (x : sh) (k : nat) : Z := (Z.of_nat (x_cut x / 2 + k) - Z.of_nat (x_fft x / 2))%Z.
(* pixel (r, c) of the subaperture that contains the field v *)
Definition pixel_of (x : sh) (v : field) (r c : nat) : R :=
  rsum2 (x_bin x) (x_bin x) (fun a b => spot (x_fft x) (x_sub x) v (from_centre x (r * x_bin x + a)) (from_centre x (c * x_bin x + b)) *
    x_mask x (x_cut x / 2 + (r * x_bin x + a))%nat (x_cut x / 2 + (c * x_bin x + b))%nat).
Definition correct (x : sh) (u : field) (img : image) : Prop := forall i j r c, (i < x_n x)%nat -> (j < x_n x)%nat -> (r < npx x)%nat -> (c < npx x)%nat ->
  img (i * npx x + r)%nat (j * npx x + c)%nat = pixel_of x (subaperture u (x_sub x) i j) r c.
(* the arrays of a sensor hold zeros outside of the part it writes *)
Definition clean (x : sh) (h : heap) : Prop := forall j a b, (x_sub x <= a < x_fft x)%nat \/ (x_sub x <= b < x_fft x)%nat -> h_pad h (pad_key x) j a b = c0.
(* the light of the pixels of subaperture (i, j) *)
Definition tile_sum (x : sh) (img : image) (i j : nat) : R := rsum2 (npx x) (npx x) (fun r c => img (i * npx x + r)%nat (j * npx x + c)%nat).
