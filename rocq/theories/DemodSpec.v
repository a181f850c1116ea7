(* Vocabulary for the demodulation: the signal above the line through its ends, its component at a frequency. *)
From Coq Require Import Reals List Arith.
From Verif Require Import Fourier.
Local Open Scope R_scope.

Definition modulus (z : C) : R := sqrt (abs2 z).
(* the signal minus the line that starts at the first sample and rises by the difference of the ends over d samples *)
Definition above_line (last : nat) (d : R) (f : nat -> R) (i : nat) : R := f i - f 0%nat - (f last - f 0%nat) / d * INR i.
(* the component at the carrier frequency of the first n samples *)
Definition component (n : nat) (x : nat -> R) (fc fs : R) : C := cmul (creal (1 / INR n)) (csum n (fun i => cmul (creal (x i)) (cis (2 * PI * fc * (INR i / fs))))).
(* the amplitude seen after sample j, free of a line *)
Definition amplitude (f : nat -> R) (fc fs : R) (j : nat) : R := 2 * modulus (component (S j) (above_line j (INR j) f) fc fs).
(* the phasor of an amplitude and a phase *)
Definition phasor (a phi : R) : C := cmul (creal a) (cis phi).
