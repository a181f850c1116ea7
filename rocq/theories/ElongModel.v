(* Noise of elongated spots: calc_noise_cov_elong of specula/lib/calc_noise_cov_elong.py, from the elongations.

   Simplifications.
   - Numbers are exact rationals, and divisions by zero give zero.  The elongations of the sub-apertures along the two axes, their
     fluxes and the order of their distances (numpy.argsort) are inputs; the square of the length of an elongation is the sum of
     the squares of its components.
   - The fraction of truncated sub-apertures is at most one. *)
From Coq Require Import List ZArith Bool Arith QArith Qcanon.
From Verif Require Import PyBase OpticalModel AirModel.
Import ListNotations.
Local Open Scope Qc_scope.

Definition matrix := nat -> nat -> Qc.
Definition put (m : matrix) (r c : nat) (v : Qc) : matrix := fun i j => if (i =? r)%nat && (j =? c)%nat then v else m i j.

Section Elong.
Context (n : nat) (beta1 beta2 eta : nat -> Qc) (sigma2 noise : Qc) (order : list nat).
Definition beta_tot2 (k : nat) : Qc := beta1 k * beta1 k + beta2 k * beta2 k.
(* calc_noise_cov_elong.py:197-205, 243-250: int(t * count) sub-apertures are truncated, the last in the order *)
Definition n_truncated (t : Qc) (count : nat) : nat := if qlt 0 t then Z.to_nat (Qnum (this (t * q (Z.of_nat count) 1)) / Zpos (Qden (this (t * q (Z.of_nat count) 1)))) else 0%nat.
(* calc_noise_cov_elong.py:282-308: a sub-aperture that is not truncated *)
Definition whole (m : matrix) (k : nat) : matrix :=
  let f := 1 / noise * eta k / (1 + beta_tot2 k / sigma2) in
  let m := put m k k (f * (1 + beta2 k * beta2 k / sigma2)) in
  let m := put m (k + n) (k + n) (f * (1 + beta1 k * beta1 k / sigma2)) in
  let m := put m k (k + n) (f * (- beta1 k * beta2 k / sigma2)) in
  put m (k + n) k (f * (- beta1 k * beta2 k / sigma2)).
(* calc_noise_cov_elong.py:315-341: a truncated one *)
Definition truncated (m : matrix) (k : nat) : matrix :=
  let f := eta k / (noise * beta_tot2 k) in
  let m := put m k k (f * (beta2 k * beta2 k)) in
  let m := put m (k + n) (k + n) (f * (beta1 k * beta1 k)) in
  let m := put m k (k + n) (f * (- beta1 k * beta2 k)) in
  put m (k + n) k (f * (- beta1 k * beta2 k)).
(* calc_noise_cov_elong.py:236-343: the full matrix *)
Definition full (t : Qc) : matrix :=
  let tr := n_truncated t n in
  let order := if qlt 0 t then order else seq 0 n in
  fold_left truncated (skipn (n - tr) order) (fold_left whole (firstn (n - tr) order) (fun _ _ => 0)).
(* calc_noise_cov_elong.py:188-234: the diagonal alone; the order is that of the 2 n coordinates *)
Definition diagonal (t : Qc) : matrix :=
  let tr := n_truncated t (2 * n) in
  fun i j => if (i =? j)%nat then
    (if (i <? n)%nat then 1 / noise * sigma2 / (sigma2 + beta1 i * beta1 i) else 1 / noise * sigma2 / (sigma2 + beta2 (i - n)%nat * beta2 (i - n)%nat))
    * (if existsb (Nat.eqb i) (skipn (2 * n - tr) order) then q 1 4 else 1) else 0.
End Elong.
