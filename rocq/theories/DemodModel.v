(* Demodulation of a signal at the frequency of a carrier (specula/lib/demodulate_signal.py).
   Real numbers instead of float32, and one signal: the columns of an array are treated separately by the code. *)
From Coq Require Import Reals List ZArith Arith Lra Lia.
From Verif Require Import PyBase Fourier.
Local Open Scope R_scope.

(* numpy's arctan2, the angle of the point (p, q) in (-pi, pi]; there is no negative zero here *)
Definition atan2 (q p : R) : R :=
  let r := sqrt (p * p + q * q) in
  if Req_EM_T r 0 then 0 else if Rlt_dec q 0 then - acos (p / r) else acos (p / r).
Definition mean (n : nat) (f : nat -> R) : R := rsum n f / INR n.
(* demodulate_signal.py:73-74 *)
Definition time (fs : R) (i : nat) : R := INR i * (1 / fs).
(* demodulate_signal.py:75 *)
Definition omega (fc : R) : R := 2 * PI * fc.

(* demodulate_signal.py:80-81: samples in j + 1 periods of the carrier, distance to the closest integer *)
Definition test_vect (fc fs : R) (j : nat) : R := INR (S j) * fs / fc.
Definition error (fc fs : R) (j : nat) : R := Rmin (frac_part (test_vect fc fs j)) (1 - frac_part (test_vect fc fs j)).
(* demodulate_signal.py:82-84: the last of the first p candidates with an error of 1e-3 or less *)
Fixpoint last_close (fc fs : R) (p : nat) : option nat :=
  match p with O => None | S q => if Rle_dec (error fc fs q) (1 / 1000) then Some q else last_close fc fs q end.
(* demodulate_signal.py:86: the first of those with the smallest error *)
Fixpoint first_min (fc fs : R) (p : nat) : nat :=
  match p with
  | O => O
  | S q => let b := first_min fc fs q in if Rlt_dec (error fc fs q) (error fc fs b) then q else b
  end.
(* demodulate_signal.py:78-88: how many of the last windows are averaged *)
Definition max_time (nt : nat) (fs : R) : R := Rmax 0 (time fs (nt - 1)).
Definition n4mean (nt : nat) (fc fs : R) : nat :=
  match Z.to_nat (Int_part (max_time nt fs * fc)) with
  | O => Nat.max 1 (nt / 4)
  | p => Z.to_nat (Int_part (test_vect fc fs (match last_close fc fs p with Some j => j | None => first_min fc fs p end)))
  end.

(* demodulate_signal.py:91-97 with d = nt, and 120-123 with n = j + 1 and d = j *)
Definition detrend (n : nat) (d : R) (f : nat -> R) : nat -> R :=
  let c := fun i => f i - mean n f in
  let tilt := (c (n - 1)%nat - c 0%nat) / d in
  fun i => c i - tilt * INR i - c 0%nat.

(* demodulate_signal.py:100-105 *)
Definition reference_phase (nt : nat) (f : nat -> R) (fc fs : R) : R :=
  let x := detrend nt (INR nt) f in
  atan2 (mean nt (fun i => x i * sin (omega fc * time fs i))) (mean nt (fun i => x i * cos (omega fc * time fs i))).
(* demodulate_signal.py:108-111 *)
Definition dem_sin (fc fs phi : R) (i : nat) : R := sin (omega fc * time fs i - phi).
Definition dem_cos (fc fs phi : R) (i : nat) : R := cos (omega fc * time fs i - phi).
(* demodulate_signal.py:118-126 *)
Definition qa (f : nat -> R) (fc fs phi : R) (j : nat) : R := rsum (S j) (fun i => detrend (S j) (INR j) f i * dem_sin fc fs phi i) / (INR j + 1).
Definition pa (f : nat -> R) (fc fs phi : R) (j : nat) : R := rsum (S j) (fun i => detrend (S j) (INR j) f i * dem_cos fc fs phi i) / (INR j + 1).
(* demodulate_signal.py:133-143 for a series x, whose entry k is of window k + 2 *)
Definition last_mean (nt n4 : nat) (x : nat -> R) : R :=
  let start := (nt - 2 - n4)%nat in
  let stop := (nt - 2)%nat in
  if (start <? stop)%nat then mean (stop - start) (fun k => x (start + k)%nat) else if (0 <? stop)%nat then x (stop - 1)%nat else 0.

(* demodulate_signal.py:9-170 *)
Definition demodulate (nt : nat) (f : nat -> R) (fc fs : R) (cumulated : bool) : res (R * R) :=
  if Req_EM_T fs 0 then Err ZeroDivisionError
  else if (nt =? 0)%nat then Err ValueError
  else
    let phi0 := reference_phase nt f fc fs in
    if cumulated then
      let q := fun k => qa f fc fs phi0 (k + 2) in
      let p := fun k => pa f fc fs phi0 (k + 2) in
      Ok (last_mean nt (n4mean nt fc fs) (fun k => 2 * sqrt (q k * q k + p k * p k)),
          last_mean nt (n4mean nt fc fs) (fun k => atan2 (q k) (p k)) + phi0)
    else
      let x := detrend nt (INR nt) f in
      let q := mean nt (fun i => x i * dem_sin fc fs phi0 i) in
      let p := mean nt (fun i => x i * dem_cos fc fs phi0 i) in
      Ok (2 * sqrt (q * q + p * p), atan2 q p + phi0).
