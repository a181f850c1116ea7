(* The geometry of a Shack-Hartmann sensor: SH._set_in_ef, SH._calc_geometry and the sizes used by SH.trigger_code
   in specula/processing_objects/sh.py.

   Numbers are exact rationals, except in the last section, which repeats the last steps with the 64 bit floating point
   numbers of the standard library.  Angles in arcseconds are angles in radians times [asec] (RAD2ASEC, a positive number).
   Divisions are total here: the divisors are positive for sensors of positive sizes, see [ShGeomSpec.sound].  Prints and the
   attributes that nothing reads afterwards (_np_sub, mcmx, _xyShiftPhInPixel) are left out. *)
From Coq Require Import List ZArith Bool Arith QArith Qcanon Qround Floats.SpecFloat.
From Verif Require Import PyBase Arith OpticalModel ExtModel InterpModel ScreenModel RadialModel MaskModel GeomModel.
Import ListNotations.
Local Open Scope Qc_scope.

(* sh.py:118-163 the attributes of a sensor.  [w_px] in radians and [w_res] in arcseconds change in setup; [w_res] is 0 until
   it is set (sh.py:127) *)
Record sensor := mkSensor { w_nm : Qc; w_wanted : Qc; w_px : Qc; w_n : Z; w_npx : Z; w_coeff : Qc; w_turb : bool; w_res : Qc }.
(* sh.py:118-127 *)
Definition new_sensor (asec nm wanted px : Qc) (n npx : Z) (coeff : Qc) (turb : bool) : sensor := mkSensor nm wanted (px / asec) n npx coeff turb 0.
Definition qh : Qc := 1 / (1 + 1).
Definition q2 : Qc := 1 + 1.
Definition metres (nm : Qc) : Qc := nm / qz 1000000000.
(* lenslet.py:43 *)
Definition lens_size (n : Z) : Qc := q2 / qz n.

(* sh.py:187-191 *)
Definition np_sub (n size : Z) : Qc := qz size * lens_size n / q2.
Definition turb_scale (asec : Qc) (w : sensor) (size : Z) (pitch : Qc) : Qc := metres (w_nm w) / (np_sub (w_n w) size * pitch) * asec.
(* sh.py:209-214: the while loop *)
Fixpoint smallest (fuel : nat) (i : Z) (turb px : Qc) : res Z :=
  match fuel with O => Err OutOfFuel | S f => if qlt (turb / qz (i + 2)) px then Ok i else smallest f (i + 1)%Z turb px end.
(* sh.py:223-231: one of the ten trials: resolution, scale, FFT pixel, number of pixels in the wanted field, least common
   multiple with the pixels of a subaperture *)
Record trial := mkTrial { t_res : Qc; t_scale : Z; t_fft : Qc; t_real : Z; t_mcm : Z }.
Definition make_trial (asec : Qc) (w : sensor) (size : Z) (pitch turb : Qc) (imin : Z) (k : nat) : trial :=
  let r := turb / qz (imin + Z.of_nat k + 2) in
  let scale := qround (turb / r) in
  let fft := metres (w_nm w) * qz (w_n w) / (qz size * pitch * qz scale) * asec in
  let real := (qround (w_wanted w / fft / q2) * 2)%Z in
  mkTrial r scale fft real (Z.lcm (w_npx w) real).
Definition no_trial : trial := mkTrial 0 0 0 0 0.
(* sh.py:234-236 *)
Definition fov_error (w : sensor) (t : trial) : Qc := qabs (qz (t_real t) * t_fft t - w_wanted w) / w_wanted w.
Definition good (w : sensor) (t : trial) : bool := qlt (fov_error w t) (qz 2 / qz 100).
Definition nth_trial (l : list trial) (k : nat) : trial := nth k l no_trial.
(* sh.py:236-240: idx_good *)
Definition goods (w : sensor) (l : list trial) : list nat :=
  let g := filter (fun k => good w (nth_trial l k)) (seq 0 (length l)) in
  if (length g =? 0)%nat then seq 0 (length l) else g.
(* sh.py:242-248: the trial that is chosen.  (In the comparison the second divisor is zero only if the first is:
   the number of pixels grows with the trials, and argmin takes the first of the smallest.) *)
Definition ratio_mcm (l : list trial) (k : nat) : Qc := qz (t_mcm (nth_trial l k)) / qz (t_scale (nth_trial l k)).
Definition choose (w : sensor) (l : list trial) : res trial :=
  m <- argmin (map (ratio_mcm l) (goods w l)) ;;
  let best := nth m (goods w l) O in let first := nth 0 (goods w l) O in
  if negb (best =? 0)%nat && qlt (qz (t_scale (nth_trial l best)) / qz (t_scale (nth_trial l first))) (qz (t_mcm (nth_trial l first)) / qz (t_mcm (nth_trial l best)))
  then Ok (nth_trial l best) else Ok (nth_trial l first).
(* sh.py:195-248 *)
Definition resolution (fuel : nat) (asec : Qc) (w : sensor) (size : Z) (pitch : Qc) : res Qc :=
  let turb := turb_scale asec w size pitch in
  let px := w_px w * asec in
  if is0 (w_res w) then
    if w_turb w then (if qlt turb px then Ok turb else Err ValueError)
    else if qlt turb px && qlt qh (px / q2) then Ok (turb * qh)
    else
      imin <- smallest fuel 0 turb px ;;
      t <- choose w (map (make_trial asec w size pitch turb imin) (seq 0 10)) ;;
      Ok (t_res t)
  else Ok (w_res w).

(* sh.py:255-306: scale_ovs, FFT pixel in arcseconds, pixels of the real field of view, size of the interpolated phase,
   oversampling, pixels of an interpolated subaperture, size of the transforms *)
Record layout := mkLayout { y_scale : Z; y_fft_px : Qc; y_fov : Z; y_final : Z; y_ovs : Qc; y_sub : Z; y_fft : Z }.
(* sh.py:274-284 *)
Definition needed (w : sensor) (fov turb_fov : Z) : Qc :=
  qmax (qmax 1 (if (0 <? turb_fov)%Z then qz fov / qz turb_fov else 1)) (w_coeff w).
(* sh.py:176-330 _set_in_ef *)
Definition set_in_ef (fuel : nat) (asec : Qc) (w : sensor) (size : Z) (pitch : Qc) : res (sensor * layout) :=
  r <- resolution fuel asec w size pitch ;;
  let turb := turb_scale asec w size pitch in
  let scale := qround (turb / r) in
  let fft_px := metres (w_nm w) / (qz size * pitch * qz scale / qz (w_n w)) * asec in
  let fov := (qround (w_px w * qz (w_npx w) * asec / fft_px / q2) * 2)%Z in
  let turb_fov := qtrunc (qz scale * np_sub (w_n w) size) in
  let modulus := (2 * w_n w)%Z in
  let final := (qceil (qz size * needed w fov turb_fov / qz modulus) * modulus)%Z in
  let ovs := qz final / qz size in
  let sub := qround (qz size * ovs * lens_size (w_n w) * qh) in
  let w' := mkSensor (w_nm w) (w_wanted w) (qz fov * fft_px / qz (w_npx w) / asec) (w_n w) (w_npx w) (w_coeff w) (w_turb w) r in
  let per := qz size * ovs * lens_size (w_n w) in
  if qlt (1 / qz 10000) (qabs (per / q2 - qz (qround (per / q2)))) then Err ValueError
  else Ok (w', mkLayout scale fft_px fov final ovs sub (sub * scale)).

(* sh.py:349-366, 378: focal plane pixel in radians, pixels cut away, size of what is left, diameter of the mask *)
Record focal := mkFocalPlane { f_pitch : Qc; f_cut : Z; f_cutsize : Z; f_ratio : Qc }.
Definition focal_of (asec : Qc) (w : sensor) (y : layout) (pitch : Qc) : focal :=
  let fp := metres (w_nm w) / (pitch / y_ovs y * qz (y_fft y)) in
  let complete := qz (y_fft y) * fp in
  let cut := qtrunc (qz (qround ((complete - w_px w * qz (w_npx w)) / fp)) / q2 * q2) in
  mkFocalPlane fp cut (y_fft y - cut) (w_wanted w / asec / complete).
(* sh.py:542-543 setup: the geometry of the sensor *)
Definition setup (fuel : nat) (asec : Qc) (w : sensor) (size : Z) (pitch : Qc) : res (sensor * layout * focal) :=
  wy <- set_in_ef fuel asec w size pitch ;;
  Ok (fst wy, snd wy, focal_of asec (fst wy) (snd wy) pitch).
(* sh.py:459: the rows of the interpolated field used for row i of subapertures *)
Definition rows_of (y : layout) (i : Z) : Z * Z := (i * y_sub y, (i + 1) * y_sub y)%Z.
(* sh.py:497-501: the part of the focal plane that is kept, start and stop (the slice of numpy) *)
Definition kept (f : focal) (fft : Z) : Z * Z :=
  if (0 <? f_cut f)%Z then (f_cut f / 2, fft + - f_cut f / 2)%Z else (0%Z, fft).

(* ------------------------------------------------------- sizes in 64 bit floating point *)

Definition f64 (z : Z) : spec_float := binary_normalize 53 1024 z 0 false.
Definition fmul := SFmul 53 1024.
Definition fdiv := SFdiv 53 1024.
(* floor, ceiling and rounding (ties to even) of a finite number; 0 for the others *)
Definition fraction (x : spec_float) : Q :=
  match x with
  | S754_finite s m e => let n := if s then Z.neg m else Z.pos m in
      match e with Z0 => inject_Z n | Zpos p => inject_Z (n * 2 ^ Zpos p) | Zneg p => Qmake n (2 ^ p) end
  | _ => 0%Q end.
Definition f_trunc (x : spec_float) : Z := qtrunc (Q2Qc (fraction x)).
Definition f_ceil (x : spec_float) : Z := qceil (Q2Qc (fraction x)).
Definition f_round (x : spec_float) : Z := qround (Q2Qc (fraction x)).
(* sh.py:297-305, 546 and 561: the size of the interpolated phase, the pixels of an interpolated subaperture and the size of
   the row of pixels that trigger_code uses, when the oversampling that is needed is [needed] *)
Record sizes64 := mkSizes64 { z_final : Z; z_sub : Z; z_whole : Z }.
Definition sizes_of (size n : Z) (needed : spec_float) : sizes64 :=
  let modulus := f64 (2 * n) in
  let final := fmul (f64 (f_ceil (fdiv (fmul (f64 size) needed) modulus))) modulus in
  let ovs := fdiv final (f64 size) in
  let lens := fdiv (f64 2) (f64 n) in
  mkSizes64 (f_trunc final) (f_round (fmul (fmul (fmul (f64 size) ovs) lens) (fdiv (f64 1) (f64 2)))) (f_trunc (fmul (f64 size) ovs)).
(* sh.py:464: a row of sub x whole pixels is reshaped to (sub, n, sub); the numbers of pixels have to be the same *)
Definition split_row (z : sizes64) (n : Z) : res unit := if (z_sub z * z_whole z =? z_sub z * n * z_sub z)%Z then Ok tt else Err ValueError.
