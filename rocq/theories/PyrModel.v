(* The modulated pyramid: specula/processing_objects/modulated_pyramid.py.

   Numbers are real, Fourier transforms exact, except in the last section, where they are rationals.  The field is the one
   after interpolation, at the wavelength of the sensor (modulated_pyramid.py:545-546).  Edges and tip of the prism are perfect
   and the coefficients of the faces are not given (pyr_edge_def_ld, pyr_tip_def_ld, pyr_tip_maya_ld and pyr_tlt_coeff have
   their default values; with no defect the searches of lines 401-423 find nothing, because no pixel is at distance 0 from an
   edge: make_xy of an even number of samples).  The shift of the pupils (pup_shifts) is not modelled.  The detector adds
   squares of pixels (toccd.py; C72 is about the general case). *)
From Coq Require Import Reals List ZArith Bool Arith.
From Verif Require Import PyBase Fourier PsfModel ShImageModel.
From Verif Require OpticalModel InterpModel ScreenModel GeomModel.
Import ListNotations.
Local Open Scope R_scope.

(* a point of the modulation: tilts along the columns and the rows, in units of the amplitude, and weight *)
Record point := mkPoint { m_x : R; m_y : R; m_w : R }.
(* samples on a side of the field, of the padding and of the transforms; tilt scale; focal plane mask; modulation *)
Record pyr := mkPyr { y_p : nat; y_pad : nat; y_tot : nat; y_scale : R; y_mask : image; y_mod : list point }.

(* modulated_pyramid.py:448-455 get_modulation_tilts, make_xy.py:139-160: sample k of p *)
Definition mod_tilt (p k : nat) : R :=
  let x := fun k => (INR k - (INR p - 1) / 2) / (INR p / 2) * INR (p / 2) in
  x k * PI / ((x (p - 1)%nat - x 0%nat) / 2).
(* modulated_pyramid.py:478-482, 493-500 *)
Definition ttexp (p : nat) (s : point) (a b : nat) : C := cis (- (m_x s * mod_tilt p b + m_y s * mod_tilt p a)).
(* modulated_pyramid.py:427-443 get_tlt_f, utils.py:315-336; the quarter of the grid is 0, 1, ..., p - 1 *)
Definition tlt_f (y : pyr) (a b : nat) : C :=
  let shift := 2 * INR (y_p y) / (2 * (INR (y_p y) + INR (y_pad y))) in
  cis (- 2 * PI * (INR b / (2 * INR (y_p y)) * shift + INR a / (2 * INR (y_p y)) * shift)).
(* modulated_pyramid.py:368-371, 396-399, 425: get_pyr_tlt *)
Definition face (A m : nat) : nat := if (m <? A)%nat then m else (A - 1 - (m - A))%nat.
Definition pyr_tlt (y : pyr) (m n : nat) : R := let A := ((y_p y + y_pad y) / 2)%nat in (INR (face A n) + INR (face A m)) / y_scale y.
(* modulated_pyramid.py:271-274 *)
Definition masked_exp (y : pyr) : nat -> nat -> C :=
  fftshift (y_tot y) (y_tot y) (fun m n => cmul (cis (- 2 * PI * pyr_tlt y m n)) (creal (y_mask y m n))).
(* modulated_pyramid.py:556-566: the field of one point of the modulation, in the focal plane *)
Definition u_fp (y : pyr) (u : field) (s : point) : field :=
  dft2 (y_tot y) (y_tot y) (corner (y_p y) (y_p y) (fun a b => cmul (cmul (u a b) (tlt_f y a b)) (ttexp (y_p y) s a b))).
Definition wsum (l : list point) (f : point -> R) : R := fold_right (fun s r => f s * m_w s + r) 0 l.
(* modulated_pyramid.py:17-28, 283, 570-577: the ifft without normalisation, times ifft_norm, is the inverse transform *)
Definition pyr_ef (y : pyr) (u : field) (s : point) : field :=
  idft2 (y_tot y) (y_tot y) (fun k l => cmul (u_fp y u s k l) (masked_exp y k l)).
(* modulated_pyramid.py:28, 577 *)
Definition pyr_image (y : pyr) (u : field) : image := fun r c => wsum (y_mod y) (fun s => abs2 (pyr_ef y u s r c)).
Definition weights (l : list point) : R := fold_right (fun s r => m_w s + r) 0 l.
(* modulated_pyramid.py:20, 539, 580-588 *)
Definition psf_bfm (y : pyr) (u : field) : image := fun k l => fftshift (y_tot y) (y_tot y) (fun k l => wsum (y_mod y) (fun s => abs2 (u_fp y u s k l))) k l * (1 / weights (y_mod y)).
Definition psf_tot (y : pyr) (u : field) : image := fun k l => fftshift (y_tot y) (y_tot y) (fun k l => wsum (y_mod y) (fun s => abs2 (u_fp y u s k l))) k l * y_mask y k l * (1 / weights (y_mod y)).
(* modulated_pyramid.py:281-282, 584 *)
Definition roll (n s : nat) (i : image) : image := fun r c => i ((r + (n - s mod n)) mod n)%nat ((c + (n - s mod n)) mod n)%nat.
Definition pupils (y : pyr) (u : field) : image := roll (y_tot y) (y_pad y / 2) (pyr_image y u).
(* modulated_pyramid.py:591 *)
Definition transmission (y : pyr) (u : field) : R := rsum2 (y_tot y) (y_tot y) (psf_tot y u) / rsum2 (y_tot y) (y_tot y) (psf_bfm y u).
(* modulated_pyramid.py:597-600: [phot] is S0 times the area of the pupil.  0/0 is not modelled. *)
Definition bright (y : pyr) (u : field) (phot : R) : image := fun r c => pupils y u r c * (phot / rsum2 (y_tot y) (y_tot y) (pupils y u) * transmission y u).
(* modulated_pyramid.py:612-622: [t] pixels on a side into a detector of [n], that starts at zero *)
Definition on_detector (t n : nat) (i : image) : image := fun r c =>
  if (t <? n)%nat then (let d := ((n - t) / 2)%nat in if (d <=? r)%nat && (r <? d + t)%nat && (d <=? c)%nat && (c <? d + t)%nat then i (r - d)%nat (c - d)%nat else 0)
  else (let d := ((t - n) / 2)%nat in i (d + r)%nat (d + c)%nat).
Definition detector (y : pyr) (u : field) (phot : R) (bin n : nat) : image := on_detector (y_tot y / bin) n (binned bin (bright y u phot)).
Definition inside (y : pyr) (u : field) (phot : R) (bin n : nat) : R :=
  if (n <? y_tot y / bin)%nat then rsum2 n n (detector y u phot bin n) / rsum2 (y_tot y / bin) (y_tot y / bin) (binned bin (bright y u phot)) else 1.

(* ------------------------------------------------------------------------------- the modulation *)

(* modulated_pyramid.py:475-485 *)
Definition circular (amp : R) (n : nat) : list point :=
  map (fun t => let angle := 2 * PI * (INR t / INR n) in mkPoint (amp * sin angle) (amp * cos angle) 1) (seq 0 n).
(* modulated_pyramid.py:491, 509-529 *)
Definition tilt_value (amp : R) (n : nat) (t : R) : R := amp * (2 * t / (INR n - 1) - 1).
Definition avg_tilt (amp : R) (n t : nat) : R :=
  if (t =? 0)%nat then (- amp + tilt_value amp n (/ 2)) / 2
  else if (t =? n - 1)%nat then (tilt_value amp n (INR t - / 2) + amp) / 2
  else tilt_value amp n (INR t).
Definition flux_factor (amp : R) (n t : nat) : R := 1 / cos (Rabs (avg_tilt amp n t) * PI / (2 * amp)).
(* modulated_pyramid.py:486-529.  With one step, line 491 divides by zero. *)
Definition linear (horizontal : bool) (amp : R) (n : nat) : res (list point) :=
  if (n =? 1)%nat then Err ZeroDivisionError
  else Ok (map (fun t => let v := tilt_value amp n (INR t) in mkPoint (if horizontal then v else 0) (if horizontal then 0 else v) (flux_factor amp n t)) (seq 0 n)).
Inductive kind := Circular | Vertical | Horizontal | Alternating.
(* modulated_pyramid.py:457-500 cache_ttexp, 549-553, 630-632: the points of frame [iter] *)
Definition modulation (k : kind) (amp : R) (n iter : nat) : res (list point) :=
  match k with
  | Circular => Ok (circular amp n)
  | Vertical => linear false amp n
  | Horizontal => linear true amp n
  | Alternating => linear (iter mod 2 =? 1)%nat amp n
  end.

(* ------------------------------------------------------------------------------- numbers of steps and sizes *)

(* modulated_pyramid.py:208-235; [least] is 2 pi mod_amp, rounded.  Circular steps by default are one or a multiple of four.  The number of steps is given as a rational. *)
Definition default_steps (k : kind) (amp : Qcanon.Qc) : Z :=
  match k with
  | Circular => Z.max 1 (ScreenModel.qround (Qcanon.Qcmult amp (InterpModel.qz 2)) * 4)
  | _ => (ScreenModel.qround amp * 2 + 1)%Z
  end.
Definition mod_steps (k : kind) (amp : Qcanon.Qc) (least : Z) (step : option Qcanon.Qc) : res Z :=
  match step with
  | None => Ok (default_steps k amp)
  | Some s => if Qcanon.Qc_eq_dec s (InterpModel.qz 0) then Err ValueError
              else if OpticalModel.qlt s (InterpModel.qz 0) then Err ValueError
              else if Qcanon.Qc_eq_dec (InterpModel.qz (GeomModel.qtrunc s)) s then (if OpticalModel.qlt s (InterpModel.qz least) then Err ValueError else Ok (GeomModel.qtrunc s))
              else Err ValueError
  end.
(* modulated_pyramid.py:306-366 calc_pyr_geometry: geometry of the transforms, tilt scale, sides of the internal and final
   detectors *)
Record layout := mkLayout { l_geo : GeomModel.geometry; l_tilt : Qcanon.Qc; l_side : Z; l_final : Z }.
Definition wanted_res (diam dist : Z) (fft_res : Qcanon.Qc) : Qcanon.Qc :=
  let q := InterpModel.qz in
  let r := Qcanon.Qcdiv (q (ScreenModel.qround (Qcanon.Qcdiv (Qcanon.Qcmult fft_res (q diam)) (q 2%Z)) * 2)%Z) (q diam) in
  let least := Qcanon.Qcmult (Qcanon.Qcdiv (q (dist + diam)%Z) (q diam)) (Qcanon.Qcdiv (q 11%Z) (q 10%Z)) in
  if OpticalModel.qlt r least then least else r.
Definition pyr_geometry (d : Z) (internal fov errinf errsup fft_res : Qcanon.Qc) (diam ccd_side margin : Z) (dist min_dist : option Z) : res layout :=
  let dist := match dist with Some v => v | None => (diam + margin * 2)%Z end in
  let min_dist := match min_dist with Some v => v | None => (diam + margin * 2)%Z end in
  if (dist <? min_dist)%Z then Err ValueError
  else if (ccd_side <? dist + diam + margin * 2)%Z then Err ValueError
  else if (diam =? 0)%Z then Err ZeroDivisionError
  else
    let q := InterpModel.qz in
    let side := (ScreenModel.qround (Qcanon.Qcdiv (Qcanon.Qcmult fft_res (q diam)) (q 2%Z)) * 2)%Z in
    g <- GeomModel.calc_geometry d internal fov errinf errsup (wanted_res diam dist fft_res) ;;
    t <- GeomModel.div (GeomModel.ge_fft_res g) (Qcanon.Qcdiv (Qcanon.Qcdiv (q dist) (q diam)) (q 2%Z)) ;;
    Ok (mkLayout g t side ccd_side).
(* modulated_pyramid.py:263, 269, 274, 369-370: the prism has 2 ((p + c) // 2) pixels on a side, the mask fft_totsize *)
Definition prism (g : GeomModel.geometry) : res unit :=
  if (2 * ((GeomModel.ge_sampling g + GeomModel.ge_padding g) / 2) =? GeomModel.ge_total g)%Z then Ok tt else Err ValueError.
