(* The geometry of Fourier transforms: specula/lib/calc_geometry.py and the sampling functions of
   specula/lib/calc_psf.py.

   Numbers are exact rationals; divisions of Python numbers by zero raise ZeroDivisionError. *)
From Coq Require Import List ZArith Bool Arith QArith Qcanon Qround.
From Verif Require Import PyBase Arith OpticalModel InterpModel ScreenModel.
Import ListNotations.
Local Open Scope Qc_scope.

Definition qceil (x : Qc) : Z := (- qfloor (- x))%Z.
(* int(x) *)
Definition qtrunc (x : Qc) : Z := if qlt x 0 then qceil x else qfloor x.
Definition div (a b : Qc) : res Qc := if Qc_eq_dec b 0 then Err ZeroDivisionError else Ok (a / b).

Record geometry := mkGeometry { ge_fov_res : Z; ge_masking : Qc; ge_fft_res : Qc; ge_sampling : Z; ge_padding : Z; ge_total : Z }.
(* calc_geometry.py:49-97.  [internal] is the field of view of the unpadded transform in arcseconds,
   wavelength / pitch (line 49).  NaN (a pupil of no pixels) cannot be converted to an integer: ValueError. *)
Definition calc_geometry (d : Z) (internal fov errinf errsup fft_res : Qc) : res geometry :=
  let maxfov := fov * (1 + errsup) in
  if qlt maxfov internal then Err ValueError
  else
    let minfov := fov * (1 - errinf) in
    r <- (if qlt internal minfov then q <- div minfov internal ;; Ok (qceil q) else Ok 1%Z) ;;
    let interpolated := if qlt internal minfov then internal * qz r else internal in
    masking <- div fov interpolated ;;
    masking <- (if qlt 1 masking then m <- div minfov interpolated ;; if qlt 1 m then Err ValueError else Ok 1 else Ok masking) ;;
    let s := (d * r)%Z in
    let total := (qround (qz s * fft_res / qz 2) * 2)%Z in
    if (s =? 0)%Z then Err ValueError
    else
      let res := qz total / qz s in
      let padding := (qround ((qz s * res - qz s) / qz 2) * 2)%Z in
      Ok (mkGeometry r masking res s padding total).

(* calc_psf.py:108-163 calc_psf_sampling.  [biggest] is the pixel size without oversampling, in mas (line 126); the
   error starts at infinity, None here.  The last lines only print a warning, but divide by the sampling and by the size. *)
Definition psf_sizes (from : Z) : list Z := map (fun k => (from - 5 + Z.of_nat k)%Z) (seq 0 11).
Definition sampling_step (n : Z) (biggest size : Qc) (s : option Qc * Qc) (psf_size : Z) : res (option Qc * Qc) :=
  if (0 <? psf_size)%Z then
    candidate <- div (qz psf_size) (qz n) ;;
    pixel <- div biggest candidate ;;
    let error := qabs (pixel - size) in
    if match fst s with None => true | Some best => qlt error best end then Ok (Some error, candidate) else Ok s
  else Ok s.
Definition calc_psf_sampling (n : Z) (biggest size : Qc) : res Qc :=
  if qlt biggest size then Err ValueError
  else
    required <- div biggest size ;;
    s <- fold_res (sampling_step n biggest size) (None, required) (psf_sizes (qtrunc (qz n * required))) ;;
    _ <- div biggest (snd s) ;;
    Ok (snd s).
(* calc_psf.py:72-105 calc_psf_geometry, 166-185 calc_psf_pixel_size: (pixel size, oversampling) *)
Definition calc_psf_geometry (n : Z) (biggest : Qc) (nd size : option Qc) : res (Qc * Qc) :=
  nd <- match nd, size with
        | Some _, Some _ => Err ValueError
        | Some nd, None => Ok nd
        | None, Some size => calc_psf_sampling n biggest size
        | None, None => Ok 1
        end ;;
  p <- div biggest nd ;; Ok (p, nd).
