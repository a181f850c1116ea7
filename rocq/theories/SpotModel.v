(* Average spot of a sensor: SpotMonitor of specula/processing_objects/spot_monitor.py.

   Simplifications.
   - Numbers are exact rationals; images are lists of pixels, row by row, and the pixels of a sub-aperture are indices in the list.
   - The fitter of astropy is a parameter: from the image and the guesses it gives the parameters and the image of the model, or
     an exception.  The square root of 2 ** (1 / alpha) - 1 is a parameter, for alpha not zero.
   - A chi2 that is not a number is None.  Sub-apertures have at least one pixel, and each as many pixels as the summed image. *)
From Coq Require Import List ZArith Bool Arith QArith Qcanon.
From Verif Require Import PyBase OpticalModel AirModel.
Import ListNotations.
Local Open Scope Qc_scope.

Record shape := mkShape { s_amp : Qc; s_x : Qc; s_y : Qc; s_gamma : Qc; s_alpha : Qc; s_sky : Qc }.
Record outputs := mkOutputs { o_sum : list Qc; o_model : list Qc; o_residual : list Qc; o_shape : shape; o_fwhm : Qc; o_chi2 : option Qc; o_success : bool }.

(* numpy.median *)
Fixpoint insert (x : Qc) (l : list Qc) : list Qc := match l with [] => [x] | y :: r => if qlt y x then y :: insert x r else x :: y :: r end.
Definition sort (l : list Qc) : list Qc := fold_right insert [] l.
Definition median (l : list Qc) : Qc :=
  let s := sort l in (nth ((length l - 1) / 2) s 0 + nth (length l / 2) s 0) * q 1 2.
(* numpy.max *)
Definition qmax (x y : Qc) : Qc := if qlt x y then y else x.
Definition maximum (l : list Qc) : Qc := match l with [] => 0 | x :: r => fold_left qmax r x end.

Section Spot.
Context (n : nat) (idxs : list (list nat)) (gamma0 alpha0 : Qc).
Context (fit : list Qc -> shape -> option (shape * list Qc)) (width : Qc -> Qc).
(* spot_monitor.py:129-133: the pixels of the border, each once for images of more than one row *)
Definition border (img : list Qc) : list Qc :=
  let at_ r c := nth (r * n + c) img 0 in
  map (at_ 0%nat) (seq 0 n) ++ map (at_ (n - 1)%nat) (seq 0 n) ++ map (fun r => at_ r 0%nat) (seq 1 (n - 2)) ++ map (fun r => at_ r (n - 1)%nat) (seq 1 (n - 2)).
(* spot_monitor.py:114-138: _estimate_initials *)
Definition estimate_initials (img : list Qc) : shape :=
  let sky := median (border img) in
  let c := (q (Z.of_nat n) 1 - 1) * q 1 2 in
  mkShape (qmax (maximum img - sky) (q 1 1000000)) c c gamma0 alpha0 sky.
(* spot_monitor.py:141-158: _moffat_fwhm *)
Definition fwhm (gamma alpha : Qc) : res Qc := if Qc_eq_bool alpha 0 then Err ZeroDivisionError else Ok (q 2 1 * gamma * width alpha).
(* spot_monitor.py:167-172 *)
Definition pixel (img : list Qc) (i : nat) : res Qc := match nth_error img i with Some x => Ok x | None => Err IndexError end.
Definition add_images (a b : list Qc) : list Qc := map (fun p => fst p + snd p) (combine a b).
Definition sum_image (img : list Qc) : res (list Qc) :=
  subs <- map_res (fun s => map_res (pixel img) s) idxs ;; Ok (fold_left add_images subs (repeat 0 (n * n))).
Definition mean (l : list Qc) : Qc := fold_right Qcplus 0 l / q (Z.of_nat (length l)) 1.
(* spot_monitor.py:160-238: trigger_code *)
Definition trigger (img : list Qc) : res outputs :=
  total <- sum_image img ;;
  let g := estimate_initials total in
  let zero := repeat 0 (n * n) in
  match fit total g with
  | None => w <- fwhm (s_gamma g) (s_alpha g) ;; Ok (mkOutputs total zero zero g w None false)
  | Some (f, m) =>
      let r := map (fun p => fst p - snd p) (combine total m) in
      let chi2 := Some (mean (map (fun x => x * x) r)) in
      match fwhm (s_gamma f) (s_alpha f) with
      | Ok w => Ok (mkOutputs total m r f w chi2 true)
      | Err _ => w <- fwhm (s_gamma g) (s_alpha g) ;; Ok (mkOutputs total zero zero g w chi2 true)
      end
  end.
End Spot.
