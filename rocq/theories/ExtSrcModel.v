(* Extended sources: specula/processing_objects/extended_source.py.

   Simplifications.
   - Numbers are exact rationals; pi, the cosines and sines of the angles 2 pi j / k, the Gaussian as a function of its sigma
     and of the squared distance, the ratio of sigma and FWHM, the square root of 3 and the interpolation of an image are
     parameters.  Distances are compared by their squares.
   - Divisions by zero, which give infinities or nan in numpy arrays, give zero; d_tel, the wavelength, the sampling, the pixel
     scale and the heights of layers are not zero.  Images of PSFs are square.
   - Plots and the conversions between devices are not modelled. *)
From Coq Require Import String List ZArith Bool Arith QArith Qcanon Qround.
From Verif Require Import PyBase Arith OpticalModel SlopecSpec RebinModel InterpModel SlopecModel ExtModel RadialModel ScreenModel OptModel.
Import ListNotations.
Local Open Scope Qc_scope.

(* angles, tilt coefficients, focus coefficient (infinite without a height of focus), flux *)
Record point := mkPoint { p_x : Qc; p_y : Qc; p_tx : Qc; p_ty : Qc; p_focus : ext; p_flux : Qc }.
Record image := mkImage { im_n : nat; im_v : nat -> nat -> Qc }.
Record config := mkConfig {
  c_source : string; c_sampling : string; c_size : option Qc; c_wl : Qc; c_d : Qc; c_step : Qc; c_airmass : Qc;
  c_layers : list Qc; c_profile : list Qc; c_focus : option Qc; c_tt : option (list (Qc * Qc)); c_rings : Z; c_thr : Qc;
  c_scale : option Qc; c_crop : bool }.

Section Src.
Context (pi : Qc) (cosa sina : nat -> nat -> Qc) (gauss : Qc -> Qc -> Qc) (fwhm root3 asec2rad : Qc) (interp : image -> Qc -> Qc -> Qc).

Definition two : Qc := qz 2.
Definition nano : Qc := / qz 1000000000.
(* extended_source.py:180-185 *)
Definition step (c : config) : Qc := c_step c * (c_wl c * nano) / c_d c / (qz 4848 * nano).
(* extended_source.py:663-670: _angle_to_tip *)
Definition tip (c : config) (a : Qc) : Qc := a * asec2rad * c_d c * two * pi / (c_wl c * nano) / qz 4.
(* extended_source.py:672-684: _compute_focus_coefficient; the height of focus is infinite without focus_height (88-92) *)
Definition focus_height (c : config) : option Qc := option_map (fun f => f * c_airmass c) (c_focus c).
Definition layers (c : config) : list Qc := map (fun h => h * c_airmass c) (c_layers c).
Definition focus_coeff (c : config) (h : Qc) : ext :=
  match focus_height c with
  | None => Inf true
  | Some f => Fin ((h - f) / (two * root3 * qz 8 * (h / c_d c * (h / c_d c))) * (two * pi / (c_wl c * nano)))
  end.

(* extended_source.py:223-238: a grid, kept inside the circle *)
Definition grid (l : list Qc) : list (Qc * Qc) := flat_map (fun y => map (fun x => (x, y)) l) l.
Definition inside (h : Qc) (p : Qc * Qc) : bool := negb (qlt h 0) && negb (qlt (h * h) (fst p * fst p + snd p * snd p)).
Definition disc (size s : Qc) : res (list (Qc * Qc)) :=
  let n := (qround (size / s / two) * 2)%Z in
  if (n <? 0)%Z then Err ValueError else Ok (filter (inside (size / two)) (grid (linspace (- (size / two)) (size / two) (Z.to_nat n)))).
(* points of a ring *)
Definition ring (r : Qc) (k : nat) : list (Qc * Qc) := map (fun j => (r * cosa k j, r * sina k j)) (seq 0 k).
(* extended_source.py:257-288 *)
Definition polar (size s : Qc) : res (list (Qc * Qc)) :=
  let n := qround (size / s / two) in
  if (n <? 0)%Z then Err ValueError
  else Ok ((0, 0) :: flat_map (fun r => ring r (Z.to_nat (qround (two * pi * r / s)))) (tl (linspace 0 (size / two) (Z.to_nat n)))).
(* extended_source.py:313-329, 432-450: the radii of n rings *)
Definition radii (extent : Qc) (n : Z) : list Qc := let s := extent / qz n in map (fun j => s / two + qn j * s) (seq 0 (Z.to_nat n)).
Definition ceiling (x : Qc) : Z := Qceiling (this x).
Definition ring_points (s r : Qc) : nat := Z.to_nat (ceiling (two * pi * r / s)).
Definition number_of_rings (c : config) (extent : Qc) : Z :=
  if (0 <? c_rings c)%Z then c_rings c else qround (extent / (qz 5 * (c_wl c * nano) / c_d c / (qz 4848 * nano))).
(* extended_source.py:307-353 *)
Definition rings (c : config) (size s : Qc) : res (list (Qc * Qc)) :=
  let n := number_of_rings c (size / two) in
  if (n =? 0)%Z then Err ZeroDivisionError
  else Ok ((if (1 <? n)%Z then [(0, 0)] else []) ++ flat_map (fun r => ring r (ring_points s r)) (radii (size / two) n)).

(* positions with a weight *)
Definition equal (l : list (Qc * Qc)) : list (Qc * Qc * Qc) := map (fun p => (p, 1)) l.
Definition largest (l : list Qc) : Qc := fold_left (fun a b => if qlt a b then b else a) l 0.
(* extended_source.py:382-406: the Gaussian where it is at least a tenth of the largest value *)
Definition gauss_grid (size s : Qc) : res (list (Qc * Qc * Qc)) :=
  let sg := size * fwhm in
  let n := (qround (two * (qz 3 * sg / s) / two) * 2)%Z in
  if (n <=? 0)%Z then Err ValueError
  else
    let l := map (fun i => (qn i - qz n / two + / two) * s) (seq 0 (Z.to_nat n)) in
    let w := map (fun p => (p, gauss sg (fst p * fst p + snd p * snd p))) (grid l) in
    Ok (filter (fun p => negb (qlt (snd p) (/ qz 10 * largest (map snd w)))) w).
(* extended_source.py:420-480 *)
Definition gauss_rings (c : config) (size s : Qc) : list (Qc * Qc * Qc) :=
  let sg := size * fwhm in
  let extent := qz 3 * sg in
  let n := number_of_rings c extent in
  (0, 0, 1) :: flat_map (fun r => map (fun p => (p, gauss sg (r * r))) (ring r (ring_points s r))) (radii extent n).
(* extended_source.py:494-547: the image at the points of a grid that are inside it *)
Definition psf_grid (im : image) (scale s : Qc) : res (list (Qc * Qc * Qc)) :=
  let sz := qn (im_n im) in
  let m := qround (sz * scale / s) in
  let k := if Z.even m then (m + 1)%Z else m in
  if (k <? 0)%Z then Err ValueError
  else
    let h := qz m * s / two in
    let ok := fun v => negb (qlt v 0) && qlt v (sz - 1) in
    Ok (flat_map (fun p => let x := fst p / scale + sz / two in let y := snd p / scale + sz / two in
                           if ok x && ok y then [(p, interp im y x)] else []) (grid (linspace (- h) h (Z.to_nat k)))).
(* extended_source.py:549-593: rings of 6 r points; points outside the image are moved to its edge *)
Definition clip (a b x : Qc) : Qc := if qlt x a then a else if qlt b x then b else x.
Definition psf_polar (im : image) (scale s : Qc) : res (list (Qc * Qc * Qc)) :=
  let sz := qn (im_n im) in
  let m := qround ((qz (qround (sz * scale / s)) + 1) / two) in
  if (m <=? 0)%Z then Err IndexError
  else
    let at_ := fun p => interp im (clip 0 (sz - 1) (snd p + sz / two)) (clip 0 (sz - 1) (fst p + sz / two)) in
    Ok (map (fun p => (fst p * scale, snd p * scale, at_ p))
      (flat_map (fun i => ring (qn i * sz / (two * qz m - 1)) (if (i =? 0)%nat then 1 else 6 * i)%nat) (seq 0 (Z.to_nat m)))).

Definition pointsof (c : config) (l : list (Qc * Qc * Qc)) : list point :=
  let t := lsum (map snd l) in
  map (fun q => let '(x, y, w) := q in mkPoint x y (tip c x) (tip c y) (Fin 0) (w / t)) l.
(* extended_source.py:180-221, 370-380, 494-616: _compute_2d, _compute_tophat, _compute_gauss, _compute_from_psf *)
Definition flat (c : config) (im : image) : res (list point) :=
  let s := step c in
  if (c_source c =? "POINT_SOURCE")%string then Ok [mkPoint 0 0 0 0 (Fin 0) 1]
  else if (c_source c =? "TOPHAT")%string then
    match c_size c with
    | None => Err ValueError
    | Some size =>
        l <- (if (c_sampling c =? "CARTESIAN")%string then disc size s else if (c_sampling c =? "POLAR")%string then polar size s
              else if (c_sampling c =? "RINGS")%string then rings c size s else Err ValueError) ;;
        Ok (pointsof c (equal l))
    end
  else if (c_source c =? "GAUSS")%string then
    match c_size c with
    | None => Err ValueError
    | Some size =>
        l <- (if (c_sampling c =? "CARTESIAN")%string then gauss_grid size s else if (c_sampling c =? "RINGS")%string then Ok (gauss_rings c size s)
              else Err ValueError) ;;
        Ok (pointsof c l)
    end
  else if (c_source c =? "FROM_PSF")%string then
    match c_scale c with
    | None => Err TypeError
    | Some scale =>
        l <- (if (c_sampling c =? "CARTESIAN")%string then psf_grid im scale s else if (c_sampling c =? "POLAR")%string then psf_polar im scale s
              else Err ValueError) ;;
        Ok (pointsof c l)
    end
  else Err ValueError.

(* extended_source.py:146-150: _check_if_3d *)
Definition is_3d (c : config) : bool :=
  match layers c with
  | [h] => match focus_height c with Some f => negb (is0 (h - f)) | None => true end
  | l => (1 <? length l)%nat
  end.
(* extended_source.py:618-661: _compute_3d *)
Definition shifted (c : config) (h w : Qc) (tt : Qc * Qc) (p : point) : point :=
  mkPoint (p_x p + fst tt) (p_y p + snd tt) (p_tx p + tip c (fst tt)) (p_ty p + tip c (snd tt)) (focus_coeff c h) (p_flux p * w).
Definition deep (c : config) (im : image) : res (list point) :=
  match c_profile c with
  | [] => Err ValueError
  | _ =>
      if negb (length (c_profile c) =? length (layers c))%nat then Err ValueError
      else
        ls <- map_res (fun i =>
          l <- flat c im ;;
          tt <- (match c_tt c with None => Ok (0, 0) | Some t => match nth_error t i with Some v => Ok v | None => Err IndexError end end) ;;
          Ok (map (shifted c (nth i (layers c) 0) (nth i (c_profile c) 0) tt) l)) (seq 0 (length (layers c))) ;;
        Ok (concat ls)
  end.
(* extended_source.py:686-699: _apply_flux_threshold *)
Definition threshold (t : Qc) (l : list point) : list point :=
  let m := lsum (map p_flux l) / qn (length l) in filter (fun p => qlt (m * t) (p_flux p)) l.
(* extended_source.py:152-178: compute *)
Definition compute (c : config) (im : image) : res (list point) :=
  l <- (if is_3d c then deep c im else flat c im) ;;
  Ok (if qlt 0 (c_thr c) then threshold (c_thr c) l else l).
(* extended_source.py:129-144, 107-127: _validate_parameters, and the end of the constructor *)
Definition known (l : list string) (s : string) : bool := existsb (String.eqb s) l.
Definition build (c : config) (im : image) : res (list point) :=
  if negb (known ["POINT_SOURCE"; "TOPHAT"; "GAUSS"; "FROM_PSF"]%string (c_source c)) then Err ValueError
  else if negb (known ["CARTESIAN"; "POLAR"; "RINGS"]%string (c_sampling c)) then Err ValueError
  else if known ["TOPHAT"; "GAUSS"]%string (c_source c) && match c_size c with None => true | _ => false end then Err ValueError
  else if (c_source c =? "FROM_PSF")%string && match c_scale c with None => true | _ => false end then Err ValueError
  else compute c im.

(* extended_source.py:709-734: trigger; the image and the points, and whether the output is new.  The image is copied in place:
   another size is refused, except one pixel which fills it (specula/base_value.py:30-37). *)
Record state := mkState { s_image : image; s_points : list point }.
Definition window (n : nat) (im : image) : image :=
  if (im_n im =? n)%nat then im
  else if (n <? im_n im)%nat then let d := ((im_n im - n) / 2)%nat in mkImage n (fun i j => im_v im (d + i) (d + j))
  else let d := ((n - im_n im) / 2)%nat in
       mkImage n (fun i j => if ((d <=? i) && (i <? d + im_n im) && (d <=? j) && (j <? d + im_n im))%nat%bool then im_v im (i - d) (j - d) else 0).
Definition copied (n : nat) (im : image) : res image :=
  if (im_n im =? n)%nat then Ok im else if (im_n im =? 1)%nat then Ok (mkImage n (fun _ _ => im_v im 0%nat 0%nat)) else Err ValueError.
Definition trigger (c : config) (st : state) (input : option image) : res (state * bool) :=
  if negb (c_source c =? "FROM_PSF")%string then Ok (st, false)
  else match input with
  | None => Err AttributeError
  | Some im =>
      if qlt 0 (SlopecSpec.qsum (im_n im) (fun i => SlopecSpec.qsum (im_n im) (fun j => qabs (im_v im i j)))) then
        new <- copied (im_n (s_image st)) (if c_crop c then window (im_n (s_image st)) im else im) ;;
        l <- compute c new ;;
        Ok (mkState new l, true)
      else Ok (st, false)
  end.
End Src.
