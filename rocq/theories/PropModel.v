(* Propagation of light through layers, without diffraction. *)
From Coq Require Import List ZArith Bool Arith QArith Qcanon.
From Verif Require Import PyBase Arith OpticalModel ExtModel NpModel FitsModel RebinModel VecModel SlopecModel FieldModel InterpModel.
Import ListNotations.
Local Open Scope Qc_scope.

(* specula/data_objects/layer.py:14-50: a field with a height, a shift (x, y) in pixels, a
   rotation and a magnification.  [l_turned]: rotInDeg is not zero; [l_rot]: cosine and sine of
   -rotInDeg % 360, None when this is zero. *)
Record layer := mkLayer { l_ef : efield qc; l_height : Qc; l_shift : Qc * Qc; l_turned : bool; l_rot : option (Qc * Qc); l_mag : Qc }.
(* specula/data_objects/source.py:95-130: height (None: infinite), distance from the axis in
   radians, cosine and sine of the position angle *)
Record source := mkSource { s_height : option Qc; s_r : Qc; s_dir : Qc * Qc }.

Section Propagation.
(* specula/processing_objects/atmo_propagation.py:93-94, 114-119, 158: pixels and pixel size
   of the pupil, pupil position in metres, airmass; [chrom] the shift of a layer in metres
   given by compute_chromatic_shifts (0 without chromatic effect).  Heights of sources and
   pixel sizes are not zero. *)
Variable n : nat.
Variable airmass : Qc.
Variable pos : option (Qc * Qc).
Variable chrom : layer -> Qc.

(* atmo_propagation.py:500 max(layer.magnification, 1.0) *)
Definition magnif (l : layer) : Qc := if qlt (l_mag l) 1 then 1 else l_mag l.
Definition inf (s : source) : bool := match s_height s with None => true | Some _ => false end.
(* atmo_propagation.py:405-410: the centre of the layer is used without interpolation *)
Definition direct (s : source) (l : layer) : bool :=
  (is0 (l_height l) || (inf s && is0 (s_r s))) && is0 (fst (l_shift l)) && is0 (snd (l_shift l)) && is_none pos && negb (l_turned l) && is1 (magnif l).
(* atmo_propagation.py:404, 412: the layer is below the source *)
Definition below (s : source) (l : layer) : bool :=
  match s_height s with None => qlt 0 airmass | Some H => qlt 0 ((H - l_height l) * airmass) end.

(* atmo_propagation.py:430-440: centre of the footprint in pixels, for one coordinate:
   [d] the cosine or sine, [p] the pupil position *)
Definition pixel_position (s : source) (l : layer) (d : Qc) (p : option Qc) : Qc :=
  let pitch := ef_pitch qc (l_ef l) in
  let flat := s_r s * l_height l * airmass / pitch * d in
  match p, (n <? ef_rows qc (l_ef l))%nat with
  | Some pp, true =>
    match s_height s with
    | None => flat + pp / pitch
    | Some H => (s_r s * H * airmass / pitch * d - pp / pitch) * l_height l / H + pp / pitch
    end
  | _, _ => flat
  end.
(* atmo_propagation.py:450-457: size of the footprint in pixels *)
Definition pupmeta (s : source) (l : layer) : Qc :=
  let m := match s_height s with None => qn n | Some H => qn n * (qabs (H - qabs (l_height l)) / H) end in
  if is1 (magnif l) then m else m / magnif l.
Definition shifted (g : list (list Qc)) (k : Qc) : arr2 Qc := mkA2 n (map (map (fun v => v + k)) g).
(* atmo_propagation.py:424-472 layer_interpolator *)
Definition layer_interp (s : source) (l : layer) : res (option interp) :=
  let rows := ef_rows qc (l_ef l) in let cols := ef_cols qc (l_ef l) in
  let half v := (qn rows - 1) / (1 + 1) - v in
  let px := pixel_position s l (fst (s_dir s)) (option_map fst pos) in
  let py0 := pixel_position s l (snd (s_dir s)) (option_map snd pos) in
  let cp := chrom l / ef_pitch qc (l_ef l) in
  let py := if is0 cp then py0 else py0 + cp * 1 in
  g <- make_xy n (pupmeta s l / (1 + 1)) false false false ;;
  let xx := shifted (fst g) (half (fst (l_shift l)) + px) in
  let yy := shifted (snd g) (half (snd (l_shift l)) + py) in
  let lim k := (qn k - qn n) / (1 + 1) in
  if qlt (lim rows) (qabs px) || qlt (lim cols) (qabs py) then Ok None else
  ip <- interp_init rows cols n n (l_rot l) 0 0 1 (Some yy) (Some xx) ;; Ok (Some ip).
(* atmo_propagation.py:394-422 setup_interpolators for one source and one layer *)
Definition layer_setup (s : source) (l : layer) : res (option interp) :=
  if direct s l then Ok None else
  if below s l then
    o <- layer_interp s l ;;
    match o with None => Err ValueError | Some ip => Ok (Some ip) end
  else Err ValueError.

(* atmo_propagation.py:96-104, 140-150, 474-510: a new object with one source, then setup *)
Definition prop_setup (pitch S0 : Qc) (s : source) (common atmo : list layer) : res (efield qc * list (option interp)) :=
  if Nat.eqb n 0 then Err ValueError else
  out <- new_ef qc (Z.of_nat n) (Z.of_nat n) pitch S0 ;;
  if Nat.eqb (length atmo + length common) 0 then Err ValueError else
  ips <- map_res (layer_setup s) (common ++ atmo) ;; Ok (out, ips).
(* atmo_propagation.py:278-306; the layers of a round have the contents [common], [atmo] *)
Definition prop_round (upwards : bool) (ips : list (option interp)) (out : efield qc) (fields : list (efield qc) * list (efield qc)) : res (efield qc) :=
  let k := length (fst fields) in
  prop_trigger qc upwards n out
    (List.combine (fst fields) (map (option_map interpolate) (firstn k ips)))
    (List.combine (snd fields) (map (option_map interpolate) (skipn k ips))).
(* setup with the layers, then triggers with these successive contents of the layers *)
Definition propagate (upwards : bool) (pitch S0 : Qc) (s : source) (common atmo : list layer)
           (rounds : list (list (efield qc) * list (efield qc))) : res (efield qc) :=
  st <- prop_setup pitch S0 s common atmo ;; fold_res (prop_round upwards (snd st)) (fst st) rounds.
End Propagation.
