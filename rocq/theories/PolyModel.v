(* Polychromatic sensors: PolyChromWFS, PolyChromSH and PolyCromPyramid.

   The monochromatic sensors inside (SH: C107 and C108; ModulatedPyramid: C109) are a function from the
   wavelength and the field seen at the last prepare_trigger to the image after post_trigger.  The other
   parameters of the sensors are the same for all of them.  Times are integers, numbers are exact rationals. *)
From Coq Require Import List ZArith Bool Arith QArith Qcanon.
From Verif Require Import PyBase Arith OpticalModel ExtModel NpModel FitsModel RebinModel VecModel SlopecModel FieldModel.
Import ListNotations.
Local Open Scope Qc_scope.

Section Poly.
(* the image of a sensor of a given wavelength; [asec]: RAD2ASEC (specula/__init__.py:25) *)
Variable sense : Qc -> efield qc -> arr2 Qc.
Variable asec : Qc.

(* one of the sensors: wavelength, field of the last prepare_trigger, inputs_changed, output image *)
Record sensor := mkSensor { s_wave : Qc; s_field : efield qc; s_ready : bool; s_img : arr2 Qc }.
(* specula/processing_objects/poly_chrom_wfs.py:34-49.  [w_units]: the two unit tilts, None before setup;
   [w_share]: flux_factor_normalized, None before setup; [w_efs]: the modified fields and their generation
   times; [w_ready]: inputs_changed. *)
Record wfs := mkWfs {
  w_waves : list Qc; w_flux : list Qc; w_tilts : list (list Qc);
  w_units : option (arr2 Qc * arr2 Qc); w_share : option (list Qc);
  w_efs : list (efield qc * Z); w_sensors : list sensor;
  w_ready : bool; w_out : arr2 Qc; w_time : Z; w_now : Z }.

Definition blank (side : nat) : arr2 Qc := tab qc side side (fun _ _ => 0).
Definition dark : efield qc := ef_initial qc.
(* poly_chrom_wfs.py:15-50, poly_chrom_sh.py:30-65, poly_crom_pyramid.py:44-83: the sensors are created
   after the checks of the lengths; -1 is the generation time of a new data object
   (base_data_obj.py:33) *)
Definition new_wfs (waves : list Qc) (side : nat) (flux : list Qc) (tilts : option (list (list Qc))) : res wfs :=
  let n := length waves in
  if negb (Nat.eqb (length flux) n) then Err ValueError else
  t <- match tilts with
       | None => Ok (repeat [0; 0] n)
       | Some l => if negb (Nat.eqb (length l) n) then Err ValueError else Ok l
       end ;;
  Ok (mkWfs waves flux t None None [] (map (fun w => mkSensor w dark false (blank side)) waves) false (blank side) (-1)%Z 0%Z).

(* numpy: max(abs(x.max()), abs(x.min())) *)
Definition qmax (a b : Qc) : Qc := if qlt a b then b else a.
Definition qmin (a b : Qc) : Qc := if qlt b a then b else a.
Definition reach (g : list (list Qc)) : res Qc :=
  match concat g with
  | [] => Err ValueError
  | x :: r => Ok (qmax (qabs (fold_left qmax r x)) (qabs (fold_left qmin r x)))
  end.
(* poly_chrom_wfs.py:60-83 _create_unit_tilts; the pixel pitch is not zero *)
Definition nano : Qc := Q2Qc (1 # 1000000000).
Definition unit_tilt (k : Qc) (g : list (list Qc)) (n : nat) : res (arr2 Qc) :=
  m <- reach g ;; Ok (mkA2 n (map (map (fun v => k * ((1 + 1) * v / m))) g)).
Definition unit_tilts (n : nat) (pitch : Qc) : res (arr2 Qc * arr2 Qc) :=
  g <- make_xy n pitch false false false ;;
  let diam := qn n * pitch in
  let k := 1 / ((1 + 1) * (1 + 1) * nano / diam * asec) in
  x <- unit_tilt k (fst g) n ;; y <- unit_tilt k (snd g) n ;; Ok (x, y).

(* poly_chrom_wfs.py:85-116 setup; wfs.setup of the sensors reads the sizes of the fields (C107, C109) and
   leaves their images unchanged *)
Definition setup (w : wfs) (e : efield qc) : res wfs :=
  u <- unit_tilts (ef_rows qc e) (ef_pitch qc e) ;;
  efs <- map_res (fun _ : Qc => f <- new_ef qc (Z.of_nat (ef_rows qc e)) (Z.of_nat (ef_cols qc e)) (ef_pitch qc e) 0 ;; Ok (f, (-1)%Z)) (w_waves w) ;;
  let total := vsum (A := qc) (w_flux w) in
  let share := if qlt 0 total then map (fun f => f / total) (w_flux w) else w_flux w in
  Ok (mkWfs (w_waves w) (w_flux w) (w_tilts w) (Some u) (Some share) efs (w_sensors w) (w_ready w) (w_out w) (w_time w) (w_now w)).

(* poly_chrom_wfs.py:130-147: one modified field *)
Definition tilted (u : arr2 Qc * arr2 Qc) (e : efield qc) (gen : Z) (tilt : list Qc) (m : efield qc * Z) : res (efield qc * Z) :=
  a <- assign2 qc (ef_A qc (fst m)) (ef_A qc e) ;;
  match tilt with
  | [tx; ty] =>
      let phase := tab qc (ef_rows qc e) (ef_cols qc e) (fun i j =>
        ent qc (ef_ph qc e) i j + (tx * ent qc (fst u) (src (a_r (fst u)) i) (src (a_c (fst u)) j) + ty * ent qc (snd u) (src (a_r (snd u)) i) (src (a_c (snd u)) j))) in
      if fits1 (ef_rows qc e) (a_r (fst u)) && fits1 (ef_cols qc e) (a_c (fst u)) then
        p <- assign2 qc (ef_ph qc (fst m)) phase ;; Ok (mkEF qc a p (ef_pitch qc e) (ef_S0 qc e), gen)
      else Err ValueError
  | _ => Err ValueError
  end.
Fixpoint map2_res {X Y Z'} (f : X -> Y -> res Z') (l1 : list X) (l2 : list Y) : res (list Z') :=
  match l1, l2 with
  | x :: r1, y :: r2 => z <- f x y ;; r <- map2_res f r1 r2 ;; Ok (z :: r)
  | _, _ => Ok []
  end.
Definition see (m : efield qc * Z) (s : sensor) : sensor := mkSensor (s_wave s) (fst m) (s_ready s) (s_img s).
(* poly_chrom_wfs.py:125-151 prepare_trigger; before setup there is no modified field *)
Definition prepare (w : wfs) (e : efield qc) (gen : Z) : res wfs :=
  match w_units w with
  | None => match w_efs w with [] => Ok w | _ => Err TypeError end
  | Some u =>
      efs <- map2_res (fun t m => tilted u e gen t m) (w_tilts w) (w_efs w) ;;
      Ok (mkWfs (w_waves w) (w_flux w) (w_tilts w) (w_units w) (w_share w) efs (map2 see efs (w_sensors w))
                (w_ready w) (w_out w) (w_time w) (w_now w))
  end.
(* specula/base_processing_obj.py:62-89, 233-244: check_ready of a sensor whose only input is [m] *)
Definition check_sensor (t : Z) (m : efield qc * Z) (s : sensor) : sensor :=
  if (t <=? snd m)%Z then mkSensor (s_wave s) (fst m) true (s_img s) else mkSensor (s_wave s) (s_field s) false (s_img s).
(* poly_chrom_wfs.py:118-123 check_ready, after setup *)
Definition check_ready (w : wfs) (t : Z) (e : efield qc) (gen : Z) : res wfs :=
  let w0 := mkWfs (w_waves w) (w_flux w) (w_tilts w) (w_units w) (w_share w) (w_efs w) (w_sensors w) (t <=? gen)%Z (w_out w) (w_time w) t in
  w1 <- (if (t <=? gen)%Z then prepare w0 e gen else Ok w0) ;;
  Ok (mkWfs (w_waves w1) (w_flux w1) (w_tilts w1) (w_units w1) (w_share w1) (w_efs w1) (map2 (check_sensor t) (w_efs w1) (w_sensors w1))
            (w_ready w1) (w_out w1) (w_time w1) (w_now w1)).

(* poly_chrom_wfs.py:153-159 trigger_code; base_processing_obj.py:246-257 trigger.  trigger_code of the
   sensors does not look at inputs_changed. *)
Definition fire (s : sensor) : sensor := mkSensor (s_wave s) (s_field s) (s_ready s) (sense (s_wave s) (s_field s)).
Definition trigger (w : wfs) : res wfs :=
  if negb (w_ready w) then Err RuntimeError else
  Ok (mkWfs (w_waves w) (w_flux w) (w_tilts w) (w_units w) (w_share w) (w_efs w) (map fire (w_sensors w))
            (w_ready w) (each qc (fun _ => 0) (w_out w)) (w_time w) (w_now w)).
(* base_processing_obj.py:122-140 post_trigger of a sensor *)
Definition close (s : sensor) : res sensor :=
  if negb (s_ready s) then Err RuntimeError else Ok (mkSensor (s_wave s) (s_field s) false (s_img s)).
(* poly_chrom_wfs.py:161-182 post_trigger *)
Definition post_trigger (w : wfs) (e : efield qc) : res wfs :=
  if negb (w_ready w) then Err RuntimeError else
  ss <- map_res close (w_sensors w) ;;
  match w_share w with
  | None => match ss with [] => Ok w | _ => Err TypeError end
  | Some share =>
      out <- fold_res (fun o sf => inplace2 qc Qcplus o (each qc (fun v => v * snd sf) (s_img (fst sf)))) (w_out w) (List.combine ss share) ;;
      let flux := ef_S0 qc e * ef_masked_area qc e in
      let tot := total qc out in
      let out1 := if qlt 0 tot then each qc (fun v => v * (flux / tot)) out else out in
      Ok (mkWfs (w_waves w) (w_flux w) (w_tilts w) (w_units w) (w_share w) (w_efs w) ss false out1 (w_now w) (w_now w))
  end.
(* specula/loop_control.py:126-152: one iteration at time [t]; the input field and its generation time *)
Definition frame (w : wfs) (x : Z * efield qc * Z) : res wfs :=
  let '(t, e, gen) := x in
  w1 <- check_ready w t e gen ;;
  if w_ready w1 then (w2 <- trigger w1 ;; post_trigger w2 e) else Ok w1.
(* construction, setup with the first field, then any iterations *)
Definition session (waves : list Qc) (side : nat) (flux : list Qc) (tilts : option (list (list Qc))) (e0 : efield qc) (fs : list (Z * efield qc * Z)) : res wfs :=
  w <- new_wfs waves side flux tilts ;; w1 <- setup w e0 ;; fold_res frame w1 fs.

(* poly_chrom_wfs.py:184-191 get_wavelength_contribution *)
Definition contribution (w : wfs) (i : Z) : res (arr2 Qc) :=
  if (0 <=? i)%Z && (i <? Z.of_nat (length (w_waves w)))%Z then
    match nth_error (w_sensors w) (Z.to_nat i) with
    | None => Err IndexError
    | Some s => match w_share w with
                | None => Err TypeError
                | Some share => match nth_error share (Z.to_nat i) with
                                | None => Err IndexError
                                | Some f => Ok (each qc (fun v => v * f) (s_img s))
                                end
                end
    end
  else Err IndexError.
End Poly.
