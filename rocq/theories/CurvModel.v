(* The curvature sensor and the laser launch telescope: specula/processing_objects/curvature_sensor.py,
   specula/data_objects/laser_launch_telescope.py.

   Simplifications.
   - Numbers are exact rationals.  The intensity in the focal plane, a function of the aberration added to the field, the mask
     of the field of view, the focus mode and toccd are parameters.
   - Lengths, the wavelength and pixel scales are positive.  1/cos of the zenith angle is given as the airmass. *)
From Coq Require Import String List ZArith Bool Arith QArith Qcanon Qround.
From Verif Require Import PyBase Arith OpticalModel SlopecSpec InterpModel AtmoModel.
Import ListNotations.
Local Open Scope Qc_scope.

Definition image := nat -> nat -> Qc.
Record cconf := mkCconf { k_wl : Qc (* metres *); k_fov : Qc; k_px : Qc; k_number : nat; k_defocus : Qc; k_ovs : Qc }.
(* curvature_sensor.py:63 *)
Definition ovs (c : cconf) : Qc := if qlt 1 (k_ovs c) then k_ovs c else 1.
Section Curv.
Context (asec : Qc (* RAD2ASEC *)).
(* curvature_sensor.py:99-118: size of the grid and its pixel scale *)
Definition exact_size (c : cconf) (pitch : Qc) : Qc := k_wl c / (k_px c / asec * pitch).
Definition grid_size (c : cconf) (pitch : Qc) : Z := let n := qceil (exact_size c pitch * ovs c) in (n + n mod 2)%Z.
Definition grid_scale (c : cconf) (pitch : Qc) : Qc := k_wl c / (qz (grid_size c pitch) * pitch) * asec.
(* bounds of x[a:b] on n elements *)
Definition bound (n i : Z) : Z := (if i <? 0 then Z.max 0 (i + n) else Z.min i n)%Z.
(* curvature_sensor.py:189-194: the pixels of the field of view, first and number *)
Definition wanted (c : cconf) (pitch : Qc) : Z := qceil (k_fov c / grid_scale c pitch).
Definition cut (n w : Z) : Z * Z := let s := ((n - w) / 2)%Z in let a := bound n s in (a, Z.max 0 (bound n (s + w) - a))%Z.

Context (focal : image -> image) (mask focus : image) (wave : Qc (* 2 pi / wavelength in nm *)) (toccd : nat -> nat -> image -> image).
(* curvature_sensor.py:154-158, 174-203: the two images *)
Definition one_image (c : cconf) (pitch sign : Qc) : image :=
  let f := focal (fun i j => sign * (focus i j * k_defocus c * wave)) in
  let '(a, m) := cut (grid_size c pitch) (wanted c pitch) in
  let a := Z.to_nat a in
  toccd (Z.to_nat m) (k_number c) (fun i j => f (a + i)%nat (a + j)%nat * mask (a + i)%nat (a + j)%nat).
Definition total (n : nat) (x : image) : Qc := qsum n (fun i => qsum n (fun j => x i j)).
(* curvature_sensor.py:206-218: the light is that of the field *)
Definition scaled (n : nat) (phot : Qc) (x : image) : image := if qlt 0 (total n x) then (fun i j => x i j * (phot / total n x)) else x.
Definition images (c : cconf) (pitch s0 area : Qc) : image * image :=
  (scaled (k_number c) (s0 * area) (one_image c pitch 1), scaled (k_number c) (s0 * area) (one_image c pitch (- (1)))).
End Curv.

(* ---------------------------------------------------------------- laser launch telescope *)
Record llt := mkLlt { l_spot : Qc; l_pos : list Qc; l_focus : Qc; l_tt : list Qc }.
(* laser_launch_telescope.py:45-65; airmass: that of the simulation parameters, None without them *)
Definition llt_new (airmass : option Qc) (spot : Qc) (pos : list Qc) (focus : Qc) (tt : list Qc) : res llt :=
  match airmass, pos with
  | None, _ :: _ => Err ValueError
  | None, [] => Ok (mkLlt spot pos (focus * 1) tt)
  | Some a, _ => Ok (mkLlt spot pos (focus * a) tt)
  end.
(* laser_launch_telescope.py:73-85: version, and the other keywords in order *)
Record header := mkHeader { h_version : Z; h_spot : Qc; h_x : Qc; h_y : Qc; h_z : Qc; h_focus : Qc; h_tt0 : Qc; h_tt1 : Qc }.
Definition item (l : list Qc) (i : nat) : res Qc := match nth_error l i with Some v => Ok v | None => Err IndexError end.
Definition llt_header (l : llt) : res header :=
  let pos := match l_pos l with [] => [0; 0; 0] | p => p end in
  x <- item pos 0 ;; y <- item pos 1 ;; z <- item pos 2 ;; t0 <- item (l_tt l) 0 ;; t1 <- item (l_tt l) 1 ;;
  Ok (mkHeader 1 (l_spot l) x y z (l_focus l) t0 t1).
(* laser_launch_telescope.py:94-112: at the zenith *)
Definition llt_from_header (h : header) : res llt :=
  if negb (h_version h =? 1)%Z then Err ValueError else llt_new (Some 1) (h_spot h) [h_x h; h_y h; h_z h] (h_focus h) [h_tt0 h; h_tt1 h].
