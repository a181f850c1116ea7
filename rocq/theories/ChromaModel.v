(* Chromatic displacement of the layers: AtmoPropagation of specula/processing_objects/atmo_propagation.py.

   Simplifications.
   - Numbers are exact rationals; the pressure at a height, and the secant and the tangent of the zenith angle, are parameters.
   - The pressure at the telescope is not zero.
   - Layers are numbered in the order of the list of layers; the dictionary of displacements is a list of layers and values. *)
From Coq Require Import List ZArith Bool Arith QArith Qcanon.
From Verif Require Import PyBase OpticalModel AirModel.
Import ListNotations.
Local Open Scope Qc_scope.

Record chroma := mkChroma { c_on : bool; c_ref : option Qc; c_alt : option Qc }.
(* atmo_propagation.py:123-139 *)
Definition init (c : chroma) : res chroma :=
  if c_on c then match c_ref c, c_alt c with None, _ => Err ValueError | _, None => Err ValueError | _, _ => Ok c end else Ok c.

Section Chroma.
Context (svp : Qc -> Qc) (coeff : band -> nat -> nat -> Qc) (pressure : Qc -> Qc) (sec tan : Qc).
(* air_refraction.py:97: the default conditions, for one wavelength in nanometres *)
Definition n_at (nm : Qc) : res Qc :=
  o <- get_refractive_index svp coeff [nm * q 1 1000000000] (q 15 1) (q 101325 1) 0 ;;
  match o with Number x => Ok x | Vector _ => Err TypeError end.
(* atmo_propagation.py:328-392: compute_chromatic_shifts *)
Definition compute_chromatic_shifts (c : chroma) (nm : Qc) (heights : list Qc) : res (list (nat * Qc)) :=
  if negb (c_on c) then Ok [] else
  match c_ref c, c_alt c with
  | Some r, Some alt =>
      if Qc_eq_bool nm r then Ok [] else
      n_ref <- n_at r ;; n_src <- n_at nm ;;
      let b0 := (n_ref - n_src) * sec * tan * (pressure alt * q 100 1 / (q 98 10 * q 1225 1000)) in
      Ok (combine (seq 0 (length heights)) (map (fun h => b0 * (1 - pressure (alt + h) / pressure alt)) heights))
  | _, _ => Err TypeError
  end.
(* atmo_propagation.py:445: the displacement used for a layer, in pixels *)
Definition shift_px (shifts : list (nat * Qc)) (layer : nat) (pitch : Qc) : Qc :=
  match find (fun e => Nat.eqb (fst e) layer) shifts with Some e => snd e | None => 0 end / pitch.
End Chroma.
