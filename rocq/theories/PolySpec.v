(* What a polychromatic sensor delivers. *)
From Coq Require Import List ZArith Bool Arith QArith Qcanon.
From Verif Require Import PyBase Arith FilterSpec FitsModel CutSpec RebinModel FieldModel FieldSpec SlopecSpec InterpSpec.
Import ListNotations.
Local Open Scope Qc_scope.

(* optical path in nm, at pixel k of n pixels of this pitch, of a wavefront tilted by [a] arcsec around the
   centre of the pupil; [asec]: arcsec in a radian *)
Definition ramp (asec : Qc) (n : nat) (pitch a : Qc) (k : nat) : Qc := Q2Qc (1000000000 # 1) * (a / asec) * ((qnat k - middle n) * pitch).
(* by how much the tilts are too large *)
Definition stretch (n : nat) : Qc := qnat n / (qnat n - 1).
(* field [e] of n by n pixels with an added tilt of these arcsec (x along a row, y along a column) *)
Definition tilted_by (asec : Qc) (n : nat) (pitch tx ty : Qc) (e : efield qc) : efield qc :=
  mkEF qc (ef_A qc e) (tab qc n n (fun i j => ph_at e i j + (ramp asec n pitch tx j + ramp asec n pitch ty i))) (ef_pitch qc e) (ef_S0 qc e).

(* light in an image, photons in a field *)
Definition light (n : nat) (f : nat -> nat -> Qc) : Qc := sumn (A := qc) n (fun i => sumn (A := qc) n (fun j => f i j)).
Definition photons (n : nat) (e : efield qc) : Qc := ef_S0 qc e * (ef_pitch qc e * ef_pitch qc e * light n (amp_at e)).
Definition pix (a : arr2 Qc) (i j : nat) : Qc := entry (0 : Qc) a i j.
(* weighted sum of images *)
Definition mixture (l : list (Qc * arr2 Qc)) (i j : nat) : Qc := sum_over (A := qc) (fun x => fst x * pix (snd x) i j) l.
(* an image with its light brought to [phot], when there is any *)
Definition brought_to (n : nat) (phot : Qc) (f : nat -> nat -> Qc) (i j : nat) : Qc :=
  if Qclt_le_dec 0 (light n f) then f i j * (phot / light n f) else f i j.
(* fraction of each factor, unless their sum is not positive *)
Definition total_of (l : list Qc) : Qc := sum_over (A := qc) (fun x => x) l.
Definition fractions (l : list Qc) : list Qc := if Qclt_le_dec 0 (total_of l) then map (fun f => f / total_of l) l else l.

(* images of the sensors for a field: wavelength and tilt of each; [n], [pitch]: the pixels of the pupil at
   setup *)
Definition views (sense : Qc -> efield qc -> arr2 Qc) (asec : Qc) (n : nat) (pitch : Qc) (waves : list Qc) (tilts : list (Qc * Qc)) (e : efield qc) : list (arr2 Qc) :=
  map (fun x => sense (fst x) (tilted_by asec n pitch (stretch n * fst (snd x)) (stretch n * snd (snd x)) e)) (List.combine waves tilts).

(* the last field that arrived in time, and when *)
Fixpoint shown (fs : list (Z * efield qc * Z)) : option (Z * efield qc) :=
  match fs with
  | [] => None
  | (t, e, gen) :: r => match shown r with Some x => Some x | None => if (t <=? gen)%Z then Some (t, e) else None end
  end.
