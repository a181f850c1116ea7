(* Rotational shearing interferometer: CiaoCiaoSensor of specula/processing_objects/ciao_ciao_sensor.py.

   Simplifications.
   - Numbers are exact rationals; a complex field is a pair.  The square roots of the fluxes of the two branches are parameters.
   - The fields of the two branches, after their interpolations, and the phase factors of the tilt are inputs, pixel by pixel; the
     resampling on the detector is a parameter.
   - The angles and shifts of the branches, used by the interpolations, are left out of the constructor. *)
From Coq Require Import List ZArith Bool Arith QArith Qcanon.
From Verif Require Import PyBase OpticalModel AirModel.
Import ListNotations.
Local Open Scope Qc_scope.

Inductive tilt := Scalar (x : Qc) | Values (l : list Qc).
(* ciao_ciao_sensor.py:141-148: _parse_tilt *)
Definition parse_tilt (t : tilt) : res (Qc * Qc) :=
  match t with Scalar x => Ok (x, 0) | Values [x; y] => Ok (x, y) | Values _ => Err ValueError end.
(* ciao_ciao_sensor.py:89-116: checks of the constructor *)
Definition init (number_px : Z) (flux mag mag_diff : Qc) (t : tilt) : res (Qc * Qc) :=
  if Z.leb number_px 0 then Err ValueError else
  if qlt flux 0 || qlt 1 flux then Err ValueError else
  if qlt mag (q 1 1000000) then Err ValueError else
  if qlt mag_diff (q 1 1000000) then Err ValueError else parse_tilt t.

Definition cplx := (Qc * Qc)%type.
Definition cadd (a b : cplx) : cplx := (fst a + fst b, snd a + snd b).
Definition cmul (a b : cplx) : cplx := (fst a * fst b - snd a * snd b, fst a * snd b + snd a * fst b).
Definition cscale (k : Qc) (a : cplx) : cplx := (k * fst a, k * snd a).
Definition abs2 (a : cplx) : Qc := fst a * fst a + snd a * snd a.
Definition total (l : list Qc) : Qc := fold_right Qcplus 0 l.

Section Ciao.
(* ciao_ciao_sensor.py:106-109: roots of twice the fluxes of the branches *)
Context (amp0 amp1 : Qc) (resample : list Qc -> list Qc).
(* ciao_ciao_sensor.py:207-223: a pixel: field of the first branch, field of the second, phase factor of the tilt *)
Definition intensity (p : cplx * cplx * cplx) : Qc :=
  let '(e, r, t) := p in abs2 (cadd (cscale amp0 e) (cmul (cscale amp1 r) t)).
(* ciao_ciao_sensor.py:225-244: post_trigger *)
Definition frame (same_size normalize : bool) (phot : Qc) (px : list (cplx * cplx * cplx)) : list Qc :=
  let i := map intensity px in
  let o := if same_size then i else resample i in
  if normalize then if qlt 0 (total o) then map (fun x => x * (phot / total o)) o else o else o.
End Ciao.
