(* What the geometry of a Shack-Hartmann sensor should be. *)
From Coq Require Import List ZArith QArith Qcanon.
From Verif Require Import InterpModel ScreenModel OpticalModel ShGeomModel.
Local Open Scope Qc_scope.

(* a sensor of positive sizes that has not been set up, in front of a field of [size] pixels *)
Definition sound (asec : Qc) (w : sensor) (size : Z) (pitch : Qc) : Prop :=
  0 < asec /\ 0 < w_nm w /\ 0 < w_wanted w /\ 0 < w_px w /\ (1 <= w_n w)%Z /\ (1 <= w_npx w)%Z /\ (1 <= size)%Z /\ 0 < pitch.
(* the size of the image of a point through one subaperture: wavelength / diameter, in arcseconds *)
Definition diffraction (asec : Qc) (w : sensor) (size : Z) (pitch : Qc) : Qc := metres (w_nm w) / (qz size * pitch / qz (w_n w)) * asec.
(* the pixel of the sensor that was asked for, in arcseconds *)
Definition pixel (asec : Qc) (w : sensor) : Qc := w_px w * asec.
(* the error on the wanted field of view, relative, when it is made of an even number of pixels of size [p] *)
Definition field_error (wanted p : Qc) : Qc := qabs (qz (2 * qround (wanted / p / qz 2)) * p - wanted) / wanted.
(* m is the least integer from 2 on for which the diffraction is sampled more finely than the sensor's pixels *)
Definition first_fine (t p : Qc) (m : Z) : Prop := (2 <= m)%Z /\ t / qz m < p /\ forall k, (2 <= k < m)%Z -> p <= t / qz k.
