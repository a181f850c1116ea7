(* Focal mask of the Zernike sensor: ZernikeSensor of specula/processing_objects/zernike_sensor.py.

   Simplifications.
   - Numbers are exact rationals.  A distance is compared by its square: the square root of s is below R when R is positive and s
     is below its square.
   - The sampling p is positive and the padding c is not negative. *)
From Coq Require Import List ZArith Bool Arith QArith Qcanon.
From Verif Require Import PyBase OpticalModel AirModel.
Import ListNotations.
Local Open Scope Qc_scope.

Section Mask.
Context (radius shift : Qc).
(* zernike_sensor.py:65: the radius in pixels *)
Definition spot_radius (p c : nat) : Qc := radius * (1 + q (Z.of_nat c) 1 / q (Z.of_nat p) 1).
(* zernike_sensor.py:60, 68-69: the coordinate of the centre of pixel i, of 2 A *)
Definition coord (A i : nat) : Qc := q (Z.of_nat i - Z.of_nat A) 1 + q 1 2.
Definition below (s r : Qc) : bool := qlt 0 r && qlt s (r * r).
(* zernike_sensor.py:46-75: get_pyr_tlt; the phase in waves *)
Definition get_pyr_tlt (p c : nat) : list (list Qc) :=
  let A := ((p + c) / 2)%nat in
  map (fun i => map (fun j => if below (sq (coord A i) + sq (coord A j)) (spot_radius p c) then shift / q 2 1 else 0) (seq 0 (2 * A))) (seq 0 (2 * A)).
End Mask.
