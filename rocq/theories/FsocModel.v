(* Optical links with satellites: specula/lib/fsoc_lib.py.

   Simplifications.
   - Numbers are the real numbers of the standard library; arrays of layers are modelled layer by layer, and the winds of a layer
     are elements of arrays (for plain numbers calc_effective_wind_speed fails on the output argument of arctan).
   - The height of the object and the cosine of the zenith angle are not zero. *)
From Coq Require Import Reals.
Local Open Scope R_scope.

Definition speed_light : R := 299792458.
(* fsoc_lib.py:3-16: calc_paa *)
Definition calc_paa (object_speed : R) : R := 2 * (object_speed / speed_light) * (3600 * 180 / PI).
Definition rad (d : R) : R := d * PI / 180.
(* fsoc_lib.py:40-42 *)
Definition speed_at_layer (h object_height object_speed : R) : R :=
  tan (calc_paa object_speed * (PI / (3600 * 180))) * h / (object_height / speed_light).
(* fsoc_lib.py:44-45 *)
Definition wind_1 (h ws wd oh os od : R) : R := ws * sin (rad wd) + speed_at_layer h oh os * sin (rad od).
Definition wind_2 (h ws wd oh os od : R) : R := ws * cos (rad wd) + speed_at_layer h oh os * cos (rad od).
(* fsoc_lib.py:19-49: calc_effective_wind_speed; the second argument of arctan is where numpy writes its result *)
Definition calc_effective_wind_speed (h ws wd oh os od : R) : R * R :=
  let a := wind_1 h ws wd oh os od in let b := wind_2 h ws wd oh os od in
  (sqrt (a * a + b * b), atan a * 180 / PI).
(* fsoc_lib.py:52-71: calc_timing_uplink_downlink *)
Definition calc_timing (zenith oh h : R) : R * R :=
  let airmass := 1 / cos (zenith / 180 * PI) in
  ((2 * oh - h) * airmass / speed_light, h * airmass / speed_light).
