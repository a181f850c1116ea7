(* specula/processing_objects/ideal_derivative_sensor.py: slopes from the differences of the phase.

   Exact rationals.  The phase is the one after the extrapolation outside the pupil (extrapolation_2d.py, not modelled
   here), with given numbers of rows and columns; a pixel is lit when its amplitude is above one half. *)
From Coq Require Import List ZArith Bool Arith QArith Qcanon.
From Verif Require Import PyBase OpticalModel ExtModel.
Import ListNotations.
Local Open Scope Qc_scope.

Definition q2 : Qc := 1 + 1.
Fixpoint qsum (l : list Qc) : Qc := match l with [] => 0 | x :: r => x + qsum r end.
Definition qcount (n : nat) : Qc := Q2Qc (Z.of_nat n # 1).

Record sensor := mkS { s_nx : nat; s_map : list nat; s_factor : Qc }.
(* ideal_derivative_sensor.py:20-49 __init__; [unit]: 1e-9 * RAD2ASEC; [np_sub]: pixels of a sub-aperture of the
   geometry, used here for the factor only *)
Definition sensor_init (unit : Qc) (nx np_sub : nat) (display_map : list nat) (pixel_pitch fov : Qc) : res sensor :=
  if negb (qlt 0 fov) then Err ValueError else
  if (np_sub =? 0)%nat then Err ZeroDivisionError else
  let correction := (qcount np_sub - 1) / qcount np_sub in
  if is0 (pixel_pitch * fov / q2) then Err ZeroDivisionError else
  Ok (mkS nx display_map (unit / (pixel_pitch * fov / q2) * correction)).

(* ideal_derivative_sensor.py:96-134 _compute_subap_indices: rows and columns of a sub-aperture; the limits are whole
   numbers before they are rounded *)
Definition block (s : sensor) (rows : nat) (k : nat) : list (nat * nat) :=
  let n := (rows / s_nx s)%nat in
  list_prod (seq (n * (k / s_nx s)) n) (seq (n * (k mod s_nx s)) n).
Definition setup (s : sensor) (rows cols : nat) : res unit :=
  if (s_nx s =? 0)%nat then Err ZeroDivisionError else
  if forallb (fun k => forallb (fun rc => (fst rc <? rows) && (snd rc <? cols))%nat (block s rows k)) (s_map s) then Ok tt else Err ValueError.

(* numpy.gradient of n values, element i *)
Definition gradient (n : nat) (f : nat -> Qc) (i : nat) : Qc :=
  if (i =? 0)%nat then f 1%nat - f 0%nat
  else if (i =? n - 1)%nat then f (n - 1)%nat - f (n - 2)%nat
  else (f (i + 1)%nat - f (i - 1)%nat) / q2.
Definition masked (lit : bool) (x : Qc) : Qc := if lit then x else 0.
(* ideal_derivative_sensor.py:136-226 trigger_code: all sub-apertures have the same number of pixels, so that the
   padding of the matrix of indices is never used *)
Definition trigger (s : sensor) (rows cols : nat) (phase : nat -> nat -> Qc) (lit : nat -> nat -> bool) : res (list Qc * list Qc) :=
  if ((rows <? 2) || (cols <? 2))%nat then Err ValueError else
  match s_map s with
  | [] => Err ValueError
  | _ =>
      let dx rc := masked (lit (fst rc) (snd rc)) (gradient cols (fun c => phase (fst rc) c) (snd rc)) in
      let dy rc := masked (lit (fst rc) (snd rc)) (gradient rows (fun r => phase r (snd rc)) (fst rc)) in
      let valid rc := negb (is0 (dx rc) && is0 (dy rc)) in
      let one d k :=
        let v := filter valid (block s rows k) in
        if (length v =? 0)%nat then 0 else qsum (map d v) / qcount (length v) * s_factor s in
      Ok (map (one dx) (s_map s), map (one dy) (s_map s))
  end.
