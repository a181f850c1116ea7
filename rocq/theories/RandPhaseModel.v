(* Random phase screens: specula/processing_objects/atmo_random_phase.py.

   Simplifications.
   - Real numbers, no rounding.  The large screen of a seed, read from a file or computed, is a function of the seed
     (see ScreenModel for the way it is found).
   - The pupil stop has the size of the pupil and the seeing is a number.
   - After an error the object is not used again. *)
From Coq Require Import String Reals List Bool Arith ZArith.
From Verif Require Import PyBase CubeModel.
Import ListNotations.
Local Open Scope R_scope.

Definition image := nat -> nat -> R.
(* pupil and screen in pixels, pitch in m, wavelength in nm, zenith angle in degrees, number of triggers of one screen,
   names of the sources *)
Record config := mkCfg { c_pupil : nat; c_side : nat; c_pitch : R; c_wl : R; c_zenith : option R; c_interval : Z; c_sources : list string }.
(* self.seed, self.last_position, self.step_counter; generation times of the fields, by name *)
Record state := mkSt { s_seed : Z; s_last : nat; s_steps : Z; s_times : string -> Z }.
(* what every layer, and the field that shares its arrays, is given *)
Record frame := mkFrame { f_phase : image; f_amp : image; f_time : Z }.

(* atmo_random_phase.py:113-131 *)
Definition layer_names (c : config) : list string :=
  match c_sources c with [] => ["out_layer"%string] | l => map (fun n => "out_" ++ n ++ "_layer")%string l end.
Definition ef_names (c : config) : list string :=
  match c_sources c with [] => ["out_ef"%string] | l => map (fun n => "out_" ++ n ++ "_ef")%string l end.
(* atmo_random_phase.py:88-93 *)
Definition airmass (c : config) : R := match c_zenith c with Some a => 1 / cos (a * PI / 180) | None => 1 end.
(* atmo_random_phase.py:166: squares on a side *)
Definition slices (c : config) : nat := (c_side c / c_pupil c)%nat.

(* atmo_random_phase.py:62-138; the division at line 166 *)
Definition construct (c : config) (seed : Z) : res state :=
  if (c_side c <? c_pupil c)%nat then Err ValueError else
  if (seed <? 1)%Z then Err ValueError else
  if (c_pupil c =? 0)%nat then Err ZeroDivisionError else
  Ok (mkSt seed 0 0 (fun _ => (-1)%Z)).

Section Run.
Variables (c : config) (screen : Z -> image).
(* element i of an image of the given width, in C order *)
Definition flat (w : nat) (a : image) (i : nat) : R := a (i / w)%nat (i mod w)%nat.
(* atmo_random_phase.py:169-178: pixel (y, x) of square k.  The array is read as [num, pupil, num, pupil], the two middle
   axes are exchanged, and the two first ones become one. *)
Definition square (seed : Z) (k : nat) : image := fun y x =>
  let n := slices c in let p := c_pupil c in
  let a := (k / n)%nat in let b := (k mod n)%nat in
  flat (n * p) (screen seed) (((a * p + y) * n + b) * p + x) * (c_wl c / (2 * PI)).
(* atmo_random_phase.py:188-191 *)
Definition r0 (seeing : R) : R := 9759 / 10000 * (5 / 10) / (seeing * (4848 / 1000)) * Rpower (airmass c) (- 3 / 5).
Definition scale (seeing : R) : R := Rpower (c_pitch c / (r0 seeing * Rpower (c_wl c / 500) (6 / 5))) (5 / 6).
(* atmo_random_phase.py:193-198: the seed and the square *)
Definition prepare (s : state) : Z * nat :=
  if (slices c * slices c <=? s_last s)%nat then ((s_seed s + 1)%Z, 0%nat) else (s_seed s, s_last s).
(* atmo_random_phase.py:203-212: the field is found from the name of the layer *)
Definition stamp (t : Z) (times : string -> Z) : res (string -> Z) :=
  fold_res (fun ts name =>
    let ef := str_replace (String.length name) "_layer" "_ef" name in
    if existsb (String.eqb ef) (ef_names c) then Ok (fun x => if String.eqb x ef then t else ts x) else Err KeyError)
    times (layer_names c).
(* atmo_random_phase.py:184-220: one trigger, at time t *)
Definition trigger (s : state) (seeing : R) (stop : image) (t : Z) : res (frame * state) :=
  let '(seed, k) := prepare s in
  times <- stamp t (s_times s) ;;
  if (c_interval c =? 0)%Z then Err ZeroDivisionError else
  let steps := (s_steps s + 1)%Z in
  Ok (mkFrame (fun y x => square seed k y x * scale seeing) stop t,
      mkSt seed (if (steps mod c_interval c =? 0)%Z then S k else s_last s) steps times).
(* a sequence of triggers: seeing, pupil stop, time *)
Fixpoint run (s : state) (l : list (R * image * Z)) : res (list frame * state) :=
  match l with
  | [] => Ok ([], s)
  | (seeing, stop, t) :: r => x <- trigger s seeing stop t ;; y <- run (snd x) r ;; Ok (fst x :: fst y, snd y)
  end.
End Run.
