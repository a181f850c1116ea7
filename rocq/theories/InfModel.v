(* Phase screens without end: lines added at one side of a square screen
   (specula/data_objects/infinite_phase_screen.py) and layers of atmosphere made with them
   (specula/processing_objects/atmo_infinite_evolution.py, atmo_infinite_evolution_up_down.py).

   Numbers are exact rationals; the cosine and sine of an angle in degrees and the square root
   are parameters.  Arrays are lists of rows. *)
From Coq Require Import List ZArith Bool Arith QArith Qcanon.
From Verif Require Import PyBase Arith OpticalModel ExtModel InterpModel AtmoModel.
Import ListNotations.
Local Open Scope nat_scope.

(* ------------------------------------------------------------------ sizes and stencil *)

(* infinite_phase_screen.py:39 [2 ** int(ceil(log2(mx_size))) + 1].  Simplification: log2 is
   not rounded. *)
Definition screen_size (m : nat) : nat := 2 ^ Nat.log2_up m + 1.
(* infinite_phase_screen.py:47-50 with stencil_size_factor = 1 *)
Definition stencil_size (m : nat) : nat := Nat.max (screen_size m / 2 * 2 + 1) 257.
(* infinite_phase_screen.py:109 one element of [round(linspace(0, size - 1, n_points))].
   Simplification: halves are rounded up (quotients are integers, see C95_sizes). *)
Definition spread (size n_points i : nat) : nat := (2 * (i * (size - 1)) + (n_points - 1)) / (2 * (n_points - 1)).
(* infinite_phase_screen.py:102-118: the points set in the array of the stencil; [2 ** (n - 1)]
   is 0.5 for n = 0.  Stencils of index 1 have their rows in the opposite order. *)
Definition stencil_line (n : nat) : nat := match n with O => 0 | S k => 2 ^ k end.
Definition in_stencil (size mx : nat) (r c : nat) : bool :=
  existsb (fun n => Nat.eqb r (stencil_line n) &&
    existsb (fun i => Nat.eqb c (spread size (2 ^ (Nat.log2 size - n) + 1) i)) (seq 0 (2 ^ (Nat.log2 size - n) + 1)))
    (seq 0 (Nat.log2 size + 1))
  || (Nat.eqb r (mx - 1) && Nat.eqb c (size / 2)).
Definition in_stencil_of (size mx : nat) (after : bool) (r c : nat) : bool :=
  if after then in_stencil size mx (size - 1 - r) c else in_stencil size mx r c.
(* infinite_phase_screen.py:119-121 [where(stencil == 1)].T: the points row by row *)
Definition stencil_coords (size mx : nat) (after : bool) : list (nat * nat) :=
  filter (fun p => in_stencil_of size mx after (fst p) (snd p)) (list_prod (seq 0 size) (seq 0 size)).

(* Shape of a screen: side, points of the two stencils, matrices. *)
Record geom := mkGeom { g_n : nat; g_at : bool -> list (nat * nat); g_A : bool -> list (list Qc); g_B : list (list Qc) }.
(* infinite_phase_screen.py:154-167: matrices of the line before the screen, and after it.
   Simplification: AB_from_positions (lines 127-152) is not modelled, A and B are any
   matrices. *)
Definition flipped (A : list (list Qc)) : list (list Qc) := rev (map (@rev Qc) A).
Definition geometry (m : nat) (A B : list (list Qc)) : geom :=
  mkGeom (stencil_size m) (stencil_coords (stencil_size m) (screen_size m)) (fun after => if after then flipped A else A) B.

(* ------------------------------------------------------------------------------ lines *)

(* State of a screen: array, random numbers prepared for a column and for a row, number of
   vectors drawn so far from its generator. *)
Record inf := mkInf { i_full : list (list Qc); i_col : option (list Qc); i_row : option (list Qc); i_drawn : nat }.

Section Screen.
Variable g : geom.
(* k-th vector drawn from the generator, [rng.standard_normal(size=self.stencil_size)] *)
Variable noise : nat -> list Qc.
Definition pix (a : list (list Qc)) (i j : nat) : Qc := nth j (nth i a []) 0%Qc.

(* infinite_phase_screen.py:175-189 prepare_random_data_col, prepare_random_data_row *)
Definition prepared (s : inf) (row : bool) : list Qc * inf :=
  match (if row then i_row s else i_col s) with
  | Some v => (v, s)
  | None => let v := noise (i_drawn s) in
      (v, if row then mkInf (i_full s) (i_col s) (Some v) (S (i_drawn s)) else mkInf (i_full s) (Some v) (i_row s) (S (i_drawn s)))
  end.
(* infinite_phase_screen.py:191-200 get_new_line.  The points of the stencil are inside the
   screen (C95_stencil), so no index is out of range. *)
Definition new_line (a : list (list Qc)) (row after : bool) (v : list Qc) : list Qc :=
  vadd (A:=qc) (mv (A:=qc) (g_A g after) (map (fun p => if row then pix a (snd p) (fst p) else pix a (fst p) (snd p)) (g_at g after)))
               (mv (A:=qc) (g_B g) v).
(* infinite_phase_screen.py:202-223: concatenation along the axis [row], then cut *)
Definition shifted (a : list (list Qc)) (row after : bool) (l : list Qc) : list (list Qc) :=
  match row, after with
  | true, true => map (@tl Qc) (firstn (g_n g) (map2 (fun r x => r ++ [x]) a l))
  | true, false => map (firstn (g_n g)) (firstn (g_n g) (map2 (fun r x => x :: r) a l))
  | false, true => map (firstn (g_n g)) (tl (a ++ [l]))
  | false, false => map (firstn (g_n g)) (firstn (g_n g) (l :: a))
  end.
(* infinite_phase_screen.py:202-226 add_line *)
Definition add_line (s : inf) (row after flush : bool) : inf :=
  let (v, s1) := prepared s row in
  let a := shifted (i_full s1) row after (new_line (i_full s1) row after v) in
  if flush then mkInf a None None (i_drawn s1) else mkInf a (i_col s1) (i_row s1) (i_drawn s1).
(* [for r in range(k): add_line(row, after)] *)
Definition add_lines (k : nat) (s : inf) (row after : bool) : inf := Nat.iter k (fun x => add_line x row after true) s.
(* infinite_phase_screen.py:232-234 scrnRaw *)
Definition shown (m : nat) (a : list (list Qc)) : list (list Qc) := map (firstn m) (firstn m a).
End Screen.

(* ------------------------------------------------------------------------- atmosphere *)

(* One layer: geometry, random numbers, side of the layer in pixels, extra time in seconds. *)
Record leaf := mkLeaf { l_geom : geom; l_noise : nat -> list Qc; l_size : nat; l_extra : Qc }.
(* last position, last effective position, fractions left to move along the two axes *)
Record track := mkTrack { t_pos : Qc; t_eff : Qc; t_rows : Qc; t_cols : Qc }.
(* track and phase of a layer; [None]: the array allocated by __init__, not yet written *)
Record veil := mkVeil { v_track : track; v_phase : option (list (list Qc)) }.

Section Evolve.
Variables cosd sind root : Qc -> Qc.
Variable pitch : Qc.
(* scale_r0 * scale_wvl of a positive seeing, atmo_infinite_evolution.py:220-230 *)
Variable strength : Qc -> Qc.
Local Open Scope Qc_scope.
Definition veps : Qc := 1 / qz 10000.
Definition qabs (x : Qc) : Qc := if qlt x 0 then - x else x.
(* numpy.modf *)
Definition modf (x : Qc) : Qc * Z := (x - qz (qtrunc x), qtrunc x).
Definition blend (f : Qc) (b a : list (list Qc)) : list (list Qc) := map2 (map2 (fun y x => f * y + (1 - f) * x)) b a.

(* atmo_infinite_evolution.py:250-317 _process_propagation_direction for one layer: state of
   the screen, track, wind speed and direction, seconds since the last trigger.  Result: new
   state of the screen, track, phase before the scale is applied. *)
Definition waft (l : leaf) (s : inf) (k : track) (v dir dt : Qc) : inf * track * list (list Qc) :=
  let g := l_geom l in let add := add_line g (l_noise l) in let adds := add_lines g (l_noise l) in
  let delta := v * dt / pitch in
  let eff := t_pos k + delta + v * l_extra l / pitch in
  let d := eff - t_eff k in
  let wy := cosd dir in let wx := sind dir in
  let (fr, rows) := modf (d * wy + t_rows k) in
  let (fc, cols) := modf (d * wx + t_cols k) in
  let s1 := if qlt veps (qabs wy) then adds (Z.abs_nat rows) s true (Z.ltb 0 rows) else s in
  let s2 := if qlt veps (qabs wx) then adds (Z.abs_nat cols) s1 false (Z.ltb 0 cols) else s1 in
  let s3 := if qlt veps (qabs fr) then add s2 true (qlt 0 fr) false else s2 in
  let s4 := if qlt veps (qabs fc) then add s3 false (qlt 0 fc) false else s3 in
  let f := root (fr * fr + fc * fc) in
  let ph := blend f (shown (l_size l) (i_full s4)) (shown (l_size l) (i_full s2)) in
  (mkInf (i_full s2) (i_col s4) (i_row s4) (i_drawn s4), mkTrack (t_pos k + delta) eff fr fc, ph).
(* atmo_infinite_evolution.py:310-311; [w] is sqrt(Cn2[ii]) *)
Definition scaled (c w : Qc) (a : list (list Qc)) : list (list Qc) := map (map (fun x => x * (c * w))) a.
(* the loop over the layers, atmo_infinite_evolution.py:262-313; [self.Cn2[ii]] may not exist *)
Fixpoint waft_all (ls : list leaf) (ss : list inf) (vs : list veil) (ws : list wind) (cn2 : list Qc) (dt c : Qc) : res (list inf * list veil) :=
  match ls, ss, vs, ws with
  | [], [], [], [] => Ok ([], [])
  | l :: ls', s :: ss', v :: vs', w :: ws' =>
      let '(s1, k1, ph) := waft l s (v_track v) (fst w) (snd w) dt in
      match cn2 with
      | [] => Err IndexError
      | q :: cn2' =>
          r <- waft_all ls' ss' vs' ws' cn2' dt c ;;
          Ok (s1 :: fst r, mkVeil k1 (Some (scaled c (root q) ph)) :: snd r)
      end
  | _, _, _, _ => Err ValueError
  end.
(* atmo_infinite_evolution.py:215-230 prepare_trigger, atmo_infinite_evolution.py:232-248 trigger_code.  State: screens, layers, last time. *)
Definition coeff (s : Qc) : Qc := if qlt 0 s then strength s else 0.
Definition sky : Type := list inf * list veil * Z.
Definition evolve_inf (ls : list leaf) (cn2 : list Qc) (st : sky) (w : weather) : res sky :=
  r <- waft_all ls (fst (fst st)) (snd (fst st)) (we_wind w) cn2 (seconds (we_t w - snd st)) (coeff (we_seeing w)) ;;
  Ok (r, we_t w).
Definition still : veil := mkVeil (mkTrack 0 0 0 0) None.
(* atmo_infinite_evolution.py:77-81, atmo_infinite_evolution.py:178-179: fresh screens *)
Definition fresh (a : list (list Qc)) : inf := mkInf a None None 0.
Definition sky0 (screens : list (list (list Qc))) : sky := (map fresh screens, map (fun _ => still) screens, 0%Z).
Definition evolution_inf (ls : list leaf) (cn2 : list Qc) (screens : list (list (list Qc))) (ws : list weather) : res sky :=
  fold_res (evolve_inf ls cn2) (sky0 screens) ws.

(* atmo_infinite_evolution.py:129-156, atmo_infinite_evolution.py:168-176: the checks of __init__ ([L0] a list; an L0 that is a number is
   repeated).  numpy.isclose(x, 1, atol=1e-6) has the relative tolerance 1e-5. *)
Definition check_inf (nheights : nat) (nL0 : option nat) (seed : Z) (cn2 : list Qc) : res unit :=
  if match nL0 with Some k => negb (Nat.eqb k nheights) | None => false end then Err ValueError
  else if (seed <=? 0)%Z then Err ValueError
  else if qlt (1 / qz 1000000 + 1 / qz 100000) (qabs (vsum (A:=qc) cn2 - 1)) then Err ValueError
  else Ok tt.
(* atmo_infinite_evolution.py:201-213 setup: numbers of elements of the inputs *)
Definition setup_inf (n : nat) (seeing : list Qc) (speeds dirs : list Qc) : res unit :=
  if negb (Nat.eqb (length seeing) 1) then Err ValueError
  else if negb (Nat.eqb (length speeds) n) then Err ValueError
  else if negb (Nat.eqb (length dirs) n) then Err ValueError else Ok tt.

(* atmo_infinite_evolution_up_down.py:129-190: two lists of layers share the screens.  [downs]
   and [ups] differ in the extra times.  After the second list the first state of the screens
   is restored only when the first list was the downward one. *)
Definition down_first (downs ups : list leaf) : bool := forallb (fun x => negb (qlt (l_extra (snd x)) (l_extra (fst x)))) (combine downs ups).
(* atmo_infinite_evolution_up_down.py:192-208: the generator itself goes on *)
Definition restore (saved later : inf) : inf := mkInf (i_full saved) (i_col saved) (i_row saved) (i_drawn later).
Definition sky2 : Type := list inf * list veil * list veil * Z.
Definition evolve_inf2 (downs ups : list leaf) (cn2 : list Qc) (st : sky2) (w : weather) : res sky2 :=
  let '(ss, dv, uv, t0) := st in
  let dt := seconds (we_t w - t0) in let c := coeff (we_seeing w) in
  if down_first downs ups then
    r <- waft_all downs ss dv (we_wind w) cn2 dt c ;;
    q <- waft_all ups (fst r) uv (we_wind w) cn2 dt c ;;
    Ok (map2 restore (fst r) (fst q), snd r, snd q, we_t w)
  else
    q <- waft_all ups ss uv (we_wind w) cn2 dt c ;;
    r <- waft_all downs (fst q) dv (we_wind w) cn2 dt c ;;
    Ok (fst r, snd r, snd q, we_t w).
Definition evolution_inf2 (downs ups : list leaf) (cn2 : list Qc) (screens : list (list (list Qc))) (ws : list weather) : res sky2 :=
  fold_res (evolve_inf2 downs ups cn2) (map fresh screens, map (fun _ => still) screens, map (fun _ => still) screens, 0%Z) ws.
End Evolve.
