(* Evolution of the atmosphere: phase screens blown over the telescope. *)
From Coq Require Import List ZArith Bool Arith QArith Qcanon Qround.
From Verif Require Import PyBase Arith OpticalModel ExtModel NpModel FitsModel RebinModel VecModel CutModel SlopecModel FieldModel InterpModel PropModel.
Import ListNotations.
Local Open Scope Qc_scope.

Definition qceil (x : Qc) : Z := Qceiling (this x).
(* int(x) and the integer part of numpy.modf: rounding towards zero *)
Definition qtrunc (x : Qc) : Z := if qlt x 0 then (- qfloor (- x))%Z else qfloor x.

(* numpy a op b for 2-D arrays: dimensions of one element are repeated *)
Definition bin2 (f : Qc -> Qc -> Qc) (a b : arr2 Qc) : res (arr2 Qc) :=
  let dim k m := if Nat.eqb k 1 then Ok m else if Nat.eqb k m || Nat.eqb m 1 then Ok k else Err ValueError in
  r <- dim (a_r a) (a_r b) ;; c <- dim (a_c a) (a_c b) ;;
  Ok (tab qc r c (fun i j => f (ent qc a (src (a_r a) i) (src (a_c a) j)) (ent qc b (src (a_r b) i) (src (a_c b) j)))).
(* numpy.rot90(m, k) for an integral k *)
Definition rot90 (m : arr2 Qc) (k : Z) : arr2 Qc :=
  match (k mod 4)%Z with
  | 0%Z => m
  | 1%Z => tab qc (a_c m) (a_r m) (fun i j => ent qc m j (a_c m - 1 - i))
  | 2%Z => tab qc (a_r m) (a_c m) (fun i j => ent qc m (a_r m - 1 - i) (a_c m - 1 - j))
  | _ => tab qc (a_c m) (a_r m) (fun i j => ent qc m (a_r m - 1 - j) i)
  end.

(* specula/processing_objects/atmo_evolution.py:80-143.  One layer: number of pixels of its
   side, screen, extra time in seconds.  Screens have the numbers of rows and columns given by
   [compute] (see ScreenModel). *)
Record sheet := mkSheet { sh_size : nat; sh_screen : arr2 Qc; sh_extra : Qc }.
(* position in pixels and phase of a layer *)
Record drift := mkDrift { dr_pos : Qc; dr_phase : arr2 Qc }.
(* wind speed (m/s) and direction (degrees) of a layer *)
Definition wind : Type := Qc * Qc.

Section Evolve.
(* pixel pitch in metres; number of a positive seeing: (pitch / r0) ** (5/6);
   scipy.ndimage.rotate(phase, degrees, reshape=False, order=1) *)
Variable pitch : Qc.
Variable strength : Qc -> Qc.
Variable rotate : Qc -> arr2 Qc -> arr2 Qc.

(* base_time_obj.py t_to_seconds: times are integer nanoseconds *)
Definition seconds (t : Z) : Qc := qz t / qz 1000000000.

(* atmo_evolution.py:329-344: position, then effective position, of a layer of L pixels of
   side on a screen of [size] columns *)
Definition advance (L size : nat) (extra last v dt : Qc) : Qc * Qc :=
  let off := v * extra / pitch in
  let p := last + v * dt / pitch in
  let p' := if qlt (p + off + qn L) (qn size) then p else 0 in
  (p', p' + off).
(* atmo_evolution.py:346-357: linear interpolation between two positions *)
Definition window (L : nat) (p : arr2 Qc) (eff : Qc) : res (arr2 Qc) :=
  let pos := qfloor eff in let rem := eff - qz pos in
  let l := Z.of_nat L in
  a <- sub2 qc p 0 l pos (pos + l) ;; b <- sub2 qc p 0 l (pos + 1) (pos + l + 1) ;;
  bin2 Qcplus (each qc (fun x => (1 - rem) * x) a) (each qc (fun x => rem * x) b).
(* atmo_evolution.py:286-288, 359-364: whole quarter turns, then the rest *)
Definition turned (dir : Qc) (a : arr2 Qc) : arr2 Qc :=
  let q := dir / qz 90 in let k := qtrunc q in let rest := (q - qz k) * qz 90 in
  let b := rot90 a k in if is0 rest then b else rotate rest b.
(* atmo_evolution.py:307-372 for one layer; the amplitude is not changed *)
Definition blow (s : sheet) (d : drift) (w : wind) (dt scale : Qc) : res drift :=
  let pe := advance (sh_size s) (a_c (sh_screen s)) (sh_extra s) (dr_pos d) (fst w) dt in
  a <- window (sh_size s) (sh_screen s) (snd pe) ;;
  ph <- assign2 qc (dr_phase d) (each qc (fun x => x * scale) (turned (snd w) a)) ;;
  Ok (mkDrift (fst pe) ph).

(* inputs of a trigger: time, seeing, wind of each layer.  Their numbers of elements, checked
   by setup (atmo_evolution.py:253-264), do not change. *)
Record weather := mkWeather { we_t : Z; we_seeing : Qc; we_wind : list wind }.
Definition seeing_scale (s : Qc) : Qc := if qlt 0 s then strength s else 0.
Fixpoint blow_all (ss : list sheet) (ds : list drift) (ws : list wind) (dt scale : Qc) : res (list drift) :=
  match ss, ds, ws with
  | [], [], [] => Ok []
  | s :: ss', d :: ds', w :: ws' => x <- blow s d w dt scale ;; r <- blow_all ss' ds' ws' dt scale ;; Ok (x :: r)
  | _, _, _ => Err ValueError
  end.
(* state: layers and time of the last trigger *)
Definition air : Type := list drift * Z.
(* atmo_evolution.py:266-304 prepare_trigger, trigger_code *)
Definition evolve (ss : list sheet) (st : air) (w : weather) : res air :=
  r <- blow_all ss (fst st) (we_wind w) (seconds (we_t w - snd st)) (seeing_scale (we_seeing w)) ;; Ok (r, we_t w).
(* atmo_evolution.py:80-84, 134-143 *)
Definition calm (ss : list sheet) : air := (map (fun s => mkDrift 0 (tab qc (sh_size s) (sh_size s) (fun _ _ => 0))) ss, 0%Z).
Definition evolution (ss : list sheet) (ws : list weather) : res air := fold_res (evolve ss) (calm ss) ws.

(* specula/processing_objects/atmo_evolution_up_down.py:93-177: two lists of layers on the
   same screens, with their positions; one time *)
Definition evolve2 (down up : list sheet) (st : list drift * list drift * Z) (w : weather) : res (list drift * list drift * Z) :=
  let dt := seconds (we_t w - snd st) in let sc := seeing_scale (we_seeing w) in
  d <- blow_all down (fst (fst st)) (we_wind w) dt sc ;;
  u <- blow_all up (snd (fst st)) (we_wind w) dt sc ;; Ok (d, u, we_t w).
Definition evolution2 (down up : list sheet) (ws : list weather) : res (list drift * list drift * Z) :=
  fold_res (evolve2 down up) (fst (calm down), fst (calm up), 0%Z) ws.
End Evolve.
