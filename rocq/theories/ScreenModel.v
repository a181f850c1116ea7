(* Phase screens: the directory of screens, their distribution among layers, sizes of layers. *)
From Coq Require Import List ZArith Bool Arith QArith Qcanon Qround.
From Verif Require Import PyBase Arith OpticalModel ExtModel NpModel FitsModel RebinModel VecModel CutModel SlopecModel FieldModel InterpModel PropModel AtmoModel.
Import ListNotations.
Local Open Scope Qc_scope.

(* rounding to an integer, ties to even: numpy.around, and '{:.kf}' after multiplication by 10**k
   (exact rationals) *)
Definition qround (x : Qc) : Z :=
  let f := qfloor x in let r := x - qz f in
  if qlt r (1 / (1 + 1)) then f else if qlt (1 / (1 + 1)) r then (f + 1)%Z else if Z.even f then f else (f + 1)%Z.

(* specula/lib/phasescreen_manager.py:29-33: the parts of a file name.  [fn_dot]: the seed is
   written as a float.  Pitch in thousandths, L0 in ten thousandths. *)
Record fname := mkName { fn_dot : bool; fn_seed : Z; fn_dim : Z; fn_pitch : Z; fn_L0 : Z; fn_single : bool }.
Definition fname_eqb (a b : fname) : bool :=
  Bool.eqb (fn_dot a) (fn_dot b) && Z.eqb (fn_seed a) (fn_seed b) && Z.eqb (fn_dim a) (fn_dim b) && Z.eqb (fn_pitch a) (fn_pitch b) && Z.eqb (fn_L0 a) (fn_L0 b) && Bool.eqb (fn_single a) (fn_single b).
(* what a screen is computed from *)
Record recipe := mkRecipe { rc_L0 : Qc; rc_dim : Z; rc_pitch : Qc; rc_seed : Z; rc_single : bool }.
Definition name_of (dot round : bool) (r : recipe) : fname :=
  mkName dot (rc_seed r) (rc_dim r) (qround (rc_pitch r * qz 1000)) (if round then qround (rc_L0 r) * 10000 else qround (rc_L0 r * qz 10000))%Z (rc_single r).

Section Screens.
(* specula/lib/calc_phasescreen.py *)
Variable calc : recipe -> arr2 Qc.

Definition directory : Type := list (fname * arr2 Qc).
Fixpoint find_file (d : directory) (n : fname) : option (arr2 Qc) :=
  match d with [] => None | (m, a) :: r => if fname_eqb m n then Some a else find_file r n end.
(* phasescreen_manager.py:35-54 for one screen *)
Definition get_screen (d : directory) (r : recipe) : arr2 Qc * directory :=
  match find_file d (name_of false false r) with Some a => (a, d) | None =>
  match find_file d (name_of false true r) with Some a => (a, d) | None =>
  match find_file d (name_of true false r) with Some a => (a, d) | None =>
  match find_file d (name_of true true r) with Some a => (a, d) | None =>
  (calc r, (name_of false false r, calc r) :: d) end end end end.
Fixpoint get_screens (d : directory) (rs : list recipe) : list (arr2 Qc) * directory :=
  match rs with [] => ([], d) | r :: l => let x := get_screen d r in let y := get_screens (snd x) l in (fst x :: fst y, snd y) end.
(* phasescreen_manager.py:8-54: one L0 or one per seed *)
Definition manager (d : directory) (L0 : list Qc) (dim : Z) (pitch : Qc) (single : bool) (seeds : list Z) : res (list (arr2 Qc) * directory) :=
  let make p := mkRecipe (snd p) dim pitch (fst p) single in
  if Nat.eqb (length L0) (length seeds) then Ok (get_screens d (map make (List.combine seeds L0)))
  else match L0, seeds with
       | _, [] => Ok ([], d)
       | [l], _ => Ok (get_screens d (map (fun s => make (s, l)) seeds))
       | _, _ => Err ValueError
       end.

(* numpy.sqrt of a number that is not negative; wavelength / (2 pi) *)
Variable root : Qc -> Qc.
Variable nm : Qc.

Definition qsum (l : list Qc) : Qc := fold_left Qcplus l 0.
(* specula/processing_objects/atmo_evolution.py:107-118: even numbers of pixels; None stands for
   NaN (square root of a negative number) *)
Definition layer_px (pupil : nat) (pitch : Qc) (pos : list Qc) (fov : Qc) (fov_in_m : option Qc) (dist : Qc) : option Z :=
  match fov_in_m with
  | Some m => Some (qtrunc (m / pitch / (1 + 1)) * 2)%Z
  | None => let s := qsum (map (fun x => x * (1 + 1)) pos) in
            if qlt s 0 then None
            else Some (qceil ((qn pupil + (1 + 1) * root s / pitch + qabs dist / pitch * fov) / (1 + 1)) * 2)%Z
  end.
(* numpy.isclose(sum, 1, atol=1e-6) *)
Definition total_is_1 (cn2 : list Qc) : bool := negb (qlt (qz 11 / qz 1000000) (qabs (qsum cn2 - 1))).
Definition all_same (l : list Qc) : bool := match l with [] => false | x :: r => forallb (fun y => if Qc_eq_dec y x then true else false) r end.

(* atmo_evolution.py:196-210: consecutive blocks of rows of consecutive squares *)
Definition rows_of (a : arr2 Qc) (m k : nat) : res (arr2 Qc) := sel_rows qc a (slice2 (Z.of_nat (m * k)) (Z.of_nat (m * (k + 1)))).
Fixpoint share (mx per : nat) (squares : list (arr2 Qc)) (next block : nat) (is : list nat) : res (list (arr2 Qc)) :=
  match is with
  | [] => Ok []
  | i :: l => let nb := if Nat.eqb (i mod per) 0 then (S next, 0%nat) else (next, block) in
              match nth_error squares (fst nb - 1) with
              | None => Err IndexError
              | Some a => x <- rows_of a mx (snd nb) ;; r <- share mx per squares (fst nb) (S (snd nb)) l ;; Ok (x :: r)
              end
  end.
Definition ceil_div (a b : nat) : nat := ((a + b - 1) / b)%nat.
(* atmo_evolution.py:166-230, before the normalisation.  Squares are read or computed. *)
Definition raw_screens (d : directory) (seed : Z) (L0 : list Qc) (size mx n : nat) (pitch : Qc) (single : bool) : res (list (arr2 Qc) * directory) :=
  if all_same L0 then
    if Nat.eqb mx 0 then Err ZeroDivisionError else
    let per := (size / mx)%nat in
    sq <- manager d (firstn 1 L0) (Z.of_nat size) pitch single (map (fun k => seed + Z.of_nat k)%Z (seq 0 (ceil_div n per))) ;;
    r <- share mx per (fst sq) 0 0 (seq 0 n) ;; Ok (r, snd sq)
  else
    if Nat.eqb n (length L0) then
      sq <- manager d L0 (Z.of_nat size) pitch single (map (fun k => seed + Z.of_nat k)%Z (seq 0 n)) ;;
      r <- map_res (fun a => sel_rows qc a (head (Z.of_nat mx))) (fst sq) ;; Ok (r, snd sq)
    else Err ValueError.
(* atmo_evolution.py:233-249: Cn2 is not negative and screens are not empty (otherwise NaN) *)
Definition normal (i : nat) (c : Qc) (a : arr2 Qc) : arr2 Qc :=
  let b := each qc (fun x => x * root c) a in
  let m := total qc b / qn (a_r a * a_c a) in
  let e := each qc (fun x => (x - m) * nm) b in
  if Nat.odd i then tab qc (a_r e) (a_c e) (fun i j => ent qc e i (a_c e - 1 - j)) else e.
Fixpoint normal_all (i : nat) (cn2 : list Qc) (l : list (arr2 Qc)) : res (list (arr2 Qc)) :=
  match l with
  | [] => Ok []
  | a :: r => match nth_error cn2 i with
              | None => Err IndexError
              | Some c => t <- normal_all (S i) cn2 r ;; Ok (normal i c a :: t)
              end
  end.

(* atmo_evolution.py:72-154: [dists] are the heights times the airmass *)
Definition atmo_init (d : directory) (pupil : nat) (pitch : Qc) (L0 dists cn2 : list Qc) (fov : Qc) (size : nat) (seed : Z) (fov_in_m : option Qc) (pos : list Qc) (single : bool)
  : res (list nat * list (arr2 Qc) * directory) :=
  sizes <- map_res (fun h => match layer_px pupil pitch pos fov fov_in_m h with Some z => if (z <? 0)%Z then Err ValueError else Ok (Z.to_nat z) | None => Err ValueError end) dists ;;
  match sizes with
  | [] => Err ValueError
  | _ =>
    let mx := fold_left Nat.max sizes 0%nat in
    if (size <? mx)%nat then Err ValueError else
    if (seed <=? 0)%Z then Err ValueError else
    if total_is_1 cn2 then
      rw <- raw_screens d seed L0 size mx (length dists) pitch single ;;
      sc <- normal_all 0 cn2 (fst rw) ;; Ok (sizes, sc, snd rw)
    else Err ValueError
  end.
End Screens.
