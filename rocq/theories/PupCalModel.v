(* Calibration of the four pupils of a pyramid: specula/processing_objects/pyr_pupdata_calibrator.py and
   dynamic_pyr_pupdata_calibrator.py.

   Simplifications.
   - Real numbers, no rounding: in particular (x - c) + c is x at lines 449-465, and frames are arrays of floats.
   - All frames have the same shape, h x w.  The mean of no values (nan) compares false with everything.
   - Files and plots are not modelled. *)
From Coq Require Import Reals List Bool Arith ZArith.
From Verif Require Import PyBase.
Import ListNotations.
Local Open Scope R_scope.

Definition image := nat -> nat -> R.
(* the pixels of a window of rows x cols, from its corner, row by row *)
Definition pixels (rows cols : nat) : list (nat * nat) := flat_map (fun i => map (fun j => (i, j)) (seq 0 cols)) (seq 0 rows).
Definition rsum (l : list R) : R := fold_right Rplus 0 l.
Definition rmean (l : list R) : R := rsum l / INR (length l).
Definition rmin_l (l : list R) : R := match l with [] => 0 | x :: r => fold_left Rmin r x end.
Definition rmax_l (l : list R) : R := match l with [] => 0 | x :: r => fold_left Rmax r x end.
Definition rltb (x y : R) : bool := if Rlt_dec x y then true else false.
Definition rleb (x y : R) : bool := if Rle_dec x y then true else false.
(* numpy.round *)
Definition round_even (x : R) : Z :=
  let f := Int_part x in
  if rltb (x - IZR f) (1 / 2) then f else if rltb (1 / 2) (x - IZR f) then (f + 1)%Z else if Z.even f then f else (f + 1)%Z.

Record settings := mkSet { c_thr1 : R; c_thr2 : R; c_obs : R; c_min : R; c_auto : bool; c_intensity : bool }.
(* x, y *)
Record pupil := mkPup { p_x : R; p_y : R; p_r : R }.

Section Frame.
Variables (h w : nat).
(* pyr_pupdata_calibrator.py:236-273: a square of dim pixels *)
Definition single (c : settings) (dim : nat) (q : image) : res pupil :=
  let px := pixels dim dim in
  let values := map (fun p => q (fst p) (snd p)) px in
  match values with
  | [] => Err ValueError
  | _ =>
      let lo := rmin_l values in let hi := rmax_l values in
      let s1 := lo + (hi - lo) * c_thr1 c in
      let thresh := fun p => let v := q (fst p) (snd p) in if rltb v s1 then 0 else v in
      let pos := filter (rltb 0) (map thresh px) in
      let mask := fun p => match pos with [] => false | _ => rleb (rmean pos * c_thr2 c) (thresh p) end in
      let lit := filter mask px in
      match lit with
      | [] => Ok (mkPup 0 0 0)
      | _ => Ok (mkPup (rmean (map (fun p => INR (snd p)) lit)) (rmean (map (fun p => INR (fst p)) lit)) (sqrt (INR (length lit) / PI)))
      end
  end.
(* pyr_pupdata_calibrator.py:211-224: rows and columns of the corners *)
Definition corners : list (nat * nat) :=
  let cy := (h / 2)%nat in let cx := (w / 2)%nat in let d := Nat.min cx cy in
  [((cy - d)%nat, (cx - d)%nat); ((cy - d)%nat, cx); (cy, (cx - d)%nat); (cy, cx)].
Definition quad_size : nat := Nat.min (w / 2) (h / 2).
(* pyr_pupdata_calibrator.py:195-234 *)
Definition analyze (c : settings) (img : image) : res (list pupil) :=
  map_res (fun o => p <- single c quad_size (fun i j => img (fst o + i)%nat (snd o + j)%nat) ;;
                    Ok (mkPup (p_x p + INR (snd o)) (p_y p + INR (fst o)) (p_r p))) corners.

Definition distance (p : pupil) (x : nat * nat) : R := sqrt ((INR (snd x) - p_x p) ^ 2 + (INR (fst x) - p_y p) ^ 2).
(* pyr_pupdata_calibrator.py:327-359 *)
Definition profile (img : image) (p : pupil) : list R :=
  map (fun i => let ring := filter (fun x => rleb (INR i / 20 * p_r p) (distance p x) && rltb (distance p x) (INR (S i) / 20 * p_r p)) (pixels h w) in
                match ring with [] => 0 | _ => rmean (map (fun x => img (fst x) (snd x)) ring) end) (seq 0 20).
(* numpy.gradient at position i *)
Definition slope (l : list R) (i : nat) : R :=
  match i with
  | O => nth 1 l 0 - nth 0 l 0
  | S k => if (S i <? length l)%nat then (nth (S i) l 0 - nth k l 0) / 2 else nth i l 0 - nth k l 0
  end.
(* numpy.argmax: first position of the maximum *)
Fixpoint argmax_from (best : R) (bi i : nat) (l : list R) : nat :=
  match l with [] => bi | x :: r => if rltb best x then argmax_from x i (S i) r else argmax_from best bi (S i) r end.
Definition argmax (l : list R) : nat := match l with [] => 0%nat | x :: r => argmax_from x 0 1 r end.
(* pyr_pupdata_calibrator.py:300-320: one pupil *)
Definition one_ratio (c : settings) (img : image) (p : pupil) : list R :=
  if rltb 0 (p_r p) then
    let l := profile img p in
    if rltb (rmean (firstn 3 l) * (3 / 2)) (rmean (skipn 17 l)) then
      let r := INR (argmax (map (slope l) (seq 0 10))) / 20 * c_obs c in
      [if rleb (c_min c) r then r else c_min c]
    else []
  else [].
(* numpy.median, of one to four values *)
Fixpoint insert (x : R) (l : list R) : list R := match l with [] => [x] | y :: r => if rleb x y then x :: l else y :: insert x r end.
Definition sorted (l : list R) : list R := fold_right insert [] l.
Definition median (l : list R) : R :=
  let s := sorted l in let n := length l in
  if Nat.even n then (nth (n / 2 - 1) s 0 + nth (n / 2) s 0) / 2 else nth (n / 2) s 0.
(* pyr_pupdata_calibrator.py:275-325 *)
Definition obstruction (c : settings) (img : image) (ps : list pupil) : R :=
  match flat_map (one_ratio c img) ps with [] => 0 | l => median l end.

(* pyr_pupdata_calibrator.py:406-410, 439-442 *)
Definition in_disc (p : pupil) (radius ratio : R) (x : nat * nat) : bool :=
  rleb (distance p x) radius && (if rltb 0 ratio then rleb (radius * ratio) (distance p x) else true).
Definition linear (x : nat * nat) : Z := Z.of_nat (fst x * w + snd x).
Definition pad (n : nat) (l : list Z) : list Z := l ++ repeat (-1)%Z (n - length l).
(* pyr_pupdata_calibrator.py:392-422: columns, each pupil by itself *)
Definition each_pupil (ratio : R) (ps : list pupil) : res (nat * list (list Z)) :=
  if forallb (fun p => rltb 0 (p_r p)) ps then
    let cols := map (fun p => map linear (filter (in_disc p (p_r p) ratio) (pixels h w))) ps in
    let n := fold_left Nat.max (map (@length Z) cols) 0%nat in
    Ok (n, map (pad n) cols)
  else Err ValueError.
(* pyr_pupdata_calibrator.py:424-491: columns, one pupil moved *)
Definition shift (ref p : pupil) : Z * Z := (round_even (p_y p - p_y ref), round_even (p_x p - p_x ref)).
Definition moved (s : Z * Z) (x : nat * nat) : Z * Z := (Z.of_nat (fst x) + fst s, Z.of_nat (snd x) + snd s)%Z.
Definition inside (y : Z * Z) : bool := ((0 <=? snd y) && (snd y <? Z.of_nat w) && (0 <=? fst y) && (fst y <? Z.of_nat h))%Z.
Definition moved_pupil (ratio : R) (ps : list pupil) : res (nat * list (list Z)) :=
  match ps with
  | [] => Err ValueError
  | ref :: _ =>
      if forallb (fun p => rltb 0 (p_r p)) ps then
        let px := filter (in_disc ref (rmax_l (map p_r ps)) ratio) (pixels h w) in
        cols <- map_res (fun p =>
                  let v := filter inside (map (moved (shift ref p)) px) in
                  match v with [] => Err ValueError | _ => Ok (pad (length px) (map (fun y => (fst y * Z.of_nat w + snd y)%Z) v)) end) ps ;;
        Ok (length px, cols)
      else Err ValueError
  end.
(* pyr_pupdata_calibrator.py:361-501: rows *)
Definition generate (c : settings) (ratio : R) (ps : list pupil) : res (list (list Z)) :=
  nc <- (if c_intensity c then each_pupil ratio ps else moved_pupil ratio ps) ;;
  let rows := map (fun r => map (fun col => nth r col (-1)%Z) (snd nc)) (seq 0 (fst nc)) in
  match filter (existsb (fun z => negb (z =? -1)%Z)) rows with [] => Err ValueError | l => Ok l end.

(* pyr_pupdata_calibrator.py:183 *)
Definition reorder {X} (d : X) (l : list X) : list X := map (fun i => nth i l d) [1; 0; 2; 3]%nat.
Record pupdata := mkPD { d_ind : list (list Z); d_pupils : list pupil; d_time : Z }.
(* integrated_pixels, central_obstruction_ratio, the output *)
Record cal := mkCal { k_sum : option image; k_ratio : R; k_out : option pupdata }.
Definition cal0 : cal := mkCal None 0 None.
(* pyr_pupdata_calibrator.py:155-159 *)
Definition add_frame (o : option image) (f : image) : image := match o with None => f | Some s => fun i j => s i j + f i j end.
(* pyr_pupdata_calibrator.py:147-193; the state is kept when an exception is raised *)
Definition trigger (c : settings) (dt : option Z) (t : Z) (frame : image) (k : cal) : cal * res unit :=
  let img := add_frame (k_sum k) frame in
  let k := mkCal (Some img) (k_ratio k) (k_out k) in
  match match dt with None => Ok true | Some d => if (d =? 0)%Z then Err ZeroDivisionError else Ok (t mod d =? 0)%Z end with
  | Err e => (k, Err e)
  | Ok false => (k, Ok tt)
  | Ok true =>
      match analyze c img with
      | Err e => (k, Err e)
      | Ok ps =>
          let ratio := if c_auto c then obstruction c img ps else k_ratio k in
          let k := mkCal (k_sum k) ratio (k_out k) in
          match generate c ratio ps with
          | Err e => (k, Err e)
          | Ok rows => (mkCal (Some (fun _ _ => 0)) ratio (Some (mkPD (map (reorder (-1)%Z) rows) (reorder (mkPup 0 0 0) ps) t)), Ok tt)
          end
      end
  end.

(* -------------------------------------------------------------- dynamic_pyr_pupdata_calibrator.py *)
Record dyn := mkDyn { y_set : settings; y_dt : option Z; y_cal : cal }.
Inductive status := StOk | StFailed (e : exn).
(* inputs received at this time: what the conversion of each value gives *)
Record dyn_in := mkIn { n_dt : option (res Z); n_thr1 : option (res R); n_thr2 : option (res R) }.
(* dynamic_pyr_pupdata_calibrator.py:126-132: a failed conversion is caught, but e.__name__ does not exist *)
Definition convert {X} (x : option (res X)) (old : X) : res X := match x with None => Ok old | Some (Ok v) => Ok v | Some (Err _) => Err AttributeError end.
(* dynamic_pyr_pupdata_calibrator.py:122-146 *)
Definition dyn_prepare (i : dyn_in) (s : dyn) : res dyn :=
  d <- convert (match n_dt i with None => None | Some (Ok v) => Some (Ok (Some v)) | Some (Err e) => Some (Err e) end) (y_dt s) ;;
  a <- convert (n_thr1 i) (c_thr1 (y_set s)) ;;
  b <- convert (n_thr2 i) (c_thr2 (y_set s)) ;;
  Ok (mkDyn (mkSet a b (c_obs (y_set s)) (c_min (y_set s)) (c_auto (y_set s)) (c_intensity (y_set s))) d (y_cal s)).
(* dynamic_pyr_pupdata_calibrator.py:148-155 *)
Definition dyn_trigger (t : Z) (frame : image) (s : dyn) : res (dyn * status) :=
  let kr := trigger (y_set s) (y_dt s) t frame (y_cal s) in
  let s := mkDyn (y_set s) (y_dt s) (fst kr) in
  match snd kr with
  | Ok _ => Ok (s, StOk)
  | Err ValueError => Ok (s, StFailed ValueError)
  | Err TypeError => Ok (s, StFailed TypeError)
  | Err e => Err e
  end.
(* dynamic_pyr_pupdata_calibrator.py:157-173, without saving: the parameters published, dt in units of time *)
Definition dyn_post (s : dyn) (st : status) : res (Z * R * R * status) :=
  match y_dt s with None => Err TypeError | Some d => Ok (d, c_thr1 (y_set s), c_thr2 (y_set s), st) end.
(* one step *)
Definition dyn_step (t : Z) (i : dyn_in) (frame : image) (s : dyn) : res (dyn * (Z * R * R * status)) :=
  s <- dyn_prepare i s ;; ss <- dyn_trigger t frame s ;; o <- dyn_post (fst ss) (snd ss) ;; Ok (fst ss, o).
End Frame.
