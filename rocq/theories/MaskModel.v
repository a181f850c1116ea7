(* Masks: specula/lib/make_mask.py and specula/lib/mask.py.

   Coordinates and ratios are exact rationals.  A mask of zeros and ones is a matrix of booleans.  The spider arms
   (make_mask.py:75-136) are not modelled. *)
From Coq Require Import List ZArith Bool Arith QArith Qcanon.
From Verif Require Import PyBase Arith OpticalModel NpModel SlopecModel InterpModel.
Import ListNotations.
Local Open Scope Qc_scope.

Definition bmatrix := list (list bool).
Definition sq (x : Qc) : Qc := x * x.
(* a >= b *)
Definition qge (a b : Qc) : bool := negb (qlt a b).

(* numpy.argmin of a vector: the first of the smallest; ValueError when empty *)
Fixpoint argmin_from (best : Qc) (at_ pos : nat) (l : list Qc) : nat :=
  match l with
  | [] => at_
  | v :: r => if qlt v best then argmin_from v pos (S pos) r else argmin_from best at_ (S pos) r
  end.
Definition argmin (l : list Qc) : res nat := match l with [] => Err ValueError | v :: r => Ok (argmin_from v 0 1 r) end.
(* make_mask.py:3-5 *)
Definition closest (value : Qc) (l : list Qc) : res nat := argmin (map (fun a => qabs (a - value)) l).
Definition at2 (m : list (list Qc)) (i j : Z) : res Qc := r <- take1 m i ;; take1 r j.
(* make_mask.py:45-49: the x coordinate of the centre.  The first column of x is searched. *)
Definition recentre_x (x : list (list Qc)) (xc : Qc) : res Qc :=
  col <- map_res (fun r => take1 r 0%Z) x ;;
  i <- closest xc col ;;
  before <- at2 x (Z.of_nat i - 1) 0 ;; after <- at2 x (Z.of_nat i + 1) 0 ;;
  let k := if qlt (qabs (after - xc)) (qabs (before - xc)) then 1 / (1 + 1) else - (1 / (1 + 1)) in
  v <- at2 x (Z.of_nat i) 0 ;; x1 <- at2 x 1 0 ;; x0 <- at2 x 0 0 ;;
  Ok (v + k * (x1 - x0)).
(* make_mask.py:51-55: the first row of y is searched *)
Definition recentre_y (y : list (list Qc)) (yc : Qc) : res Qc :=
  row <- take1 y 0%Z ;;
  i <- closest yc row ;;
  before <- at2 y 0 (Z.of_nat i - 1) ;; after <- at2 y 0 (Z.of_nat i + 1) ;;
  let k := if qlt (qabs (after - yc)) (qabs (before - yc)) then 1 / (1 + 1) else - (1 / (1 + 1)) in
  v <- at2 y 0 (Z.of_nat i) ;; y1 <- at2 y 0 1 ;; y0 <- at2 y 0 0 ;;
  Ok (v + k * (y1 - y0)).
(* make_mask.py:60-69: one pixel *)
Definition lit_square (d ir xc yc x y : Qc) : bool :=
  negb (qlt d (qabs (x - xc))) && negb (qlt d (qabs (y - yc))) && (qge (qabs (x - xc)) (d * ir) || qge (qabs (y - yc)) (d * ir)).
Definition lit_round (d ir xc yc x y : Qc) : bool :=
  qlt (sq (x - xc) + sq (y - yc)) (sq d) && qge (sq (x - xc) + sq (y - yc)) (sq (d * ir)).
(* make_mask.py:7-73, 138-140, without spider.  None for diaratio and obsratio stands for 1 and 0 (lines 33-36). *)
Definition make_mask (n : nat) (obsratio diaratio : option Qc) (xc yc : Qc) (square inverse centeronpixel : bool) : res bmatrix :=
  let d := match diaratio with Some v => v | None => 1 end in
  let o := match obsratio with Some v => v | None => 0 end in
  g <- make_xy n 1 false false false ;;
  c <- (if centeronpixel then cx <- recentre_x (fst g) xc ;; cy <- recentre_y (snd g) yc ;; Ok (cx, cy) else Ok (xc, yc)) ;;
  let lit := (if square then lit_square else lit_round) d o (fst c) (snd c) in
  let m := map (fun rows => map (fun p => lit (fst p) (snd p)) (combine (fst rows) (snd rows))) (combine (fst g) (snd g)) in
  Ok (if inverse then map (map negb) m else m).

(* ------------------------------------------------------------------------------- mask.py *)
(* numpy.mgrid[0.5 : h + 0.5 : 1, 0.5 : w + 0.5 : 1], one coordinate (mask.py:129-130) *)
Definition centre_of (i : nat) : Qc := qz (Z.of_nat i) + 1 / (1 + 1).
(* mask.py:120-132 CircularMask: True outside.  The centre is (y, x). *)
Definition radius_of (h w : nat) (r : option Qc) : Qc := match r with Some r => r | None => qz (Z.of_nat (Nat.min h w)) / qz 2 end.
Definition centre_default (h w : nat) : Qc * Qc := (1 / (1 + 1) * qz (Z.of_nat h), 1 / (1 + 1) * qz (Z.of_nat w)).
Definition disc (h w : nat) (r : Qc) (c : Qc * Qc) : bmatrix :=
  map (fun i => map (fun j => negb (qlt (sq r) (sq (centre_of j - snd c) + sq (centre_of i - fst c)))) (seq 0 w)) (seq 0 h).
Definition not_m (m : bmatrix) : bmatrix := map (map negb) m.
Definition circular (h w : nat) (r : option Qc) (c : option (Qc * Qc)) : bmatrix :=
  not_m (disc h w (radius_of h w r) (match c with Some c => c | None => centre_default h w end)).
(* mask.py:134-144 asTransmissionValue, mask.py:317-318 in_mask_indices *)
Definition transmission_of (m : bmatrix) : bmatrix := not_m m.
Definition flat_true (l : list bool) : list nat := map fst (filter snd (combine (seq 0 (length l)) l)).
Definition in_mask_indices (m : bmatrix) : list nat := flat_true (concat (transmission_of m)).
(* mask.py:360-379 AnnularMask: self.dtype does not exist (line 366), so a centre must be given *)
Definition annular (h w : nat) (r : option Qc) (c : option (Qc * Qc)) (inner : Qc) : res bmatrix :=
  match c with
  | None => Err AttributeError
  | Some c =>
      let tmp := disc h w (radius_of h w r) c in
      if Qc_eq_dec inner 0 then Ok (not_m tmp)
      else
        let inside := transmission_of (circular h w (Some inner) (Some c)) in
        Ok (not_m (map (fun p : list bool * list bool => map (fun q : bool * bool => if snd q then false else fst q) (combine (fst p) (snd p))) (combine tmp inside)))
  end.
