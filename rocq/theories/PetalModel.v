(* specula/lib/compute_petal_ifunc.py: influence functions of a mirror of petals.

   Real numbers, no rounding.  The mask is the array after lines 52-59: the one given, or the one of make_mask.
   numpy.arctan2 is an argument.  A mask of one row or one column, which numpy would repeat, is refused here. *)
From Coq Require Import Reals List Bool Arith.
From Verif Require Import PyBase.
Import ListNotations.
Local Open Scope R_scope.

Definition image := nat -> nat -> R.
(* the pixels of a square array, row by row *)
Definition pixels (dim : nat) : list (nat * nat) := flat_map (fun i => map (fun j => (i, j)) (seq 0 dim)) (seq 0 dim).
Definition at_ (f : image) (p : nat * nat) : R := f (fst p) (snd p).
(* the remainder of Python, for a positive divisor *)
Definition remainder (x m : R) : R := x - m * IZR (Int_part (x / m)).
(* numpy mean, standard deviation *)
Definition total (l : list R) : R := fold_right Rplus 0 l.
Definition mean (l : list R) : R := total l / INR (length l).
Definition std (l : list R) : R := sqrt (mean (map (fun v => (v - mean l) ^ 2) l)).

Section Petals.
Variable atan2 : R -> R -> R.
Variables (dim n : nat) (angle_offset : R) (mask : image) (special : bool).
(* compute_petal_ifunc.py:62-65 *)
Definition coord (i : nat) : R := INR i - INR dim / 2.
(* compute_petal_ifunc.py:68, 71 *)
Definition theta (i j : nat) : R := remainder (atan2 (coord i) (coord j) + angle_offset * (PI / 180) + 2 * PI) (2 * PI).
(* compute_petal_ifunc.py:74 *)
Definition petal_angle : R := 2 * PI / INR n.
Definition within (a b x : R) (either : bool) : bool :=
  let lo := if Rle_dec a x then true else false in let hi := if Rlt_dec x b then true else false in if either then lo || hi else lo && hi.
(* compute_petal_ifunc.py:77-95 *)
Definition petal (k : nat) : image := fun i j =>
  if within (INR k * petal_angle) ((INR k + 1) * petal_angle) (theta i j) ((k =? n - 1)%nat && special) then mask i j else 0.
(* compute_petal_ifunc.py:112 *)
Definition lit (k : nat) : list (nat * nat) := filter (fun p => if Rlt_dec 0 (at_ (petal k) p) then true else false) (pixels dim).
(* compute_petal_ifunc.py:108-125: a gradient on one petal *)
Definition gradient (c : nat * nat -> R) (k : nat) : image := fun i j =>
  let raw := fun p => c p * at_ (petal k) p in
  let values := map raw (lit k) in
  if Rlt_dec 0 (petal k i j) then (raw (i, j) - mean values) / (if Req_EM_T (std values) 0 then 1 else std values) else raw (i, j).
Definition tip (k : nat) : image := gradient (fun p => coord (snd p)) k.
Definition tilt (k : nat) : image := gradient (fun p => coord (fst p)) k.
(* compute_petal_ifunc.py:97-125: the cube *)
Definition modes (add_tilts : bool) : list image :=
  map petal (seq 0 n) ++ (if add_tilts then map tip (seq 0 n) ++ map tilt (seq 0 n) else []).
Definition nz (x : R) : bool := if Req_EM_T x 0 then false else true.
(* compute_petal_ifunc.py:52-59: idx *)
Definition idx : list (nat * nat) := filter (fun p => nz (at_ mask p)) (pixels dim).
(* compute_petal_ifunc.py:131-136 *)
Definition centre (k : nat) : R * R :=
  let w := filter (fun p => nz (at_ (petal k) p)) (pixels dim) in
  match w with [] => (0, 0) | _ => (mean (map (fun p => INR (snd p)) w), mean (map (fun p => INR (fst p)) w)) end.
(* compute_petal_ifunc.py:5-138, for a mask of rows x cols *)
Definition compute_petal_ifunc (rows cols : nat) (add_tilts : bool) : res (list (list R) * list (R * R)) :=
  if (n =? 0)%nat then Err ZeroDivisionError else
  if negb ((rows =? dim)%nat && (cols =? dim)%nat) then Err ValueError else
  Ok (map (fun f => map (at_ f) idx) (modes add_tilts), map centre (seq 0 n)).
End Petals.
