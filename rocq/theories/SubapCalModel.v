(* Calibration of the sub-apertures of a Shack-Hartmann sensor: specula/processing_objects/sh_subap_calibrator.py.

   Simplifications.
   - Exact rationals; in particular the limits of the sub-apertures, which the code computes in floating point from
     the coordinates of the lenslets, are exact fractions here.
   - The number of lenslets is not negative.  Writing the file is not modelled, apart from its name. *)
From Coq Require Import String List ZArith Bool Arith QArith Qcanon.
From Verif Require Import PyBase OpticalModel CalFileModel.
Import ListNotations.

(* round(a / b), to even in case of a tie, for a positive b *)
Definition rnd (a b : Z) : Z :=
  let q := (a / b)%Z in let r := (a mod b)%Z in
  if (2 * r <? b)%Z then q else if (b <? 2 * r)%Z then (q + 1)%Z else if Z.even q then q else (q + 1)%Z.
Fixpoint qsum (l : list Qc) : Qc := match l with [] => 0%Qc | x :: r => (x + qsum r)%Qc end.
Definition qmax2 (x y : Qc) : Qc := if qlt x y then y else x.
Definition qmax (l : list Qc) : Qc := match l with [] => 0%Qc | x :: r => fold_left qmax2 r x end.

Definition image := nat -> nat -> Qc.
(* subap_data.py:21-52 *)
Record subapdata := mkSub { s_idxs : list (list Z); s_map : list nat; s_n : nat; s_th : Qc }.

(* sh_subap_calibrator.py:31-37: tag_template, output_tag *)
Definition calibrator_name (template output : option string) : res string :=
  let auto := match output with None => true | Some s => String.eqb s "auto" end in
  match template with
  | None => if auto then Err ValueError else match output with Some s => Ok s | None => Err ValueError end
  | Some t => if auto then Ok t else match output with Some s => Ok s | None => Ok t end
  end.
(* sh_subap_calibrator.py:69-74: the file, in the directory of the data *)
Definition file_name (name : string) : string := fits_name name.
(* sh_subap_calibrator.py:52-67: the image used; an Intensity or a Pixels object *)
Definition choose {X} (in_i in_pixels : option X) : res X :=
  match in_i, in_pixels with
  | None, None => Err ValueError
  | Some _, Some _ => Err ValueError
  | Some x, None => Ok x
  | None, Some x => Ok x
  end.

Section Detect.
Variables (n rows cols : nat).
Let N := Z.of_nat n.
Let R := Z.of_nat rows.
(* sh_subap_calibrator.py:92; lenslet.py:43: the size is 2 / n *)
Definition np_sub : Z := rnd R N.
(* sh_subap_calibrator.py:90-91, lenslet.py:37-49, make_xy.py:157-161: twice n times the coordinate of lenslet k is
   rows * (2 k + 1); sh_subap_calibrator.py:95-96: limits of the slices *)
Definition first (k : nat) : Z := rnd (R * (2 * Z.of_nat k + 1) - np_sub * N) (2 * N).
Definition last (k : nat) : Z := rnd (R * (2 * Z.of_nat k + 1) + np_sub * N) (2 * N).
(* a[i:j] of a sequence of len elements *)
Definition clip (len z : Z) : Z := if (z <? 0)%Z then Z.max 0 (z + len) else Z.min z len.
Definition span (len : nat) (a b : Z) : list nat :=
  let a := clip (Z.of_nat len) a in let b := clip (Z.of_nat len) b in seq (Z.to_nat a) (Z.to_nat (b - a)).
(* sh_subap_calibrator.py:94-96: pixels where the mask is 1, row by row.  x, the coordinate of the second index of the
   lenslet, is used for the rows. *)
Definition square (i j : nat) : list (nat * nat) := list_prod (span rows (first j) (last j)) (span cols (first i) (last i)).
(* sh_subap_calibrator.py:98 *)
Definition spot (img : image) (ij : nat * nat) : Qc := qsum (map (fun p => img (fst p) (snd p)) (square (fst ij) (snd ij))).
Definition lenslets : list (nat * nat) := list_prod (seq 0 n) (seq 0 n).
(* sh_subap_calibrator.py:100-109 *)
Definition selected (th : Qc) (img : image) : list (nat * nat) :=
  let top := qmax (map (spot img) lenslets) in filter (fun ij => qlt (th * top)%Qc (spot img ij)) lenslets.
(* sh_subap_calibrator.py:114, 117: assignment of a row, which repeats a single value *)
Definition assign (m : Z) (l : list Z) : res (list Z) :=
  if (Z.of_nat (length l) =? m * m)%Z then Ok l else match l with [z] => Ok (repeat z (Z.to_nat (m * m))) | _ => Err ValueError end.
Definition ravel (p : nat * nat) : Z := (Z.of_nat (fst p) * Z.of_nat cols + Z.of_nat (snd p))%Z.
(* sh_subap_calibrator.py:77-123; lenslet.py:43 divides by n *)
Definition detect (th : Qc) (img : image) : res subapdata :=
  if (n =? 0)%nat then Err ZeroDivisionError else
  match selected th img with
  | [] => Err ValueError
  | sel => v <- map_res (fun ij => assign np_sub (map ravel (square (fst ij) (snd ij)))) sel ;;
           Ok (mkSub v (map (fun ij => (snd ij * n + fst ij)%nat) sel) n th)
  end.
End Detect.

(* subap_data.py:62-65: rows of the mask; nx is ny *)
Definition single_mask (s : subapdata) : list (list bool) :=
  map (fun a => map (fun b => existsb (Nat.eqb (a * s_n s + b)) (s_map s)) (seq 0 (s_n s))) (seq 0 (s_n s)).
