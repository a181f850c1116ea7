(* What the slope computers should compute. *)
From Coq Require Import List ZArith Bool PeanoNat QArith Qcanon.
From Verif Require Import Arith FilterSpec.
Import ListNotations.

(* sum of f 0 .. f (n-1) *)
Definition qsum (n : nat) (f : nat -> Qc) : Qc := sumn (A:=qc) n f.
Definition qnat (n : nat) : Qc := Q2Qc (inject_Z (Z.of_nat n)).
Definition positive_part (x : Qc) : Qc := if Qclt_le_dec 0%Qc x then x else 0%Qc.
Definition absolute (x : Qc) : Qc := if Qclt_le_dec x 0%Qc then (- x)%Qc else x.

(* Four pixel indices per sub-aperture, all of them inside the frame *)
Definition four_pupils (ind : list (list Z)) (npix : nat) : Prop :=
  forall r, In r ind -> length r = 4%nat /\ forall i, In i r -> (0 <= i < Z.of_nat npix)%Z.

(* The light of sub-aperture i in pupil k, above the threshold *)
Definition light (ind : list (list Z)) (pix : list Qc) (thr : Qc) (k i : nat) : Qc :=
  positive_part (nth (Z.to_nat (nth k (nth i ind []) 0%Z)) pix 0%Qc - thr)%Qc.
(* all the light of sub-aperture i, and of the frame *)
Definition light4 ind pix thr i : Qc :=
  (light ind pix thr 0 i + light ind pix thr 1 i + light ind pix thr 2 i + light ind pix thr 3 i)%Qc.
Definition total_light (ind : list (list Z)) (pix : list Qc) (thr : Qc) : Qc :=
  qsum (length ind) (light4 ind pix thr).

(* The pyramid signals of sub-aperture i, not normalised *)
Definition pyr_x ind pix thr i : Qc :=
  (light ind pix thr 0 i + light ind pix thr 1 i - light ind pix thr 2 i - light ind pix thr 3 i)%Qc.
Definition pyr_y ind pix thr i : Qc :=
  (light ind pix thr 1 i + light ind pix thr 2 i - light ind pix thr 0 i - light ind pix thr 3 i)%Qc.
Definition roof_x ind pix thr i : Qc := (light ind pix thr 0 i - light ind pix thr 1 i)%Qc.
Definition roof_y ind pix thr i : Qc := (light ind pix thr 3 i - light ind pix thr 2 i)%Qc.
