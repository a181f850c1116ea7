(* What a Shack-Hartmann slope computer should compute. *)
From Coq Require Import List ZArith Bool PeanoNat QArith Qcanon.
From Verif Require Import Arith FilterSpec SlopecSpec AccSpec.
Import ListNotations.

(* The pixel with flat index i of a frame with nc columns *)
Definition pixel (frame : list (list Qc)) (nc : Z) (i : Z) : Qc :=
  nth (Z.to_nat (i mod nc)) (nth (Z.to_nat (i / nc)) frame []) 0%Qc.
Definition rectangular (frame : list (list Qc)) (nr nc : Z) : Prop :=
  Z.of_nat (length frame) = nr /\ (0 < nc)%Z /\ forall r, In r frame -> Z.of_nat (length r) = nc.
(* np * np pixels per sub-aperture, all inside the frame *)
Definition subaps_ok (idxs : list (list Z)) (np : nat) (nr nc : Z) : Prop :=
  idxs <> [] /\ forall idx, In idx idxs -> length idx = (np * np)%nat /\ forall i, In i idx -> (0 <= i < nr * nc)%Z.

(* Pixel j of sub-aperture s *)
Definition subap_pixel (idxs : list (list Z)) (frame : list (list Qc)) (nc : Z) (s j : nat) : Qc :=
  pixel frame nc (nth j (nth s idxs []) 0%Z).

(* In what follows [px s j] is the value of pixel j of sub-aperture s.  Its part above the
   threshold; thresholds below zero do not count *)
Definition spot (px : nat -> nat -> Qc) (thr : Qc) (s j : nat) : Qc := positive_part (px s j - positive_part thr)%Qc.

(* The centre of column (or row) k of a sub-aperture whose side goes from -1 to 1 *)
Definition centre (np k : nat) : Qc := ((qnat (2 * k + 1) - qnat np) / qnat np)%Qc.
Fixpoint power (x : Qc) (e : nat) : Qc := match e with O => 1%Qc | S e => (x * power x e)%Qc end.
(* its power with the sign kept *)
Definition signed_power (x : Qc) (e : nat) : Qc :=
  if Qclt_le_dec 0%Qc x then power x e else (- power (absolute x) e)%Qc.
Definition weight (mask : option (list Qc)) (j : nat) : Qc := match mask with Some m => nth j m 0%Qc | None => 1%Qc end.

(* Weighted light of sub-aperture s, and its mean over n sub-apertures *)
Definition subap_light np px thr mask s : Qc := qsum (np * np) (fun j => spot px thr s j * weight mask j)%Qc.
Definition mean_light n np px thr mask : Qc := (qsum n (subap_light np px thr mask) / qnat n)%Qc.
(* Weighted moment along the columns, and along the rows *)
Definition moment_x np px thr mask e s : Qc :=
  qsum (np * np) (fun j => spot px thr s j * (signed_power (centre np (j mod np)) e * weight mask j))%Qc.
Definition moment_y np px thr mask e s : Qc :=
  qsum (np * np) (fun j => spot px thr s j * (signed_power (centre np (j / np)) e * weight mask j))%Qc.

(* Enough light: at least a thousandth of the mean *)
Definition lit n np px thr mask s : bool :=
  if Qclt_le_dec (subap_light np px thr mask s) (mean_light n np px thr mask * Q2Qc (1 # 1000))%Qc then false else true.

(* The centroid: the moment over the light, zero without enough light *)
Definition slope_x n np px thr mask e s : Qc :=
  if lit n np px thr mask s then (moment_x np px thr mask e s / subap_light np px thr mask s)%Qc else 0%Qc.
Definition slope_y n np px thr mask e s : Qc :=
  if lit n np px thr mask s then (moment_y np px thr mask e s / subap_light np px thr mask s)%Qc else 0%Qc.

(* least and greatest of m values *)
Definition is_min (m : nat) (a : nat -> Qc) (x : Qc) : Prop := (exists j, (j < m)%nat /\ a j = x) /\ forall j, (j < m)%nat -> (x <= a j)%Qc.
Definition is_max (m : nat) (a : nat -> Qc) (x : Qc) : Prop := (exists j, (j < m)%nat /\ a j = x) /\ forall j, (j < m)%nat -> (a j <= x)%Qc.

(* The weights [w] of the m pixels of a sub-aperture from the accumulated pixels [a]: the
   values rescaled so that they go from 0 to 1, or, with a window threshold, 1 where the
   pixel or the one opposite to it exceeds the minimum by the threshold and 0 elsewhere; all
   ones if the accumulated pixels are equal *)
Definition weights_from (window : option Qc) (m : nat) (a w : nat -> Qc) : Prop :=
  exists lo hi, is_min m a lo /\ is_max m a hi /\
    if Qclt_le_dec lo hi then
      match window with
      | None => forall j, (j < m)%nat -> w j = ((a j - lo) / (hi - lo))%Qc
      | Some thr => forall j, (j < m)%nat ->
          ((thr <= a j - lo)%Qc \/ (thr <= a (m - 1 - j)%nat - lo)%Qc -> w j = 1%Qc) /\
          (~ (thr <= a j - lo)%Qc /\ ~ (thr <= a (m - 1 - j)%nat - lo)%Qc -> w j = 0%Qc)
      end
    else forall j, (j < m)%nat -> w j = 1%Qc.

(* Pixel j of sub-aperture s in the sum of some frames *)
Definition summed_pixel (idxs : list (list Z)) (nc : Z) (cur : list (Z * list (list Qc))) (s j : nat) : Qc :=
  qsum (length cur) (fun k => subap_pixel idxs (snd (nth k cur (0%Z, []))) nc s j).

(* The weights in force after some frames: ones until the first window ends, and then those
   of the last complete window; always ones if nothing is accumulated *)
Definition weights_in_force (dt : Z) (window : option Qc) (idxs : list (list Z)) (np : nat) (nc : Z)
    (frames : list (Z * list (list Qc))) (w : nat -> nat -> Qc) : Prop :=
  (((dt <= 0)%Z \/ forall x, In x frames -> ~ window_end dt (fst x)) /\
   forall s j, (s < length idxs)%nat -> (j < np * np)%nat -> w s j = 1%Qc) \/
  ((0 < dt)%Z /\ exists f x r cur, frames = f ++ x :: r /\ window_end dt (fst x) /\ (forall y, In y r -> ~ window_end dt (fst y)) /\
   current_window dt (f ++ [x]) cur /\
   forall s, (s < length idxs)%nat -> weights_from window (np * np) (summed_pixel idxs nc cur s) (w s)).
