(* Light through layers. *)
From Coq Require Import List ZArith Bool Arith QArith Qcanon.
From Verif Require Import Arith FilterSpec FitsModel RebinModel FieldModel FieldSpec SlopecSpec InterpSpec PropModel.
Local Open Scope Qc_scope.

(* Along one axis, in metres from the axis of the telescope: where the ray from the source
   (at [height], or at infinity, in direction theta * airmass) to the point p of the pupil crosses
   the height h. *)
Definition crossing (height : option Qc) (theta airmass h p : Qc) : Qc :=
  match height with
  | None => p + theta * airmass * h
  | Some H => p + (theta * airmass * H - p) * (h / H)
  end.
(* position in metres of pixel k of n pixels of this size, and back *)
Definition metres (n : nat) (pitch : Qc) (k : nat) : Qc := (qnat k - middle n) * pitch.
Definition pixels (n : nat) (pitch m : Qc) : Qc := m / pitch + middle n.
(* where pixel k of a pupil placed at this position is seen in a layer of L pixels *)
Definition ray (n L : nat) (pitch airmass : Qc) (height : option Qc) (theta h at_pupil : Qc) (k : nat) : Qc :=
  pixels L pitch (crossing height theta airmass h (at_pupil + metres n pitch k)).

(* What light goes through.  [L]: pixels of the side of the layer; [P]: position of the pupil
   along one axis, in metres; [extra]: a displacement in metres. *)
Section Through.
Variables (n : nat) (airmass : Qc).
(* size in the layer of a pixel of the pupil *)
Definition cone (height : option Qc) (h : Qc) : Qc := match height with None => 1 | Some H => 1 - h / H end.
(* where the ray through the centre of the pupil arrives, in pixels from the centre *)
Definition arrival (height : option Qc) (theta h P extra pitch : Qc) : Qc := (crossing height theta airmass h P + extra) / pitch.
(* where pixel k of the pupil is seen, along one axis *)
Definition spot (L : nat) (height : option Qc) (h mag shift arrives : Qc) (k : nat) : Qc :=
  (qnat k - middle n) * (cone height h / mag) + (middle L - shift) + arrives.
(* the pixels of the pupil seen through an array of L x L pixels turned about its centre;
   arrivals and shifts are (x, y) *)
Definition through (L : nat) (height : option Qc) (h mag : Qc) (rot shift arrives : Qc * Qc) (f : nat -> nat -> Qc) (a b : nat) : Qc :=
  let p := seen L L rot 1 0 0 (spot L height h mag (snd shift) (snd arrives) a) (spot L height h mag (fst shift) (fst arrives) b) in
  surface L L f (nearest L (fst p)) (nearest L (snd p)).
End Through.
Definition at_most (x y : Qc) : Prop := - y <= x /\ x <= y.

(* Layers and sources.  [pos] is the position of the pupil (x, y), used only by layers larger
   than the pupil; [chrom] the displacement of a layer along y. *)
Definition zoom (m : Qc) : Qc := if Qclt_le_dec m 1 then 1 else m.
Section Seen.
Variables (n : nat) (airmass : Qc) (pos : option (Qc * Qc)) (chrom : layer -> Qc).
Definition side (l : layer) : nat := ef_rows qc (l_ef l).
Definition place (l : layer) : Qc * Qc := match pos with Some p => if (n <? side l)%nat then p else (0, 0) | None => (0, 0) end.
Definition arrives (s : source) (l : layer) : Qc * Qc :=
  let pitch := ef_pitch qc (l_ef l) in
  (arrival airmass (s_height s) (s_r s * fst (s_dir s)) (l_height l) (fst (place l)) 0 pitch,
   arrival airmass (s_height s) (s_r s * snd (s_dir s)) (l_height l) (snd (place l)) (chrom l) pitch).
(* a square layer below the source *)
Definition good (s : source) (l : layer) : Prop :=
  sized (l_ef l) (side l) (side l) /\ ef_pitch qc (l_ef l) <> 0 /\ 0 <= l_height l /\
  (match s_height s with None => True | Some H => l_height l < H end) /\ (l_turned l = false -> l_rot l = None).
Definition inside (s : source) (l : layer) : Prop :=
  at_most (fst (arrives s l)) ((qnat (side l) - qnat n) / (1 + 1)) /\ at_most (snd (arrives s l)) ((qnat (side l) - qnat n) / (1 + 1)).
Definition seen_by (s : source) (l : layer) (f : nat -> nat -> Qc) (a b : nat) : Qc :=
  through n (side l) (s_height s) (l_height l) (zoom (l_mag l)) (angle (l_rot l)) (l_shift l) (arrives s l) f a b.

(* layers looked at through their centre *)
Definition centred (s : source) (l : layer) : Prop :=
  (l_height l = 0 \/ (s_height s = None /\ s_r s = 0)) /\ l_shift l = (0, 0) /\ pos = None /\ l_turned l = false /\ zoom (l_mag l) = 1.
End Seen.
