(* What the pupil images of a pyramid sensor should be. *)
From Coq Require Import Reals List ZArith Bool Arith.
From Verif Require Import PyBase Fourier PsfModel ShImageModel PyrModel.
Import ListNotations.
Local Open Scope R_scope.

(* the light that p x p samples of a field send in direction (x, y), in units of wavelength / (F samples) *)
Definition ray (F p : nat) (u : field) (x y : R) : C := csum2 p p (fun a b => cmul (u a b) (cis (- (2 * PI * (INR a * x + INR b * y) / INR F)))).
(* pixel k of the focal plane: the centre of the plane is between pixels F/2 - 1 and F/2 *)
Definition at_pixel (F k : nat) : R := INR k - INR F / 2 + / 2.
(* a point of the modulation moves the light by this number of pixels, for a tilt of one *)
Definition step_px (F p : nat) : R := INR F / (INR p - 1).
(* the light on pixel (k, l) of the focal plane, at one point of the modulation *)
Definition arriving (F p : nat) (u : field) (s : point) (k l : nat) : C := ray F p u (at_pixel F k + m_y s * step_px F p) (at_pixel F l + m_x s * step_px F p).
(* the field in the pupil plane behind the prism: the optical path grows with the distance from the edges of the prism *)
Definition behind (F p : nat) (scale : R) (mask : image) (u : field) (s : point) (x y : R) : C :=
  cmul (creal (/ INR F * / INR F)) (csum2 F F (fun k l => cmul (cmul (arriving F p u s k l) (creal (mask k l)))
    (cis (2 * PI * ((Rabs (at_pixel F k) + Rabs (at_pixel F l)) / scale + (at_pixel F k * x + at_pixel F l * y) / INR F))))).
(* the part that went through one face: the second half of the rows or of the columns of the focal plane, or the first *)
Definition face_field (F p : nat) (mask : image) (u : field) (s : point) (low right : bool) (x y : R) : C :=
  let k := fun k => if low then (F / 2 + k)%nat else k in let l := fun l => if right then (F / 2 + l)%nat else l in
  cmul (creal (/ INR F * / INR F)) (csum2 (F / 2) (F / 2) (fun i j => cmul (cmul (arriving F p u s (k i) (l j)) (creal (mask (k i) (l j))))
    (cis (2 * PI * ((at_pixel F (k i) * x + at_pixel F (l j) * y) / INR F))))).
Definition image_of (y : pyr) (u : field) : image := fun r c =>
  wsum (y_mod y) (fun s => abs2 (behind (y_tot y) (y_p y) (y_scale y) (y_mask y) u s (INR r - INR (y_pad y / 2)) (INR c - INR (y_pad y / 2)))).

Record sound (y : pyr) : Prop := mkSound { sound_p : (2 <= y_p y)%nat; sound_tot : (y_p y + y_pad y = y_tot y)%nat; sound_even : (Nat.even (y_tot y) = true); sound_pad : Nat.even (y_pad y) = true }.
Definition with_mod (y : pyr) (l : list point) : pyr := mkPyr (y_p y) (y_pad y) (y_tot y) (y_scale y) (y_mask y) l.
Definition with_mask (y : pyr) (m : image) : pyr := mkPyr (y_p y) (y_pad y) (y_tot y) (y_scale y) m (y_mod y).
Definition light (p : nat) (u : field) : R := rsum2 p p (fun a b => abs2 (u a b)).
Definition binary (F : nat) (m : image) : Prop := forall k l, (k < F)%nat -> (l < F)%nat -> m k l = 0 \/ m k l = 1.
(* mirrors of a square array, and of a list of points *)
Definition columns_mirrored {X} (n : nat) (a : nat -> nat -> X) : nat -> nat -> X := fun r c => a r (n - 1 - c)%nat.
Definition rows_mirrored {X} (n : nat) (a : nat -> nat -> X) : nat -> nat -> X := fun r c => a (n - 1 - r)%nat c.
Definition transposed {X} (a : nat -> nat -> X) : nat -> nat -> X := fun r c => a c r.
Definition same_on {X} (n : nat) (a b : nat -> nat -> X) : Prop := forall r c, (r < n)%nat -> (c < n)%nat -> a r c = b r c.
Definition point_columns (s : point) : point := mkPoint (- m_x s) (m_y s) (m_w s).
Definition point_rows (s : point) : point := mkPoint (m_x s) (- m_y s) (m_w s).
Definition point_transposed (s : point) : point := mkPoint (m_y s) (m_x s) (m_w s).
Definition unchanged_by (g : point -> point) (l : list point) : Prop := forall f, wsum (map g l) f = wsum l f.
Definition positive_weights (l : list point) : Prop := l <> [] /\ forall s, In s l -> 0 < m_w s.
