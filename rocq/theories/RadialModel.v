(* Radial profiles, width at half maximum and encircled energy: specula/lib/radial_profile.py, and their use by the
   PSF object, specula/processing_objects/psf.py.

   Numbers are exact rationals.  The square root is a parameter, [root].  An image of h rows and w columns is a function
   of row and column.  nan is None.  Arrays that do not have the required number of dimensions are not represented
   (lines 32-33, 72-73, 118-119, 178-179: ValueError). *)
From Coq Require Import List ZArith Bool Arith QArith Qcanon Qround.
From Verif Require Import PyBase Arith OpticalModel NpModel SlopecModel InterpModel ScreenModel.
Import ListNotations.
Local Open Scope Qc_scope.

Definition two : Qc := 1 + 1.
Fixpoint lsum (l : list Qc) : Qc := match l with [] => 0 | x :: r => x + lsum r end.

(* radial_profile.py:35-47: distance to the centre and value of every pixel, row by row *)
Definition samples (root : Qc -> Qc) (h w : nat) (img : nat -> nat -> Qc) (cy cx : option Qc) : list (Qc * Qc) :=
  let cx := match cx with Some c => c | None => qn w / two end in
  let cy := match cy with Some c => c | None => qn h / two end in
  flat_map (fun i => map (fun j => (root ((qn j - cx) * (qn j - cx) + (qn i - cy) * (qn i - cy)), img i j)) (seq 0 w)) (seq 0 h).
(* radial_profile.py:45.  Distances are not negative. *)
Definition bin (p : Qc * Qc) : nat := Z.to_nat (qfloor (fst p)).
Definition in_bin (k : nat) (l : list (Qc * Qc)) : list (Qc * Qc) := filter (fun p => (bin p =? k)%nat) l.
(* numpy.bincount: one more entry than the largest value, none for an empty array *)
Definition nbins (l : list (Qc * Qc)) : nat := match l with [] => 0%nat | _ => S (list_max (map bin l)) end.
(* radial_profile.py:56: the bins that have a pixel *)
Definition valid_bins (l : list (Qc * Qc)) : list nat := filter (fun k => (0 <? length (in_bin k l))%nat) (seq 0 (nbins l)).
Definition mean (l : list Qc) : Qc := lsum l / qn (length l).
(* radial_profile.py:51-65: profile, distances, counts *)
Definition profile_of (l : list (Qc * Qc)) : list Qc * list Qc * list nat :=
  (map (fun k => mean (map snd (in_bin k l))) (valid_bins l), map (fun k => mean (map fst (in_bin k l))) (valid_bins l),
   map (fun k => length (in_bin k l)) (valid_bins l)).
Definition compute_radial_profile (root : Qc -> Qc) (h w : nat) (img : nat -> nat -> Qc) (cy cx : option Qc) : list Qc * list Qc * list nat :=
  profile_of (samples root h w img cy cx).

Definition arange (n : nat) : list Qc := map qn (seq 0 n).
(* radial_profile.py:69-107 *)
Definition compute_fwhm (p : list Qc) (r : option (list Qc)) : res (option Qc) :=
  let r := match r with Some r => r | None => arange (length p) end in
  if negb (length r =? length p)%nat then Err ValueError
  else if (length p =? 0)%nat then Ok None
  else
    let peak := lmax p in
    if negb (qlt 0 peak) then Ok (Some 0)
    else
      let half := peak / two in
      match filter (fun i => (0 <? i)%nat) (filter (fun i => negb (qlt half (nth i p 0))) (seq 0 (length p))) with
      | [] => Ok None
      | idx :: _ =>
          let r1 := nth (idx - 1) r 0 in let r2 := nth idx r 0 in
          let p1 := nth (idx - 1) p 0 in let p2 := nth idx p 0 in
          Ok (Some (two * (if Qc_eq_dec (p2 - p1) 0 then r1 else r1 + (half - p1) * (r2 - r1) / (p2 - p1))))
      end.

Definition qmax (a b : Qc) : Qc := if qlt a b then b else a.
(* radial_profile.py:140-148: the borders between the bins *)
Fixpoint midpoints (l : list Qc) : list Qc := match l with a :: ((b :: _) as r) => (b + a) / two :: midpoints r | _ => [] end.
Definition outer_last (r : list Qc) : Qc := last r 0 + (last r 0 - last (midpoints r) 0).
(* radial_profile.py:149 *)
Definition annulus (r : list Qc) : list Qc :=
  let inner := 0 :: midpoints r in let outer := midpoints r ++ [outer_last r] in
  map (fun p => qmax (fst p * fst p - snd p * snd p) 0) (combine outer inner).
Definition times (a b : list Qc) : list Qc := map (fun p => fst p * snd p) (combine a b).
(* radial_profile.py:120-158: the energy of each bin.  A number of pixels is converted to a float. *)
Definition bin_energy (p : list Qc) (counts : option (list Qc)) (r : option (list Qc)) : res (list Qc) :=
  match counts with
  | Some n => if (length n =? length p)%nat then Ok (times p n) else Err ValueError
  | None =>
      let r' := match r with Some r => r | None => arange (length p) end in
      if negb (length r' =? length p)%nat then Err ValueError
      else match p with
           | [] => Ok []
           | [x] => let o := qmax (nth 0 r' 0) (1 / two) in Ok [x * (o * o)]
           | _ => Ok (times p (annulus r'))
           end
  end.
Fixpoint cumsum (acc : Qc) (l : list Qc) : list Qc := match l with [] => [] | x :: r => acc + x :: cumsum (acc + x) r end.
(* radial_profile.py:160-165 *)
Definition accumulate (normalize : bool) (e : list Qc) : list Qc :=
  let c := cumsum 0 e in
  if normalize then (if Qc_eq_dec (last c 0) 0 then c else map (fun x => x / last c 0) c) else c.
Definition compute_encircled_energy (p : list Qc) (counts r : option (list Qc)) (normalize : bool) : res (list Qc) :=
  e <- bin_energy p counts r ;; Ok (accumulate normalize e).

(* numpy.searchsorted, side left, in a sorted array: the first entry that is not smaller *)
Fixpoint searchsorted (l : list Qc) (x : Qc) : nat := match l with [] => 0%nat | y :: r => if qlt y x then S (searchsorted r x) else 0%nat end.
(* numpy.clip: the upper bound wins *)
Definition clip (lo hi i : nat) : nat := Nat.min (Nat.max lo i) hi.
(* radial_profile.py:168-207, one requested distance.  The index -1 of an array of one entry is never used. *)
Definition energy_at (ee r : list Qc) (d : Qc) : res (option Qc) :=
  if negb (length r =? length ee)%nat then Err ValueError
  else if (length r =? 0)%nat then Ok None
  else
    let last_ := (length r - 1)%nat in
    let idx := clip 0 last_ (searchsorted r d) in
    let right := clip 1 last_ idx in let left := (right - 1)%nat in
    let r1 := nth left r 0 in let r2 := nth right r 0 in let e1 := nth left ee 0 in let e2 := nth right ee 0 in
    let v := if ((0 <? idx) && (idx <? length r))%nat && negb (if Qc_eq_dec (r2 - r1) 0 then true else false)
             then e1 + (d - r1) * (e2 - e1) / (r2 - r1) else nth idx ee 0 in
    let v := if negb (qlt (nth 0 r 0) d) then nth 0 ee 0 else v in
    Ok (Some (if negb (qlt d (nth last_ r 0)) then nth last_ ee 0 else v)).

(* psf.py:196-213: profile, distances in units of lambda/D, counts *)
Definition flat (h w : nat) (img : nat -> nat -> Qc) : list Qc := flat_map (fun i => map (fun j => img i j) (seq 0 w)) (seq 0 h).
Definition normalised (h w : nat) (psf : nat -> nat -> Qc) : nat -> nat -> Qc :=
  let peak := lmax (flat h w psf) in if negb (qlt 0 peak) then fun _ _ => 0 else fun i j => psf i j / peak.
Definition profile_data (root : Qc -> Qc) (h w : nat) (nd : Qc) (psf : nat -> nat -> Qc) : list Qc * list Qc * list nat :=
  match compute_radial_profile root h w (normalised h w psf) None None with (p, r, n) => (p, map (fun x => x / nd) r, n) end.
(* psf.py:215-233: profile, distances, width, encircled energy, and its value at each requested radius.
   There is no maximum of an image without pixels (line 200: ValueError). *)
Definition profile_metrics (root : Qc -> Qc) (h w : nat) (nd : Qc) (radii : option (list Qc)) (psf : nat -> nat -> Qc) :
    res (list Qc * list Qc * option Qc * list Qc * option (list (option Qc))) :=
  if ((h =? 0) || (w =? 0))%nat then Err ValueError
  else match profile_data root h w nd psf with
  | (p, r, n) =>
      f <- compute_fwhm p (Some r) ;;
      ee <- compute_encircled_energy p (Some (map qn n)) None true ;;
      at_ <- match radii with None => Ok None | Some l => v <- map_res (energy_at ee r) l ;; Ok (Some v) end ;;
      Ok (p, r, f, ee, at_)
  end.
