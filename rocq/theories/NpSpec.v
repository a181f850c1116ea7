(* Documented meaning of Python slices and indices. *)
From Coq Require Import List ZArith Bool.
From Verif Require Import PyBase NpModel.
Import ListNotations.
Local Open Scope Z_scope.

(* A bound of a slice over [n] elements: negative values count from the end, and values
   out of range are moved to the nearest end. *)
Definition slice_bound (n lowest highest default : Z) (v : option Z) : Z :=
  match v with
  | None => default
  | Some v => Z.max lowest (Z.min highest (if v <? 0 then v + n else v))
  end.

(* The slice start:stop:step of a vector of [n] elements consists of the positions [ps]:
   first + i*step for all i for which this lies before the last bound. *)
Definition slice_selects (s : pyslice) (n : Z) (ps : list Z) : Prop :=
  let step := match sl_step s with Some k => k | None => 1 end in
  (0 < step /\
   let first := slice_bound n 0 n 0 (sl_start s) in
   let last := slice_bound n 0 n n (sl_stop s) in
   (forall i, (i < length ps)%nat -> nth i ps 0 = first + Z.of_nat i * step) /\
   (forall i, (i < length ps)%nat <-> first + Z.of_nat i * step < last)) \/
  (step < 0 /\
   let first := slice_bound n (-1) (n - 1) (n - 1) (sl_start s) in
   let last := slice_bound n (-1) (n - 1) (-1) (sl_stop s) in
   (forall i, (i < length ps)%nat -> nth i ps 0 = first + Z.of_nat i * step) /\
   (forall i, (i < length ps)%nat <-> last < first + Z.of_nat i * step)).

(* Index [i] denotes position [p]. *)
Definition denotes (n i p : Z) : Prop := 0 <= p < n /\ (i = p \/ i = p - n).

(* [out] consists of the elements of [l] at positions [ps] *)
Definition elements_at {V} (l : list V) (ps : list Z) (out : list V) : Prop :=
  length out = length ps /\
  forall i p, nth_error ps i = Some p -> 0 <= p < Z.of_nat (length l) /\ nth_error out i = nth_error l (Z.to_nat p).
