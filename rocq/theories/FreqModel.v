(* Spatial frequencies of phase screens: specula/lib/calc_spatialfrequency.py and the shift of
   specula/lib/calc_phasescreen.py that brings them to the order of the Fourier transform.

   Simplifications: entries are exact integers; the type of the numbers (precision) is not represented. *)
From Coq Require Import List ZArith Bool Arith.
From Verif Require Import PyBase.
Import ListNotations.
Local Open Scope Z_scope.

Record arr := mkArr { nr : nat; nc : nat; el : nat -> nat -> Z }.
Definition zeros (r c : Z) : res arr := if (r <? 0) || (c <? 0) then Err ValueError else Ok (mkArr (Z.to_nat r) (Z.to_nat c) (fun _ _ => 0)).
(* numpy.rot90, k times *)
Definition rot1 (a : arr) : arr := mkArr (nc a) (nr a) (fun i j => el a j (nc a - 1 - i)%nat).
Definition rot90 (a : arr) (k : nat) : arr := Nat.iter k rot1 a.
(* a[r:, c:] *)
Definition from (r c : nat) (a : arr) : arr := mkArr (nr a - r) (nc a - c) (fun i j => el a (i + r) (j + c)).
(* slices k: and :k of n elements; k may be -1 *)
Definition starts (n : nat) (k : Z) : nat := if k <? 0 then (n - Z.to_nat (- k))%nat else Nat.min n (Z.to_nat k).
Definition stops (n : nat) (k : Z) : nat := Nat.min n (Z.to_nat k).
(* a[r0:r1, c0:c1] = b, with broadcasting of one row or one column *)
Definition assign (a : arr) (r0 r1 c0 c1 : nat) (b : arr) : res arr :=
  let fits := fun n m => (n =? m)%nat || (n =? 1)%nat in
  if fits (nr b) (r1 - r0)%nat && fits (nc b) (c1 - c0)%nat then
    Ok (mkArr (nr a) (nc a) (fun i j =>
      if ((r0 <=? i) && (i <? r1) && (c0 <=? j) && (j <? c1))%nat
      then el b (if (nr b =? 1)%nat then 0 else i - r0)%nat (if (nc b =? 1)%nat then 0 else j - c0)%nat
      else el a i j))
  else Err ValueError.
(* calc_spatialfrequency.py:24-27: a quarter *)
Definition quarter (h : Z) : res arr := t <- zeros (h + 1) (h + 1) ;; Ok (mkArr (nr t) (nc t) (fun x i => Z.of_nat x ^ 2 + Z.of_nat i ^ 2)).
(* calc_spatialfrequency.py:4-36 *)
Definition spatial_frequency (dim : Z) : res arr :=
  let h := dim / 2 in
  t <- quarter h ;;
  m <- zeros dim dim ;;
  let n := nr m in
  let lo := starts n (h - 1) in
  let up := stops n h in
  m <- assign m lo n lo n t ;;
  m <- assign m 0 up 0 up (from 1 1 (rot90 t 2)) ;;
  m <- assign m 0 up lo n (from 1 0 (rot90 t 1)) ;;
  assign m lo n 0 up (from 0 1 (rot90 t 3)).
(* calc_phasescreen.py:91: numpy.roll by (1 - h, 1 - h) of both axes *)
Definition rolled (s : Z) (a : arr) : arr :=
  let at_ := fun n i => Z.to_nat ((Z.of_nat i - s) mod Z.of_nat n) in mkArr (nr a) (nc a) (fun i j => el a (at_ (nr a) i) (at_ (nc a) j)).
Definition transform_order (dim : Z) (a : arr) : arr := rolled (- (dim / 2) + 1) a.
