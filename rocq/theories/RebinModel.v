(* Changing the resolution of frames. *)
From Coq Require Import List ZArith Bool Arith.
From Verif Require Import PyBase Arith FitsModel.
Import ListNotations.

Section Rebin.
Variable A : arith.
(* number of elements as a number; maximum; smallest distance between numbers (finfo.eps) *)
Variable ofn : nat -> A.
Variable mx : A -> A -> A.
Variable eps : A.
Local Open Scope ar_scope.

Definition ent (a : arr2 A) (i j : nat) : A := nth j (nth i (a_rows a) []) 0.
Definition tab (m n : nat) (f : nat -> nat -> A) : arr2 A := mkA2 n (map (fun i => map (fun j => f i j) (seq 0 n)) (seq 0 m)).
Definition mean (v : vec A) : A := vsum v / ofn (length v).
(* a.sum() *)
Definition total (a : arr2 A) : A := vsum (map vsum (a_rows a)).

(* specula/lib/rebin.py:39-40, 47-58 rebin2d with sample=False.  reshape((m, M//m, n, N//n))
   puts pixel (i*(M//m) + r, j*(N//n) + c) at [i, r, j, c]; the means are taken over c, then
   over r.  Note the comparison of n with the number of rows. *)
Definition rebin_mean (a : arr2 A) (m n : nat) : res (arr2 A) :=
  let M := a_r a in let N := a_c a in
  if Nat.eqb M m && Nat.eqb N n then Ok a else
  if Nat.leb m M && Nat.leb n M then
    if Nat.eqb m 0 then Err ZeroDivisionError else
    if negb (Nat.eqb (M mod m) 0) then Err ValueError else
    if Nat.eqb n 0 then Err ZeroDivisionError else
    if negb (Nat.eqb (N mod n) 0) then Err ValueError else
    Ok (tab m n (fun i j =>
      mean (map (fun r => mean (map (fun c => ent a (i * (M / m) + r) (j * (N / n) + c)) (seq 0 (N / n)))) (seq 0 (M / m)))))
  else if Nat.leb M m && Nat.leb M n then Err ValueError
  else Err ValueError.

(* rebin.py:39-45 rebin2d with sample=True: mgrid[0:old:old/new] truncated to integers.
   Simplification: the step old/new is not rounded. *)
Definition rebin_sample (a : arr2 A) (m n : nat) : res (arr2 A) :=
  let M := a_r a in let N := a_c a in
  if Nat.eqb M m && Nat.eqb N n then Ok a else
  if Nat.eqb m 0 || Nat.eqb n 0 then Err ZeroDivisionError else
  Ok (tab m n (fun i j => ent a (i * M / m) (j * N / n))).

(* specula/lib/toccd.py:26-30 *)
Definition lcm (a b : nat) : res nat := if Nat.eqb (Nat.gcd a b) 0 then Err ZeroDivisionError else Ok (a * b / Nat.gcd a b)%nat.

(* toccd.py:33-86 on the CPU *)
Definition toccd (a : arr2 A) (m n : nat) (set_total : option A) : res (arr2 A) :=
  if Nat.eqb (a_r a) m && Nat.eqb (a_c a) n then Ok a else
  let tot := match set_total with Some t => t | None => total a end in
  lx <- lcm (a_r a) m ;; ly <- lcm (a_c a) n ;;
  t1 <- rebin_sample a lx (a_c a) ;;
  t2 <- rebin_mean t1 m (a_c a) ;;
  t3 <- rebin_sample t2 m ly ;;
  r <- rebin_mean t3 m n ;;
  let s := mx (total r) eps in
  Ok (mkA2 (a_c r) (map (map (fun x => x / s * tot)) (a_rows r))).

(* specula/processing_objects/ccd.py:316-323 apply_binning; [pm], [pn] is the shape of the
   pixel frame *)
Definition apply_binning (i : arr2 A) (b pm pn : nat) : res (arr2 A) :=
  r <- (if Nat.ltb 1 b then rebin_mean i (a_r i / b) (a_c i / b) else Ok i) ;;
  if Nat.eqb (a_r r) pm && Nat.eqb (a_c r) pn then Ok r else Err ValueError.
End Rebin.

(* specula/lib/utils.py:123-135 unravel_index_2d *)
Definition unravel_index_2d (idxs : list Z) (shape : list Z) : res (list Z * list Z) :=
  match shape with
  | [_; ncols] =>
      if Z.eqb ncols 0 then (if Nat.eqb (length idxs) 0 then Ok ([], []) else Ok (map (fun _ => 0%Z) idxs, idxs))
      else
        let row := map (fun i => (i / ncols)%Z) idxs in
        Ok (row, map (fun i => (i - (i / ncols) * ncols)%Z) idxs)
  | _ => Err ValueError
  end.
