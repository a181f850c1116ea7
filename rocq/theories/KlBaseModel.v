(* Modal bases from influence functions: specula/lib/modal_base_generator.py.

   Simplifications.
   - Numbers are exact rationals.  A matrix is a function of row and column, its size is given beside it.  Influence functions
     are given on the np pixels of the pupil, one row for each of the n actuators.
   - The square root, the pseudo-inverse, the singular value decomposition (left vectors in columns, values), the Zernike modes
     on the pupil and make_orto_modes are parameters; re and im are the real and imaginary part of the Fourier transforms of the
     influence functions and w the spectrum, at the nk frequencies of the grid, for a given oversampling.
   - There are more actuators than removed modes (otherwise some indices of the code are negative).  Divisions by zero, which
     give infinities in the code, give zero.  The arrays "V" and the messages are not modelled. *)
From Coq Require Import List ZArith Bool Arith QArith Qcanon.
From Verif Require Import PyBase Arith OpticalModel SlopecSpec FilterSpec MmseModel.
Import ListNotations.
Local Open Scope Qc_scope.

Record basis := mkBasis { b_rows : nat; b_modes : matrix; b_m2c : matrix; b_S1 : nat -> Qc; b_S2 : nat -> Qc }.

Section Kl.
Context (root : Qc -> Qc) (pinv : nat -> nat -> matrix -> matrix) (svd : nat -> matrix -> matrix * (nat -> Qc)).
Context (zern : nat -> nat -> Qc) (orto : nat -> matrix -> matrix).
Context (nk : nat) (w : nat -> Qc) (re im : matrix -> nat -> nat -> Qc) (norm : Qc).

(* modal_base_generator.py:72-175: compute_ifs_covmat *)
Definition covmat (oversampling : Z) (ifs : matrix) : res matrix :=
  if (oversampling <? 2)%Z then Err ValueError
  else Ok (fun a b => qsum nk (fun k => w k * re ifs a k * re ifs b k + w k * im ifs a k * im ifs b k) / norm).

(* modal_base_generator.py:243-266: piston, the Zernike modes from tip, and rows of zeros for the modes of filt_modes *)
Definition raw_modes (nz : nat) : matrix := fun m p => if (m =? 0)%nat then 1 else if (m <=? nz)%nat then zern (m + 1) p else 0.
Definition normalised (np nz : nat) (x : matrix) : matrix := fun m p =>
  if (m =? 0)%nat || (nz <? m)%nat then x m p
  else let c := fun p => x m p - qsum np (x m) / qnat np in c p / root (qsum np (fun p => c p * c p) / qnat np).
(* modal_base_generator.py:271-281: for each mode with a norm, its coefficients and the influence functions without it *)
Fixpoint filtered (np : nat) (modes ifs : matrix) (k : nat) : matrix * matrix :=
  match k with
  | O => (fun _ _ => 0, ifs)
  | S k =>
      let '(coef, f) := filtered np modes ifs k in
      let nn := qsum np (fun p => modes k p * modes k p) in
      if qlt 0 nn then
        let c := fun a => qsum np (fun p => f a p * modes k p) / nn in
        (fun m a => if (m =? k)%nat then c a else coef m a, fun a p => f a p - modes k p * c a)
      else (coef, f)
  end.
(* modal_base_generator.py:298-316: modes removed for the condition number *)
Definition cut (n nr : nat) (s1 : nat -> Qc) (maxc : option Qc) : nat :=
  match maxc with
  | None => 0%nat
  | Some c => if qlt c (s1 0%nat / s1 (n - nr - 1)%nat) then length (filter (fun i => qlt (s1 i) (s1 0%nat / c)) (seq 0 (n - nr))) else 0%nat
  end.
(* modal_base_generator.py:177-373; nf is the number of rows of filt_modes, 0 for None *)
Definition modal_base (n np cols : nat) (ifs : matrix) (nz nf : nat) (filt : matrix) (oversampling : Z) (maxc : option Qc) : res basis :=
  if negb (cols =? np)%nat then Err ValueError
  else
    let nr := (1 + nz + nf)%nat in
    let modes := if (0 <? nz)%nat then normalised np nz (orto nr (raw_modes nz)) else raw_modes nz in
    let cz := mmul np modes (pinv n np ifs) in
    let modes := if (0 <? nz)%nat then mmul n cz ifs else modes in
    let '(coef, f) := filtered np modes ifs nr in
    let '(u1, s1) := svd n (fun a b => qsum np (fun p => f a p * f b p) / qnat np) in
    let r := (n - (nr + cut n nr s1 maxc))%nat in
    let m := fun a i => if (i <? r)%nat then u1 a i / root (s1 i) else 0 in
    x <- covmat oversampling f ;;
    let '(u2, s2) := svd n (mmul n (mmul n (trans m) x) m) in
    let bp := mmul n m u2 in
    let kl := fun j p => qsum n (fun a => f a p * bp a j) in
    Ok (if (0 <? nz)%nat then
          mkBasis (nz + r) (fun j p => if (j <? nz)%nat then modes (S j) p else kl (j - nz)%nat p)
            (fun a j => if (j <? nz)%nat then cz (S j) a
                        else qsum n (fun b => (eye a b - qsum nz (fun z => cz (S z) a * coef (S z) b)) * bp b (j - nz)%nat)) s1 s2
        else mkBasis r kl (fun a j => qsum n (fun b => (eye a b - coef 0%nat a * coef 0%nat b) * bp b j)) s1 s2).
End Kl.
