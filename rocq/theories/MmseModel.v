(* The minimum mean square error reconstructor: specula/lib/mmse_reconstructor.py and
   specula/data_objects/intmat.py, generate_rec_mmse.

   Numbers are exact rationals.  A matrix is a function of row and column, its size is given beside it.  numpy.linalg.inv and
   pinv are parameters; inv gives None for LinAlgError.  A result that is not a matrix of finite numbers (a division by zero
   gives infinities) is None. *)
From Coq Require Import List ZArith Bool Arith QArith Qcanon.
From Verif Require Import PyBase Arith OpticalModel SlopecSpec FilterSpec.
Import ListNotations.
Local Open Scope Qc_scope.

Definition matrix := nat -> nat -> Qc.
Definition mmul (n : nat) (a b : matrix) : matrix := fun i j => qsum n (fun k => a i k * b k j).
Definition madd (a b : matrix) : matrix := fun i j => a i j + b i j.
Definition trans (a : matrix) : matrix := fun i j => a j i.
Definition eye : matrix := fun i j => if (i =? j)%nat then 1 else 0.
Definition diag (d : nat -> Qc) : matrix := fun i j => if (i =? j)%nat then d i else 0.
Definition below (n : nat) (P : nat -> bool) : bool := forallb P (seq 0 n).
Definition mabs (x : Qc) : Qc := if qlt x 0 then - x else x.
(* 1e-10 *)
Definition tolerance : Qc := Q2Qc (1 # 10000000000).
(* mmse_reconstructor.py:60, 81: all (abs (diag (diag c) - c) < 1e-10) *)
Definition is_diag (n : nat) (c : matrix) : bool := below n (fun i => below n (fun j => qlt (mabs (diag (fun k => c k k) i j - c i j)) tolerance)).

(* mmse_reconstructor.py:31-45: a block of slopes per sensor; n_slopes // 0 raises.  Slopes left over have no noise. *)
Definition noise_matrix (m : nat) (variances : list Qc) : res matrix :=
  match length variances with
  | 0%nat => Err ZeroDivisionError
  | w => let per := (m / w)%nat in Ok (fun i j => if ((i =? j) && (i <? w * per))%nat then nth (i / per) variances 0 else 0)
  end.

Section Params.
Variable inv : nat -> matrix -> option matrix.
Variable pinv : nat -> matrix -> matrix.
Definition inverse_or_pinv (n : nat) (c : matrix) : matrix := match inv n c with Some x => x | None => pinv n c end.
(* mmse_reconstructor.py:60-74, 81-95: a diagonal matrix is inverted entry by entry; 1 / 0 is infinite *)
Definition invert (n : nat) (c : matrix) : option matrix :=
  if is_diag n c then (if below n (fun i => if Qc_eq_dec (c i i) 0 then false else true) then Some (diag (fun i => 1 / c i i)) else None)
  else Some (inverse_or_pinv n c).
(* mmse_reconstructor.py:101-131.  [k] is the number of rows of the inverse of the noise: one entry multiplies everything;
   otherwise its product with A needs as many rows as slopes. *)
Definition finish (m n k : nat) (a cn ca : matrix) : res (option matrix) :=
  if (k =? 1)%nat then
    let h := madd (fun i j => cn 0%nat 0%nat * mmul m (trans a) a i j) ca in
    Ok (Some (fun i j => cn 0%nat 0%nat * mmul n (inverse_or_pinv n h) (trans a) i j))
  else if negb (k =? m)%nat then Err ValueError
  else
    let h := madd (mmul m (trans a) (mmul m cn a)) ca in
    Ok (Some (mmul n (inverse_or_pinv n h) (mmul m (trans a) cn))).
(* mmse_reconstructor.py:2-137: [m] slopes, [n] modes, [na] the rows of the covariance of the atmosphere; the covariance of
   the noise comes with its number of rows *)
Definition compute_mmse (m n : nat) (a : matrix) (na : nat) (c_atm : matrix) (variances : option (list Qc)) (c_noise : option (nat * matrix)) (c_inverse : bool) : res (option matrix) :=
  c_noise <- match c_noise, variances with None, Some v => c <- noise_matrix m v ;; Ok (Some (m, c)) | _, _ => Ok c_noise end ;;
  if negb (n =? na)%nat then Err ValueError
  else if match c_noise with Some (k, _) => negb (m =? k)%nat | None => false end then Err ValueError
  else if c_inverse then match c_noise with Some (k, c) => finish m n k a c c_atm | None => finish m n n a eye c_atm end
  else
    let ca := invert n c_atm in
    match c_noise with
    | Some (k, c) => match invert k c, ca with Some cn, Some ca => finish m n k a cn ca | _, _ => Ok None end
    | None => match ca with Some ca => finish m n n a eye ca | None => if ((n =? 1) || (n =? m))%nat then Ok None else Err ValueError end
    end.

(* intmat.py:185-245.  The covariance of the atmosphere (lines 191-198) is an input. *)
Inductive noise_arg := NScalar (v : Qc) | NList (l : list Qc) | NVector (l : list Qc) | NMatrix (rows : nat) (c : matrix).
Definition generate_rec_mmse (m n : nat) (a : matrix) (na : nat) (c_atm : matrix) (nmodes : option nat) (noise : noise_arg) : res (option matrix) :=
  let n := match nmodes with Some k => Nat.min k n | None => n end in
  let na := if (n <? na)%nat then n else na in
  match noise with
  | NScalar v => compute_mmse m n a na c_atm (Some [v]) None false
  | NList [v] => compute_mmse m n a na c_atm (Some [v]) None false
  | NList l => if (length l =? m)%nat then compute_mmse m n a na c_atm None (Some (m, diag (fun i => nth i l 0))) false else Err ValueError
  | NVector [v] => compute_mmse m n a na c_atm (Some [v]) None false
  | NVector l => (* a one-dimensional array of variances: its diagonal is a matrix, the diagonal of the inverse a vector again *)
      if negb (length l =? m)%nat then Err ValueError else if negb (n =? na)%nat then Err ValueError
      else if negb (m =? n)%nat then Err ValueError else Ok None
  | NMatrix 1 c => compute_mmse m n a na c_atm (Some [c 0%nat 0%nat]) None false
  | NMatrix k c => if (k =? m)%nat then compute_mmse m n a na c_atm None (Some (m, c)) false else Err ValueError
  end.
End Params.
