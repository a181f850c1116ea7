(* Zernike polynomials and their derivatives on the pixels of a pupil.

   Real numbers, no rounding.  scipy.special.eval_jacobi is taken to be the Jacobi polynomial with first parameter
   zero, written in powers of (x+1)/2; numpy.arctan2 is the angle of a point, in ]-pi, pi]. *)
From Coq Require Import Reals ZArith List Bool.
From Verif Require Import PyBase.
Import ListNotations.
Local Open Scope R_scope.

(* numpy.ceil followed by a conversion to integers *)
Definition ceil (x : R) : Z := (- Int_part (- x))%Z.
(* specula/lib/zernike_generator.py:404-422 radial_order *)
Definition radial_order (j : Z) : Z := ceil (1 / 2 * (sqrt (8 * IZR j + 1) - 3)).
(* zernike_generator.py:147-157 degree; n (n + 1) is even, so that the division is exact *)
Definition degree (index : Z) : Z * Z :=
  let n := radial_order index in
  let cn := (n * (n + 1) / 2 + 1)%Z in
  (n, (if (n mod 2 =? 0)%Z then (index - cn + 1) / 2 * 2 else (index - cn) / 2 * 2 + 1)%Z).

(* sum of the terms 0 .. n-1 *)
Fixpoint rsum (n : nat) (f : nat -> R) : R := match n with O => 0 | S m => rsum m f + f m end.
(* scipy.special.eval_jacobi(K, 0, b, x) *)
Definition jacobi (K b : nat) (x : R) : R :=
  rsum (S K) (fun s => (-1) ^ s * INR (fact (2 * K + b - s)) / (INR (fact s) * INR (fact (K - s)) * INR (fact (K + b - s))) * ((x + 1) / 2) ^ (K - s)).
(* zernike_generator.py:159-177 _rnm_jacobi at one point, whose distance from the centre is not negative; the two
   exceptions are of the class Exception *)
Definition rnm (n m : Z) (rho : R) : res R :=
  if negb ((n - m) mod 2 =? 0)%Z then Err RuntimeError else
  if (n <? Z.abs m)%Z then Err RuntimeError else
  if ((n =? 0) && (m =? 0))%Z then Ok 1 else
  let K := Z.to_nat ((n - Z.abs m) / 2) in
  let b := Z.to_nat (Z.abs m) in
  let const := 1 / jacobi K b 1 in
  let cj := jacobi K b (2 * rho ^ 2 - 1) in
  Ok (const * rho ^ b * cj).
(* zernike_generator.py:179-191 _polar *)
Definition polar (index : Z) (rho theta : R) : res R :=
  let '(n, m) := degree index in
  r <- rnm n m rho ;;
  let nc := sqrt (2 * (IZR n + 1)) in
  if (m =? 0)%Z then Ok (sqrt (1 / 2) * nc * r)
  else if (index mod 2 =? 0)%Z then Ok (nc * r * cos (IZR m * theta))
  else Ok (nc * r * sin (IZR m * theta)).
(* numpy.arctan2 *)
Definition arctan2 (y x : R) : R :=
  if Rlt_dec 0 x then atan (y / x)
  else if Rlt_dec x 0 then (if Rle_dec 0 y then atan (y / x) + PI else atan (y / x) - PI)
  else if Rlt_dec 0 y then PI / 2 else if Rlt_dec y 0 then - (PI / 2) else 0.
(* zernike_generator.py:243-247 _polar_array, and 258-268 getZernike, for an unmasked point with these coordinates *)
Definition zernike (index : Z) (x y : R) : res R :=
  if (index <=? 0)%Z then Err ValueError else polar index (sqrt (x ^ 2 + y ^ 2)) (arctan2 y x).

(* zernike_generator.py:77-105 and 193-241: pixels of a pupil with this size and radius, centre in the middle; the
   mask of lib/mask.py:120-134 *)
Record pupil := mkPupil { p_size : nat; p_radius : R }.
Definition coord (p : pupil) (k : nat) : R := (INR k + 1 / 2 - INR (p_size p) / 2) / p_radius p.
Definition outside (p : pupil) (r c : nat) : bool :=
  if Rle_dec ((INR c + 1 / 2 - INR (p_size p) / 2) ^ 2 + (INR r + 1 / 2 - INR (p_size p) / 2) ^ 2) (p_radius p ^ 2) then false else true.
Definition pixel (p : pupil) (index : Z) (r c : nat) : res R :=
  v <- zernike index (coord p c) (coord p r) ;; Ok (if outside p r c then 0 else v).

(* zernike_generator.py:281-316 _computeDerivativeCoeffX, one element *)
Definition even (i : Z) : bool := (i mod 2 =? 0)%Z.
Definition gx (i j : Z) : R :=
  let '(ni, mi) := degree i in
  let '(nj, mj) := degree j in
  if (((negb (mi =? 0) && negb (mj =? 0) && ((even i && even j) || (negb (even i) && negb (even j))))
      || (((mi =? 0) && even j) || ((mj =? 0) && even i)))
     && ((mj =? mi + 1) || (mj =? mi - 1)) && (j <? i))%Z
  then (let v := sqrt ((IZR ni + 1) * (IZR nj + 1)) in if ((mi =? 0) || (mj =? 0))%Z then v * sqrt 2 else v)
  else 0.
(* zernike_generator.py:318-366 _computeDerivativeCoeffY, one element *)
Definition gy (i j : Z) : R :=
  let '(ni, mi) := degree i in
  let '(nj, mj) := degree j in
  if (((negb (mi =? 0) && negb (mj =? 0) && ((negb (even i) && even j) || (even i && negb (even j))))
      || (((mi =? 0) && negb (even j)) || ((mj =? 0) && negb (even i))))
     && ((mj =? mi + 1) || (mj =? mi - 1)) && (j <? i))%Z
  then
    let v := sqrt ((IZR ni + 1) * (IZR nj + 1)) in
    let w := if ((mi =? 0) || (mj =? 0))%Z then v * sqrt 2 else v in
    if ((((mj =? mi + 1) && negb (even i)) || ((mj =? mi - 1) && even i)) && negb (mi =? 0))%Z then w * -1 else w
  else 0.
(* zernike_generator.py:137-145 _derivativeCoeffX and _derivativeCoeffY: the matrix is computed again when it is too
   small, and otherwise cut; result and matrix that is kept *)
Definition matrix (g : Z -> Z -> R) (n : nat) : list (list R) :=
  map (fun i => map (fun j => g (Z.of_nat i) (Z.of_nat j)) (seq 1 n)) (seq 1 n).
Definition coefficients (g : Z -> Z -> R) (cache : option (list (list R))) (n : nat) : list (list R) * option (list (list R)) :=
  let kept := match cache with
              | Some a => if (length a <? n)%nat then matrix g n else a
              | None => matrix g n
              end in
  (map (firstn n) (firstn n kept), Some kept).
(* zernike_generator.py:385-402 _computeDerivativeX and _computeDerivativeY, one pixel *)
Definition derivative_with (a : list (list R)) (p : pupil) (index : nat) (r c : nat) : res R :=
  fold_res (fun acc i => v <- pixel p (Z.of_nat i) r c ;; Ok (acc + nth (i - 1) (nth (index - 1) a []) 0 * v)) 0 (seq 1 (index - 1)).
