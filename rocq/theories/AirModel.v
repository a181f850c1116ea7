(* Refractive index of humid air: specula/lib/air_refraction.py.

   Simplifications.
   - Numbers are exact rationals.  The saturation pressure of water (an exponential of the temperature) and the entries of the
     five tables of coefficients are parameters; the ranges and the reference wave numbers of the tables are not.
   - Wavelengths, absolute temperatures and the denominators of the dispersion formula are not zero; divisions by zero, which
     give infinities in numpy, give zero. *)
From Coq Require Import List ZArith Bool Arith QArith Qcanon.
From Verif Require Import PyBase OpticalModel.
Import ListNotations.
Local Open Scope Qc_scope.

Inductive band := K | L | M | N | Q.
Inductive output := Number (x : Qc) | Vector (l : list Qc).
Definition q (n : Z) (d : positive) : Qc := Q2Qc (n # d).
Definition sq (x : Qc) : Qc := x * x.
Fixpoint pow (x : Qc) (n : nat) : Qc := match n with O => 1 | S n => x * pow x n end.
Definition le (x y : Qc) : bool := negb (qlt y x).

(* air_refraction.py:32-86: ranges in micrometres; reference wavelengths, 10000 / nu_ref *)
Definition range (b : band) : Qc * Qc :=
  match b with K => (q 13 10, q 25 10) | L => (q 28 10, q 42 10) | M => (q 435 100, q 53 10) | N => (q 75 10, q 141 10) | Q => (q 16 1, q 28 1) end.
Definition reference (b : band) : Qc := match b with K => q 225 100 | L => q 34 10 | M => q 48 10 | N => q 101 10 | Q => q 20 1 end.
Definition nu_ref (b : band) : Qc := q 10000 1 / reference b.
(* air_refraction.py:114 *)
Definition kelvin (t : Qc) : Qc := t + q 27315 100.
(* air_refraction.py:19-21 *)
Definition t_ref : Qc := q 27315 100 + q 175 10.
Definition p_ref : Qc := q 75000 1.
Definition h_ref : Qc := q 10 1.

Section Air.
Context (svp : Qc -> Qc) (coeff : band -> nat -> nat -> Qc).
(* air_refraction.py:129-142 *)
Definition dry (w : Qc) : Qc :=
  let s := sq (1 / w) in (q 5792105 1 / (q 2380185 10000 - s) + q 167917 1 / (q 57362 1000 - s)) * q 1 100000000.
(* air_refraction.py:144-150 *)
Definition water (w : Qc) : Qc :=
  let s := 1 / w in q 1022 1000 * (q 295235 1000 + q 26422 10000 * pow s 2 + q (-32380) 1000000 * pow s 4 + q 4028 1000000 * pow s 6) * q 1 100000000.
(* air_refraction.py:152-174: the Ciddor model, temperature in Celsius *)
Definition ciddor (t p h w : Qc) : Qc :=
  let f := q 100062 100000 + q 314 10000000000 * p + q 56 100000000 * sq t in
  let pw := h / q 100 1 * f * svp (kelvin t) in
  let pa := p - pw in
  pa / q 101325 1 * (q 28815 100 / kelvin t) * dry w + pw / q 1333 1 * (q 29315 100 / kelvin t) * water w.
(* air_refraction.py:191-196: the first table whose range has the wavelength, otherwise K *)
Definition in_range (w : Qc) (b : band) : bool := le (fst (range b)) w && le w (snd (range b)).
Definition choose (w : Qc) : band := match find (in_range w) [K; L; M; N; Q] with Some b => b | None => K end.
(* air_refraction.py:181-206: the Mathar model *)
Definition state (t p h : Qc) : list Qc :=
  let dt := 1 / kelvin t - 1 / t_ref in let dp := p - p_ref in let dh := h - h_ref in
  [1; dt; sq dt; dh; sq dh; dp; sq dp; dt * dh; dt * dp; dh * dp].
Fixpoint dot (c : nat -> Qc) (k : nat) (l : list Qc) : Qc := match l with [] => 0 | x :: r => c k * x + dot c (S k) r end.
Fixpoint total (n : nat) (f : nat -> Qc) : Qc := match n with O => 0 | S n => total n f + f n end.
Definition mathar (t p h w : Qc) : Qc :=
  let b := choose w in
  let d := q 10000 1 / w - nu_ref b in
  total 6 (fun i => dot (coeff b i) 0 (state t p h) * pow d i).
(* air_refraction.py:97-208: get_refractive_index; wavelengths in metres *)
Definition index_at (t p h wvl : Qc) : Qc := let w := wvl * q 1000000 1 in if qlt w (q 13 10) then ciddor t p h w else mathar t p h w.
Definition get_refractive_index (wvls : list Qc) (t p h : Qc) : res output :=
  match map (index_at t p h) wvls with
  | [] => Err IndexError
  | [x] => Ok (Number x)
  | l => Ok (Vector l)
  end.
End Air.
