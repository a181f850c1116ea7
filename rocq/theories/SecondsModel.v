(* Conversion between times in nanoseconds and seconds, with 64-bit floating-point numbers. *)
From Coq Require Import ZArith QArith.
From Verif Require Import PyBase.
Local Open Scope Z_scope.

(* A non-negative floating-point number m * 2^e.  This and the next two definitions are the
   behaviour of Python's float, not code of /repo.  Simplifications: no negative numbers, no
   underflow and no overflow. *)
Record fl := mkFl { fl_m : Z; fl_e : Z }.
(* 2^e as a fraction *)
Definition p2n (e : Z) : Z := 2 ^ Z.max e 0.
Definition p2d (e : Z) : Z := 2 ^ Z.max (- e) 0.
Definition fl_num (x : fl) : Z := fl_m x * p2n (fl_e x).
Definition fl_den (x : fl) : Z := p2d (fl_e x).

(* n / d rounded to an integer, halves to even *)
Definition half_even (n d : Z) : Z :=
  let q := n / d in
  match 2 * (n - q * d) ?= d with Lt => q | Gt => q + 1 | Eq => if Z.even q then q else q + 1 end.
(* n / d rounded to 53 bits *)
Definition rnd (n d : Z) : fl :=
  if n =? 0 then mkFl 0 0 else
  let e0 := Z.log2 n - Z.log2 d - 52 in
  (* n/d >= 2^(e0+52), or only 2^(e0+51) *)
  let e := if 2 ^ 52 * (d * p2n e0) <=? n * p2d e0 then e0 else e0 - 1 in
  mkFl (half_even (n * p2d e) (d * p2n e)) e.

(* specula/base_time_obj.py:20, 72-73; float(t) is rounded, too *)
Definition resolution : Z := 1000000000.
Definition t_to_seconds (t : Z) : fl :=
  let x := rnd t 1 in rnd (fl_num x) (fl_den x * resolution).
(* round(seconds, ndigits=9): the nearest multiple of 10^-9, then the nearest float *)
Definition round9 (x : fl) : fl := rnd (half_even (fl_num x * resolution) (fl_den x)) resolution.
(* base_time_obj.py:75-76; int() drops the fraction *)
Definition seconds_to_t (x : fl) : Z :=
  let r := round9 x in let p := rnd (fl_num r * resolution) (fl_den r) in fl_num p / fl_den p.
(* the number k / 10^9 written with up to nine decimals in a parameter file *)
Definition literal (k : Z) : fl := rnd k resolution.

