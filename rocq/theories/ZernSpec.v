(* Zernike polynomials as polynomials of a complex number and of its conjugate, and Noll's numbering. *)
From Coq Require Import Reals Arith.
Local Open Scope R_scope.

Definition cx := (R * R)%type.
Definition cmul (a b : cx) : cx := (fst a * fst b - snd a * snd b, fst a * snd b + snd a * fst b).
Definition cadd (a b : cx) : cx := (fst a + fst b, snd a + snd b).
Definition cscale (k : R) (a : cx) : cx := (k * fst a, k * snd a).
Definition conj (a : cx) : cx := (fst a, - snd a).
Fixpoint cpow (z : cx) (n : nat) : cx := match n with O => (1, 0) | S m => cmul z (cpow z m) end.
Fixpoint csum (n : nat) (f : nat -> cx) : cx := match n with O => (0, 0) | S m => cadd (csum m f) (f m) end.
Definition mono (a b : nat) (z : cx) : cx := cmul (cpow z a) (cpow (conj z) b).
(* the polynomial of degrees p in z and q in its conjugate *)
Definition coef (p q s : nat) : R := (-1) ^ s * INR (fact (p + q - s)) / (INR (fact s) * INR (fact (p - s)) * INR (fact (q - s))).
Definition disk (p q : nat) (z : cx) : cx := csum (S (Nat.min p q)) (fun s => cscale (coef p q s) (mono (p - s) (q - s) z)).

(* Zernike mode with radial degree 2 q + m and azimuthal frequency m; [c]: cosine *)
Definition mode (q m : nat) (c : bool) (x y : R) : R :=
  let v := disk (q + m) q (x, y) in
  match m with
  | O => sqrt (INR (2 * q + m) + 1) * fst v
  | _ => sqrt (2 * (INR (2 * q + m) + 1)) * (if c then fst v else snd v)
  end.

(* Noll's numbering: modes by increasing radial degree, n + 1 modes of degree n; within a degree, by increasing
   frequency; of the two modes of a frequency, the cosine has the even number *)
Definition tri (n : nat) : nat := n * (n + 1) / 2.
