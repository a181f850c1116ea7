(* Sectors of a circle, and statistics of vectors. *)
From Coq Require Import Reals List.
Import ListNotations.
Local Open Scope R_scope.

(* the angle a, up to whole turns, is in the sector k of n *)
Definition in_sector (n k : nat) (a : R) : Prop := exists t : Z, INR k * (2 * PI / INR n) <= a + 2 * PI * IZR t < INR (S k) * (2 * PI / INR n).
Definition sum (l : list R) : R := fold_right Rplus 0 l.
Definition dot (u v : list R) : R := sum (map (fun p => fst p * snd p) (combine u v)).
