(* Flux of a star. *)
From Coq Require Import Reals List.
Import ListNotations.
Local Open Scope R_scope.

(* photons: energy e per second, square metre and micron, over the energy h c / lambda of a photon, for a magnitude *)
Definition flux (lambda time surface width_um e mag : R) : R := e * time * surface * width_um / (6626 / 10 ^ 37 * (3 * 10 ^ 8) / lambda) * / Rpower 10 (mag * (2 / 5)).
(* i is the position of the first of the values nearest to x *)
Definition nearest (x : R) (l : list R) (i : nat) : Prop :=
  (i < length l)%nat /\ (forall j, (j < length l)%nat -> Rabs (nth i l 0 - x) <= Rabs (nth j l 0 - x)) /\ forall j, (j < i)%nat -> Rabs (nth i l 0 - x) < Rabs (nth j l 0 - x).
