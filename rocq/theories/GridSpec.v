(* Points of a sampled interval. *)
From Coq Require Import List ZArith Bool PeanoNat QArith Qcanon.
From Verif Require Import SlopecSpec.
Import ListNotations.

(* The interval from -ratio to ratio is divided into n equal cells; the points are the lower
   ends of the cells, or their centres *)
Definition cell_point (n : nat) (ratio : Qc) (ends : bool) (i : nat) : Qc :=
  (((if ends then qnat (2 * i) else qnat (2 * i + 1)) - qnat n) / qnat n * ratio)%Qc.
