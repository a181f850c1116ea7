(* Vocabulary for the properties of optical gain tracking. *)
From Coq Require Import List ZArith Bool PeanoNat QArith Qcanon.
From Verif Require Import PyBase Arith OpticalModel.
Import ListNotations.

(* a trigger that updates the estimate: both signals fresh and the command not tiny; the
   value is the ratio of the signals *)
Definition ratio_of (f : og_frame) : option Qc :=
  match of_delta f, of_cmd f with
  | [d], [c] => if (of_dgen f =? of_t f)%Z && (of_cgen f =? of_t f)%Z && qlt tiny (qabs c) then Some (d / c)%Qc else None
  | _, _ => None
  end.

(* product of the factors 1 - gain (1 - ratio) over the updating triggers *)
Fixpoint tracked (gain : Qc) (hist : list og_frame) : Qc :=
  match hist with
  | [] => 1%Qc
  | f :: r => match ratio_of f with
              | Some q => ((1 - gain * (1 - q)) * tracked gain r)%Qc
              | None => tracked gain r
              end
  end.

(* the times at which a demodulation period ends: the next step is at a multiple of the
   period *)
Definition ends (loop dt t : Z) : Prop := exists k, (t + loop = k * dt)%Z.
