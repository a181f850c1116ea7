(* Vocabulary for the calibration properties. *)
From Coq Require Import List ZArith Bool PeanoNat.
From Verif Require Import PyBase Arith CalibModel.
Import ListNotations.
Local Open Scope ar_scope.

Section S.
Context {A : arith} (nz : A -> bool) (ofn : nat -> A).

(* amplitude with which [cmds] pokes mode [m]: the first non-zero command, if it is the
   one of that mode *)
Definition amplitude (first : Z) (m : nat) (cmds : vec A) : option A :=
  match find (fun i => nz (nth i cmds 0)) (seq 0 (length cmds)) with
  | Some i => if (Z.of_nat i - first =? Z.of_nat m)%Z then Some (nth i cmds 0) else None
  | None => None
  end.
(* no two commands are non-zero *)
Definition single (cmds : vec A) : Prop :=
  forall i j, (i < length cmds)%nat -> (j < length cmds)%nat -> nz (nth i cmds 0) = true -> nz (nth j cmds 0) = true -> i = j.
(* the modes before [first] are not poked *)
Definition from_first (first : Z) (cmds : vec A) : Prop :=
  forall i, (i < length cmds)%nat -> nz (nth i cmds 0) = true -> (first <= Z.of_nat i)%Z.

(* normalised slopes of the frames that poke mode [m] *)
Definition responses (first : Z) (m : nat) (hist : list (vec A * vec A)) : list (vec A) :=
  flat_map (fun p => match amplitude first m (snd p) with Some a => [map (fun x => x / a) (fst p)] | None => [] end) hist.
(* their mean; zero if there are none *)
Definition mean_response (ns : nat) (rs : list (vec A)) : vec A :=
  map (fun j => match rs with
                | [] => 0
                | _ => vsum (map (fun r => nth j r 0) rs) / ofn (length rs)
                end) (seq 0 ns).
(* the frames with fresh slopes *)
Definition fresh_frames (hist : list (frame A)) : list (vec A * vec A) :=
  map (fun f => (fr_slopes f, fr_cmds f)) (filter (fun f => (fr_gen f =? fr_t f)%Z) hist).
End S.
