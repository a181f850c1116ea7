(* Specification vocabulary for storage, buffering and replay. *)
From Coq Require Import String List ZArith Bool.
From Verif Require Import PyBase StoreModel.
Import ListNotations.
Local Open Scope Z_scope.

Section StoreSpec.
Variable V : Type.
Notation event := (Z * sview V)%type.    (* time and inputs of one call *)

(* the new sample of input [k], if any *)
Definition fresh (e : event) (k : string) : option V :=
  match dget k (snd e) with
  | Some (Some (v, g)) => if g =? fst e then Some v else None
  | _ => None
  end.

(* the samples of input [k] received by a sequence of calls *)
Definition samples (es : list event) (k : string) : series V :=
  flat_map (fun e => match fresh e k with Some v => [(fst e, v)] | None => [] end) es.

(* the calls at or after the start time *)
Definition started (start : Z) (es : list event) : list event :=
  filter (fun e => start <=? fst e) es.

(* times increase from call to call *)
Fixpoint increasing (ts : list Z) : Prop :=
  match ts with
  | a :: (b :: _) as r => a < b /\ increasing r
  | _ => True
  end.

(* every input is listed once *)
Definition proper (es : list event) : Prop := Forall (fun e => NoDup (dkeys (snd e))) es.

(* samples number 0, N, 2N, ... *)
Definition every_nth (N : nat) (l s : series V) : Prop :=
  forall i, nth_error s i = nth_error l (i * N).

(* stored samples of one input *)
Definition contents (s : storage V) (k : string) : series V := ddef [] k s.

(* samples of one input in all the saved chunks, in order *)
Definition all_saved (x : dst V) (k : string) : series V :=
  flat_map (fun fs => contents (snd fs) k) (d_saved V x).

(* what a reader of a buffer gets: its output, when it is refreshed at time [t] *)
Definition seen (s : bst V) (k : string) (t : Z) : list V :=
  match dget k (b_out V s) with Some (l, g) => if g =? t then l else [] | None => [] end.
(* ... during a sequence of calls *)
Fixpoint seen_all (size : Z) (s : bst V) (k : string) (es : list event) : list V :=
  match es with
  | [] => []
  | e :: r => let s' := buffer_trigger V size s e in seen s' k (fst e) ++ seen_all size s' k r
  end.

End StoreSpec.
