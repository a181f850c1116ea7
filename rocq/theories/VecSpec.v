(* What the vector objects are documented to do. *)
From Coq Require Import List ZArith Bool PeanoNat.
From Verif Require Import PyBase Arith NpModel NpSpec VecModel.
Import ListNotations.

(* the input positions and the output positions named by a pair, for vectors of [n] elements *)
Definition src_places (p : ipair) (n : Z) (ps : list Z) : Prop :=
  match p with PairIdx a _ => Forall2 (denotes n) a ps | PairSlice a _ => slice_selects a n ps end.
Definition dest_places (p : ipair) (n : Z) (ps : list Z) : Prop :=
  match p with PairIdx _ b => Forall2 (denotes n) b ps | PairSlice _ b => slice_selects b n ps end.

(* value written in the j-th place: a single value is repeated *)
Definition source_of (ss : list Z) (j : nat) : option Z :=
  if Nat.eqb (length ss) 1 then nth_error ss 0 else nth_error ss j.

Section Op.
Context {A : arith}.
Local Open Scope ar_scope.

(* the operation of each flag *)
Definition op_result (op : binop) : A -> A -> A :=
  match op with OpMul => mul | OpDiv => dvd | OpSum => add | OpSub => sub | _ => fun x _ => x end.
Definition two_inputs (op : binop) : Prop := op = OpMul \/ op = OpDiv \/ op = OpSum \/ op = OpSub.
(* what missing elements of the second vector are replaced with *)
Definition filler (op : binop) : A := match op with OpDiv => 1 | _ => 0 end.

(* an object without constants *)
Definition no_consts (c : op_cfg A) : Prop := o_cmul c = None /\ o_csum c = None /\ o_cmax c = None /\ o_cmin c = None.

(* the inputs of the linear combination in the documented order *)
Definition lc_ins (c : lc_cfg A) (lgs focus lift ngs : vec A) : list (vec A) :=
  [lgs] ++ (if lc_no_focus c then [] else [focus]) ++ (if lc_no_lift c then [] else [lift]) ++ [ngs].
End Op.
