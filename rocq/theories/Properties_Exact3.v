(* Kinds of errors in the connection of objects. *)
From Coq Require Import String List ZArith Bool.
From Verif Require Import PyBase PyLemmas NamesModel TrigOrderModel ParamsModel TagModel WireModel.
Import ListNotations.
Local Open Scope string_scope.

Section Kinds.
Variable hash : string -> Z.
Variables T D : Type.
Variable isinst : D -> T -> bool.
Notation wst := (wst T D).
Notation connect_objects := (connect_objects hash T D isinst).
Definition only_input (i : string) (x : yval) : pars := [("inputs", YDict [(i, x)])].
Definition only_outputs (l : list yval) : pars := [("outputs", YList l)].

(* names of outputs: a list or dictionary where a name should be; objects that nobody has *)
Theorem C93_output_kinds proc (st : wst) d ob p x r :
  (dget d (w_objs st) = Some ob -> s_proc ob = Some p -> (exists l, x = YList l) \/ (exists y, x = YDict y) -> connect_objects proc st [(d, only_outputs (x :: r))] = Err TypeError) /\
  (dget d (w_objs st) = None -> dget d (w_ranks st) = None -> connect_objects proc st [(d, only_outputs (x :: r))] = Err KeyError) /\
  (dget d (w_objs st) = Some ob -> s_proc ob = None -> connect_objects proc st [(d, only_outputs (x :: r))] = Err AttributeError).
Proof.
  split; [|split].
  - intros O P X. unfold connect_objects, WireModel.connect_objects, connect_object, only_outputs. cbn. unfold check_output at 1. rewrite O. unfold proc_of. rewrite P. cbn. now destruct X as [[l ->]|[y ->]].
  - intros O R. unfold connect_objects, WireModel.connect_objects, connect_object, only_outputs. cbn. unfold check_output at 1. now rewrite O, R.
  - intros O P. unfold connect_objects, WireModel.connect_objects, connect_object, only_outputs. cbn. unfold check_output at 1. rewrite O. unfold proc_of. now rewrite P.
Qed.
(* references s to an output that exists here *)
Section Reference.
Variables (proc : option Z) (st : wst) (d i s : string) (o : output) (r : ref D).
Hypothesis Hs : split_output s = Ok o.
Hypothesis Hv : value_of T D (w_objs st) (w_remote st) o = Ok r.
Hypothesis Hr : r <> RNone.
(* an object that does not take an input list; *)
Theorem C93_input_list_kind ob p : dget d (w_objs st) = Some ob -> s_proc ob = Some p -> dget "input_list" (p_ins p) = None -> connect_objects proc st [(d, only_input "input_list" (YStr s))] = Err KeyError.
Proof.
  intros O P I. unfold connect_objects, WireModel.connect_objects, connect_object, only_input. cbn. unfold connect_input. cbn. rewrite O. cbn. unfold connect_ref, resolve. cbn. rewrite Hs. cbn. rewrite Hv. cbn.
  unfold connect. cbn. unfold dmem. rewrite O. assert (G : forall f, into_input T D (mkW (w_objs st) (w_remote st) (w_ranks st) (w_links st ++ [mkL (o_obj o) d (o_key o) "input_list"])%list) d "input_list" f = Err KeyError).
  { intros f. unfold into_input. cbn. rewrite O. unfold proc_of. rewrite P. cbn. now rewrite I. }
  destruct r; [now destruct Hr| |]; now rewrite G.
Qed.
(* a destination that nobody has; *)
Theorem C93_destination_kind ob p : dget (o_obj o) (w_objs st) = Some ob -> s_proc ob = Some p -> dget d (w_objs st) = None -> dget d (w_remote st) = None -> connect_objects proc st [(d, only_input i (YStr s))] = Err KeyError.
Proof.
  intros O P N M. unfold connect_objects, WireModel.connect_objects, connect_object, only_input. cbn. unfold connect_input. cbn. rewrite N. cbn. unfold connect_ref, resolve. cbn. rewrite Hs. cbn. rewrite Hv. cbn.
  unfold connect. cbn. unfold dmem. rewrite N, O. unfold proc_of. rewrite P. cbn. rewrite M. destruct r; [now destruct Hr| |]; reflexivity.
Qed.
(* a list that contains None. *)
Theorem C93_none_kind ob p n l : r = RList (RNone :: l) -> dget d (w_objs st) = Some ob -> s_proc ob = Some p -> dget i (p_ins p) = Some n -> connect_objects proc st [(d, only_input i (YStr s))] = Err ValueError.
Proof.
  intros E O P I. unfold connect_objects, WireModel.connect_objects, connect_object, only_input. cbn. unfold connect_input. cbn. rewrite O. cbn. unfold proc_of at 1. rewrite P. cbn.
  unfold dmem at 1. rewrite I. assert (G : (if String.eqb i "input_list" then Ok tt else Ok tt) = @Ok unit tt) by now destruct (String.eqb i _). rewrite G. cbn.
  unfold connect_ref, resolve. cbn. rewrite Hs. cbn. rewrite Hv. cbn. unfold connect. cbn. unfold dmem. rewrite O, E. unfold into_input. cbn. rewrite O. unfold proc_of. rewrite P. cbn. now rewrite I.
Qed.
End Reference.
End Kinds.
Print Assumptions C93_output_kinds.
Print Assumptions C93_input_list_kind.
Print Assumptions C93_destination_kind.
Print Assumptions C93_none_kind.
Example C93_kinds_example : let st := mkW [("a", mkS 0 (Some (mkP [("out", RList [RNone; RObj 3])] [("in", mkInp tt true [])] [])))] [] [("a", 0%Z)] [] in
  connect_objects (fun _ => 0%Z) unit nat (fun _ _ => true) None st [("a", only_input "in" (YStr "a.out"))] = Err ValueError /\
  connect_objects (fun _ => 0%Z) unit nat (fun _ _ => true) None st [("a", only_input "input_list" (YStr "a"))] = Err KeyError /\
  connect_objects (fun _ => 0%Z) unit nat (fun _ _ => true) None st [("b", only_input "in" (YStr "a"))] = Err KeyError /\
  connect_objects (fun _ => 0%Z) unit nat (fun _ _ => true) None st [("b", only_outputs [YStr "out"])] = Err KeyError.
Proof. repeat split; vm_compute; reflexivity. Qed.
