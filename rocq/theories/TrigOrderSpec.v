(* Vocabulary for the trigger-order properties, independent of the algorithm. *)
From Coq Require Import String List ZArith.
From Verif Require Import PyBase NamesSpec.
Import ListNotations.
Local Open Scope string_scope.

(* The text [s] refers to object [obj] with delay [d]. *)
Definition refers (s obj : string) (d : Z) : Prop :=
  exists inp key dl,
    s = ref_text inp obj key dl /\ ref_parts_ok inp obj key dl /\
    match dl with None => d = 0%Z | Some t => py_int t = Ok d end.

(* The references contained in the value of an input. *)
Definition ref_in (v : yval) (s : string) : Prop :=
  v = YStr s \/ exists l, v = YList l /\ In (YStr s) l.

(* In [ps], object [c] has an input fed by object [p] with delay [d]. *)
Definition reads (ps : params) (c p : string) (d : Z) : Prop :=
  exists pc ins k v s,
    In (c, pc) ps /\ In ("inputs", YDict ins) pc /\ In (k, v) ins /\
    ref_in v s /\ refers s p d.

(* A Python dictionary of dictionaries: keys are unique at each level used. *)
Definition wf_params (ps : params) : Prop :=
  NoDup (map fst ps) /\
  (forall c pc, In (c, pc) ps -> NoDup (map fst pc)) /\
  (forall c pc ins, In (c, pc) ps -> In ("inputs", YDict ins) pc -> NoDup (map fst ins)).

(* Documented use of delays: none, or negative. *)
Definition delays_ok (ps : params) : Prop := forall c p d, reads ps c p d -> (d <= 0)%Z.

Definition declared (ps : params) (c : string) : Prop := In c (map fst ps).

(* Everything under 'inputs' is a reference or a list of references. *)
Definition inputs_ok (ps : params) : Prop :=
  forall c pc, In (c, pc) ps ->
  (forall v, In ("inputs", v) pc -> exists ins, v = YDict ins) /\
  (forall ins k v, In ("inputs", YDict ins) pc -> In (k, v) ins ->
     (exists s, v = YStr s /\ exists o d, refers s o d) \/
     (exists l, v = YList l /\ forall x, In x l -> exists s o d, x = YStr s /\ refers s o d)).

(* [rank] is a schedule: same-step producers first, delayed consumers before the
   producer overwrites its output. *)
Definition valid_rank (ps : params) (rank : string -> nat) : Prop :=
  (forall c p, reads ps c p 0 -> declared ps p /\ rank p < rank c) /\
  (forall c p d, reads ps c p d -> (d < 0)%Z -> declared ps p -> rank c < rank p).
