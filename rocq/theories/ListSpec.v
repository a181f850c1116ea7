(* Vocabulary for the input lists of DataStore and DataBuffer. *)
From Coq Require Import String List ZArith.
From Verif Require Import PyBase NamesSpec WireModel WireSpec.
Import ListNotations.
Local Open Scope string_scope.

(* An entry "name-object.output" asks for an input called [m]. *)
Definition called (x : yval) (m : string) : Prop :=
  exists s o k d n, x = YStr s /\ means s o k d n /\ (n = Some m \/ n = None /\ m = "None").
(* [x] is the last entry that asks for [m] *)
Definition last_called (l : list yval) (m : string) (x : yval) : Prop :=
  exists a b, l = (a ++ x :: b)%list /\ called x m /\ forall y, In y b -> ~ called y m.

Definition class_in (cs : list string) (p : pars) : Prop := exists c, dget "class" p = Some (YStr c) /\ In c cs.
(* the entries of the input list of an object of these classes *)
Definition has_list (p : pars) (l : list yval) : Prop :=
  class_in ["DataBuffer"; "DataStore"] p /\
  exists ins v, dget "inputs" p = Some (YDict ins) /\ dget "input_list" ins = Some v /\ iterable v l.
Definition entries (p : pars) (l : list yval) : Prop := has_list p l \/ (forall l', ~ has_list p l') /\ l = [].

Section Spec.
Variables T D : Type.
Variable type_of : D -> T.
Variables none_type list_type : T.
Variable fresh_value : string -> D.

Inductive typed : ref D -> T -> Prop :=
| typed_obj d : typed (RObj d) (type_of d)
| typed_list l : typed (RList l) list_type
| typed_none : typed RNone none_type.
(* the input made for a value: of the type of the value, or of the type of the first element for a list *)
Inductive suits : ref D -> T -> bool -> Prop :=
| suits_list x l t : typed x t -> suits (RList (x :: l)) t true
| suits_one r t : (forall l, r <> RList l) -> typed r t -> suits r t false.
(* the input made for an entry *)
Inductive fits (objs : dict (sobj T D)) (remote : dict Z) : yval -> T -> bool -> Prop :=
| fits_here s o k d n r t b : means s o k d n -> value T D objs o k r -> suits r t b -> fits objs remote (YStr s) t b
| fits_far s o k d n : means s o k d n -> dget o objs = None -> dget o remote <> None -> fits objs remote (YStr s) none_type false.

(* the object [key], with parameters [p], before and after *)
Definition made (objs objs' : dict (sobj T D)) (remote : dict Z) (key : string) (p : pars) : Prop :=
  forall ob l, dget key objs = Some ob -> entries p l -> exists ob', dget key objs' = Some ob' /\ s_self ob' = s_self ob /\
    match s_proc ob, s_proc ob' with
    | None, None => l = []
    | Some pr, Some pr' =>
        p_far pr' = p_far pr /\
        (forall m x, last_called l m x -> exists t b, dget m (p_ins pr') = Some (mkInp t b []) /\ fits objs' remote x t b) /\
        (forall m, (forall x, In x l -> ~ called x m) -> dget m (p_ins pr') = dget m (p_ins pr)) /\
        (~ class_in ["DataBuffer"] p -> p_outs pr' = p_outs pr) /\
        (class_in ["DataBuffer"] p -> forall k r, dget k (p_outs pr') = Some r <->
           (exists i, dget i (p_ins pr') <> None /\ k = i ++ "_buffered" /\ r = RObj (fresh_value k)) \/
           dget k (p_outs pr) = Some r /\ forall i, dget i (p_ins pr') <> None -> k <> i ++ "_buffered")
    | _, _ => False
    end.

(* its parameters before and after *)
Definition unlisted (p p' : pars) : Prop :=
  (forall q, q <> "inputs" -> dget q p' = dget q p) /\
  (forall l, has_list p l -> exists ins ins', dget "inputs" p = Some (YDict ins) /\ dget "inputs" p' = Some (YDict ins') /\
     dget "input_list" ins' = None /\
     (forall m x, m <> "input_list" -> last_called l m x -> dget m ins' = Some x) /\
     (forall m, m <> "input_list" -> (forall x, In x l -> ~ called x m) -> dget m ins' = dget m ins) /\
     (NoDup (map fst ins) -> NoDup (map fst ins'))) /\
  ((forall l, ~ has_list p l) -> p' = p).
End Spec.
