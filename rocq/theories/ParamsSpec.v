(* Vocabulary for the properties of parameter dictionaries. *)
From Coq Require Import String List Ascii ZArith.
From Verif Require Import PyBase NamesSpec TrigOrderSpec.
Import ListNotations.
Local Open Scope string_scope.

(* ------------------------------------------------------------------ references *)

(* In [ps], a *_ref parameter of object [k] names object [r]. *)
Definition uses (ps : params) (k r : string) : Prop :=
  exists p b v s d, In (k, p) ps /\ In (b ++ "_ref", v) p /\ ref_in v s /\ refers s r d.

(* All *_ref parameters are references, or lists of references, to declared objects. *)
Definition refs_ok (ps : params) : Prop :=
  (forall k p b v, In (k, p) ps -> In (b ++ "_ref", v) p ->
     (exists s r d, v = YStr s /\ refers s r d) \/
     (exists l, v = YList l /\ forall x, In x l -> exists s r d, x = YStr s /\ refers s r d)) /\
  (forall k r, uses ps k r -> declared ps r).

(* No circular references. *)
Definition acyclic (R : string -> string -> Prop) : Prop :=
  exists rank : string -> nat, forall k r, R k r -> rank r < rank k.

(* [r] comes before [k]. *)
Definition before (l : list string) (r k : string) : Prop :=
  exists l1 l2 l3, l = (l1 ++ r :: l2 ++ k :: l3)%list.

(* ------------------------------------------------------- parameters of an object *)

(* Parameter [name] of object [obj]. *)
Definition param (ps : params) (obj name : string) : option yval :=
  match dget obj ps with Some p => dget name p | None => None end.
(* Input [i] of object [obj]. *)
Definition input (ps : params) (obj i : string) : option yval :=
  match param ps obj "inputs" with Some (YDict d) => dget i d | _ => None end.

(* The reference [x] comes from object [o]. *)
Definition comes_from (x : yval) (o : string) : Prop := exists s d, x = YStr s /\ refers s o d.

(* the value of an input once the references to [o] are deleted *)
Inductive cut (o : string) : option yval -> option yval -> Prop :=
| cut_none : cut o None None
| cut_gone s d : refers s o d -> cut o (Some (YStr s)) None
| cut_kept s o' d : refers s o' d -> o' <> o -> cut o (Some (YStr s)) (Some (YStr s))
| cut_list l l' : (forall x, In x l' <-> In x l /\ ~ comes_from x o) ->
                  (exists f, l' = filter f l) -> cut o (Some (YList l)) (Some (YList l'))
| cut_other v : (forall s, v <> YStr s) -> (forall l, v <> YList l) -> cut o (Some v) (Some v).

(* The effects of the entries of an additional parameter file. *)
Definition removes (o : string) (ps ps' : params) : Prop :=
  declared ps o /\ dkeys ps' = filter (fun k => negb (String.eqb o k)) (dkeys ps) /\
  forall k, k <> o ->
    (forall name, name <> "inputs" -> param ps' k name = param ps k name) /\
    (forall i, cut o (input ps k i) (input ps' k i)) /\
    (param ps k "inputs" = None -> param ps' k "inputs" = None).
Definition overrides_with (o : string) (d : dict yval) (ps ps' : params) : Prop :=
  declared ps o /\ dkeys ps' = dkeys ps /\
  (forall name, param ps' o name = match dget name d with Some v => Some v | None => param ps o name end) /\
  (forall k, k <> o -> dget k ps' = dget k ps).
Definition adds (o : string) (d : pars) (ps ps' : params) : Prop :=
  ~ declared ps o /\ ps' = (ps ++ [(o, d)])%list.

(* A sequence of effects. *)
Inductive steps {A} (R : A -> params -> params -> Prop) : list A -> params -> params -> Prop :=
| steps_nil ps : steps R [] ps ps
| steps_cons a l ps ps1 ps2 : R a ps ps1 -> steps R l ps1 ps2 -> steps R (a :: l) ps ps2.

(* decimal text of a number, possibly with leading zeros *)
Definition digits_of (t : string) (n : Z) : Prop :=
  t <> "" /\ (forall i a, String.get i t = Some a -> is_digit a = true) /\ int_digits t false 0 = Some n.

(* The name under which an entry acts: none if it is numbered for another simulation. *)
Inductive effective (idx : Z) : string -> option string -> Prop :=
| eff_plain name : (forall b t n, name = b ++ "_" ++ t -> ~ digits_of t n) -> effective idx name (Some name)
| eff_here b t : digits_of t idx -> effective idx (b ++ "_" ++ t) (Some b)
| eff_other b t n : digits_of t n -> n <> idx -> effective idx (b ++ "_" ++ t) None.

(* The effect of one entry. *)
Inductive entry_effect : string * yval -> params -> params -> Prop :=
| ee_remove os ps ps' : steps removes os ps ps' ->
    entry_effect ("remove", YList (map YStr os)) ps ps'
| ee_override o d ps ps' : overrides_with o d ps ps' -> o ++ "_override" <> "remove" ->
    entry_effect (o ++ "_override", YDict d) ps ps'
| ee_add o d ps ps' : adds o d ps ps' -> o <> "remove" -> (forall b, o <> b ++ "_override") ->
    entry_effect (o, YDict d) ps ps'.

Inductive file_effect (idx : Z) : dict yval -> params -> params -> Prop :=
| fe_nil ps : file_effect idx [] ps ps
| fe_skip name v r ps ps' : effective idx name None -> file_effect idx r ps ps' ->
    file_effect idx ((name, v) :: r) ps ps'
| fe_entry name n v r ps ps1 ps' : effective idx name (Some n) -> entry_effect (n, v) ps ps1 ->
    file_effect idx r ps1 ps' -> file_effect idx ((name, v) :: r) ps ps'.

(* ------------------------------------------------------------ command line overrides *)

(* The key of an override addresses parameter [name] of object [obj], or an entry of it. *)
Definition addresses (key obj name : string) : Prop :=
  free_of "." obj /\ free_of "." name /\
  (key = obj ++ "." ++ name \/ exists c, free_of "." c /\ key = obj ++ "." ++ name ++ "." ++ c).

(* ------------------------------------------------------------------------- replay *)

Definition class_of (p : pars) (c : string) : Prop := dget "class" p = Some (YStr c).

(* A data store with parameters [p] stores output [key] of object [o] under the name [nm]. *)
Definition stores (p : pars) (o key : string) (nm : option string) : Prop :=
  exists i v s dl, (exists ins, dget "inputs" p = Some (YDict ins) /\
                    (dget "input_list" ins <> None -> i = "input_list") /\ In (i, v) ins) /\
  ref_in v s /\ s = ref_text nm o (Some key) dl /\ ref_parts_ok nm o (Some key) dl /\
  match dl with None => True | Some t => exists d, py_int t = Ok d end.

(* [v'] is the value of an input once the stored outputs are read from the data source *)
Definition redirected (p : pars) (v v' : yval) : Prop :=
  (exists o key nm, v = YStr (o ++ "." ++ key) /\ stores p o key (Some nm) /\ v' = YStr ("data_source." ++ nm)) \/
  ((forall o key nm, v = YStr (o ++ "." ++ key) -> ~ stores p o key nm) /\ v' = v).

(* The objects named by the reference parameters, as read by the targeted replay. *)
Inductive names_obj : string * yval -> string -> Prop :=
| no_single b r : (forall c, b <> c ++ "_list") -> (forall c, b <> c ++ "_dict") -> names_obj (b ++ "_ref", YStr r) r
| no_list b l r : In (YStr r) l -> names_obj (b ++ "_list_ref", YList l) r
| no_dict_list b l r : In (YStr r) l -> names_obj (b ++ "_dict_ref", YList l) r
| no_dict b (d : dict yval) r : In r (map fst d) -> names_obj (b ++ "_dict_ref", YDict d) r.

(* Object [k] of a configuration depends only on objects of the configuration. *)
Definition self_contained (ps : params) (k : string) : Prop :=
  forall p, dget k ps = Some p ->
  (forall nv r, In nv p -> names_obj nv r -> declared ps r) /\
  (forall i v s, input ps k i = Some v -> ref_in v s ->
     (exists n, v = YStr ("data_source." ++ n)) /\ declared ps "data_source" \/
     (exists o d, refers s o d /\ declared ps o)).
