(* Vocabulary for the construction of objects: where an object lives and what a parameter says. *)
From Coq Require Import String List Ascii ZArith.
From Verif Require NamesSpec TrigOrderSpec.
From Verif Require Import PyBase ParamsSpec BuildModel.
From Verif Require CalFileModel.
Import ListNotations.
Local Open Scope string_scope.

(* The rank asked for an object, as an integer. *)
Definition asked (p : pars) (r : option Z) : Prop :=
  match dget "target_rank" p with Some (YInt z) => r = Some z | _ => r = None end.

(* The process of rank [q] ([None]: there is only one process) has the object: the process asked for, the first
   one by default; data objects without a wish are in all of them. *)
Inductive lives (data : bool) (r : option Z) : option Z -> Prop :=
| lives_alone : lives data r None
| lives_asked z : r = Some z -> lives data r (Some z)
| lives_first : r = None -> lives data r (Some 0%Z)
| lives_copy q : r = None -> data = true -> lives data r (Some q).

(* [name] writes argument [a]: literally, or with a suffix that the constructor does not know. *)
Definition spells (args : list string) (a name : string) : Prop :=
  In a args /\ (name = a \/ ~ In name args /\ (name = a ++ "_ref" \/ name = a ++ "_data" \/ name = a ++ "_object")).

Definition has_end (e s : string) : Prop := exists b, s = b ++ e.
Definition single (a : string) : Prop := ~ has_end "_list" a /\ ~ has_end "_dict" a.

(* [x] is the name of object [o] *)
Definition names (objs : dict built) (x : yval) (o : built) : Prop := exists s, x = YStr s /\ dget s objs = Some o.
(* the objects met by a Python loop over a value *)
Inductive iterates : yval -> list yval -> Prop :=
| it_list l : iterates (YList l) l
| it_dict d : iterates (YDict d) (map (fun kv => YStr (fst kv)) d)
| it_str s : iterates (YStr s) (map (fun c => YStr (String c "")) (list_ascii_of_string s)).

(* [f] is the file of tag [t] of the given kind *)
Definition file (root kind : string) (t : string) (f : string) : Prop := CalFileModel.filename root kind t = Ok f.
Definition from_file (root kind type : string) (t : yval) (l : loaded) : Prop :=
  exists s, t = YStr s /\ l_tag l = s /\ l_type l = type /\ file root kind s (l_path l).

(* Parameter [name] with value [v] says that argument [a] is [x]. *)
Inductive says (root : string) (k : klass) (objs : dict built) : string -> string -> yval -> argval -> Prop :=
| says_plain a v : says root k objs a a v (ARaw v)
| says_ref a v o : single a -> names objs v o -> says root k objs a (a ++ "_ref") v (AObj o)
| says_list_ref a l os : has_end "_list" a -> Forall2 (names objs) l os -> says root k objs a (a ++ "_ref") (YList l) (AObjs os)
| says_dict_ref a v l d : has_end "_dict" a -> iterates v l -> (forall x, In x l -> exists o, names objs x o) ->
    (forall s, (In (YStr s) l -> dget s d = dget s objs) /\ (~ In (YStr s) l -> dget s d = None)) ->
    says root k objs a (a ++ "_ref") v (ADict d)
| says_no_data a e : e = "_data" \/ e = "_object" -> says root k objs a (a ++ e) YNone (ARaw YNone)
| says_data a t f : file root "data" t f -> says root k objs a (a ++ "_data") (YStr t) (AData f)
| says_object a v l type : single a -> dget a (c_hints k) = Some (HObj type) -> from_file root a type v l ->
    says root k objs a (a ++ "_object") v (ALoaded l)
| says_list_object a l ls type : has_end "_list" a -> dget a (c_hints k) = Some (HListOf type) ->
    Forall2 (from_file root type type) l ls -> says root k objs a (a ++ "_object") (YList l) (ALoadedList ls)
| says_dict_object a d ls type : has_end "_dict" a -> dget a (c_hints k) = Some (HDictOf type) ->
    Forall2 (fun kv kl => fst kl = fst kv /\ from_file root type type (snd kv) (snd kl)) d ls ->
    says root k objs a (a ++ "_object") (YDict d) (ALoadedDict ls).

(* what the simulation adds by itself *)
Inductive automatic (root class : string) : string -> argval -> Prop :=
| auto_dir d : CalFileModel.root_subdir root class = Ok d -> automatic root class "data_dir" (ADir d)
| auto_params : automatic root class "params_dict" AParams
| auto_input : automatic root class "input_ref_getter" (AGetter "input_ref")
| auto_output : automatic root class "output_ref_getter" (AGetter "output_ref")
| auto_info : automatic root class "info_getter" (AGetter "get_info").

(* the parameters that reach the constructor *)
Definition reaches (args : list string) (nv : string * yval) : Prop :=
  (fst nv = "class" \/ fst nv = "inputs" \/ fst nv = "outputs" -> In (fst nv) args) /\
  (fst nv = "target_rank" -> forall z, snd nv <> YInt z).

(* directory of the calibrations: that of the last object of class SimulParams *)
Definition main_root (ps : params) (root : string) : Prop :=
  (forall k p, In (k, p) ps -> exists v, dget "class" p = Some v) /\
  exists l1 k p l2, ps = (l1 ++ (k, p) :: l2)%list /\ class_of p "SimulParams" /\ dget "root_dir" p = Some (YStr root) /\
    forall k' p', In (k', p') l2 -> ~ class_of p' "SimulParams".

(* ------------------------------------------------------------- configurations that can be built *)

(* a name without the signs of output references *)
Definition plain (s : string) : Prop := NamesSpec.free_of ":" s /\ NamesSpec.free_of "-" s /\ NamesSpec.free_of "." s.
Definition object_name (ps : params) (x : yval) : Prop := exists s, x = YStr s /\ plain s /\ TrigOrderSpec.declared ps s.
(* a file of this kind and tag from which the type can be restored *)
Definition restorable (E : env) (root kind type : string) (t : yval) : Prop :=
  exists s f, t = YStr s /\ file root kind s f /\ e_restore E type f = true.

(* Value [v] of parameter [name] can be turned into argument [a]. *)
Inductive usable (E : env) (ps : params) (root : string) (k : klass) : string -> string -> yval -> Prop :=
| use_plain a v : usable E ps root k a a v
| use_ref a v : single a -> object_name ps v -> usable E ps root k a (a ++ "_ref") v
| use_list_ref a l : has_end "_list" a \/ has_end "_dict" a -> Forall (object_name ps) l -> usable E ps root k a (a ++ "_ref") (YList l)
| use_none a e : e = "_data" \/ e = "_object" -> usable E ps root k a (a ++ e) YNone
| use_data a t f : file root "data" t f -> e_file E f = true -> usable E ps root k a (a ++ "_data") (YStr t)
| use_object a v type : single a -> dget a (c_hints k) = Some (HObj type) -> restorable E root a type v -> usable E ps root k a (a ++ "_object") v
| use_list_object a l type : has_end "_list" a -> dget a (c_hints k) = Some (HListOf type) ->
    Forall (restorable E root type type) l -> usable E ps root k a (a ++ "_object") (YList l)
| use_dict_object a d type : has_end "_dict" a -> dget a (c_hints k) = Some (HDictOf type) ->
    Forall (fun kv => restorable E root type type (snd kv)) d -> usable E ps root k a (a ++ "_object") (YDict d).

(* The arguments a constructor receives. *)
Definition receives (args : list string) (p : pars) (a : string) : Prop :=
  (exists nv, In nv p /\ reaches args nv /\ spells args a (fst nv)) \/
  (In a args /\ In a ["data_dir"; "params_dict"; "input_ref_getter"; "output_ref_getter"; "info_getter"]).

Definition integer_or_absent (v : option yval) : Prop := match v with None | Some (YInt _) => True | _ => False end.

(* An object that can be built: from a tag alone, or with a constructor that expects its parameters. *)
Definition buildable (E : env) (ps : params) (root : string) (p : pars) : Prop :=
  NoDup (map fst p) /\ integer_or_absent (dget "target_rank" p) /\ integer_or_absent (dget "target_device_idx" p) /\
  exists class k, class_of p class /\ e_class E class = Ok k /\
  ((exists t, dget "tag" p = Some t /\ restorable E root class class t /\
      forall n v, In (n, v) p -> In n ["class"; "tag"; "target_rank"; "target_device_idx"]) \/
   (dget "tag" p = None /\
    (forall nv, In nv p -> reaches (c_args k) nv -> exists a, spells (c_args k) a (fst nv) /\ usable E ps root k a (fst nv) (snd nv)) /\
    (In "data_dir" (c_args k) -> exists d, CalFileModel.root_subdir root class = Ok d) /\
    forall my, (forall a, dmem a my = true <-> receives (c_args k) p a) -> e_init E class my = Ok tt)).

(* ------------------------------------------------------------- many processes *)

(* the parameters [p] mention the name [r] in a reference *)
Definition mentions (v : yval) (r : string) : Prop := v = YStr r \/ exists l, iterates v l /\ In (YStr r) l.
Definition points (p : pars) (r : string) : Prop := exists b v, In (b ++ "_ref", v) p /\ mentions v r.

(* object [key] is of a class of data or of processing objects, and asks for a rank *)
Definition placed (E : env) (ps : params) (key : string) (data : bool) (r : option Z) : Prop :=
  exists p class k, dget key ps = Some p /\ class_of p class /\ e_class E class = Ok k /\ data = c_data k /\ asked p r.
(* what the others believe: the rank asked, 0 by default *)
Definition home (r : option Z) (z : Z) : Prop := match r with Some q => z = q | None => z = 0%Z end.
