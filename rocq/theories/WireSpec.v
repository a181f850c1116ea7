(* Vocabulary for the connection of inputs to outputs. *)
From Coq Require Import String List ZArith.
From Verif Require Import PyBase NamesSpec TagModel WireModel.
Import ListNotations.
Local Open Scope string_scope.

(* The text [s] names output [k] of object [o] with delay [d], for the input [n] if given. *)
Definition means (s o : string) (k : option string) (d : Z) (n : option string) : Prop :=
  exists dl, s = ref_text n o k dl /\ ref_parts_ok n o k dl /\ match dl with None => d = 0%Z | Some t => py_int t = Ok d end.

(* the references of a configuration, in the order in which they are written: object, input, reference *)
Definition listed (v : yval) : list yval := match v with YStr _ => [v] | YList l => l | _ => [] end.
Definition edges_of (kp : string * pars) : list (string * string * yval) :=
  match dget "inputs" (snd kp) with
  | Some (YDict d) => flat_map (fun iv => map (fun x => (fst kp, fst iv, x)) (listed (snd iv))) d
  | _ => []
  end.
Definition edges (ps : params) : list (string * string * yval) := flat_map edges_of ps.
(* those of one input *)
Definition refs (ps : params) (d i : string) : list yval :=
  map snd (filter (fun e => String.eqb (fst (fst e)) d && String.eqb (snd (fst e)) i)%bool (edges ps)).

Section Spec.
Variable hash : string -> Z.
Variables T D : Type.
Variable isinst : D -> T -> bool.
Notation sobj := (sobj T D).
Notation wst := (wst T D).

(* the data objects of a value, in order *)
Inductive leaves : ref D -> list D -> Prop :=
| leaves_obj d : leaves (RObj d) [d]
| leaves_nil : leaves (RList []) []
| leaves_cons x l a b : leaves x a -> leaves (RList l) b -> leaves (RList (x :: l)) (a ++ b).

(* output [k] of [o] has the value [r]; without a name, the object itself *)
Inductive value (objs : dict sobj) : string -> option string -> ref D -> Prop :=
| value_self o ob : dget o objs = Some ob -> value objs o None (RObj (s_self ob))
| value_out o ob p k r : dget o objs = Some ob -> s_proc ob = Some p -> dget k (p_outs p) = Some r -> value objs o (Some k) r.

(* What reference [x] puts into input [i] of object [d], which accepts the type [t]: the data objects of a
   local output, which must be of that type; one item that receives from the process of a remote object. *)
Inductive gives (st : wst) (d i : string) (t : T) : yval -> list (item D) -> Prop :=
| gives_here s o k dl n r l : means s o k dl n -> value (w_objs st) o k r -> leaves r l -> (forall v, In v l -> isinst v t = true) ->
    gives st d i t (YStr s) (map Here l)
| gives_far s o k dl n q : means s o k dl n -> dget o (w_objs st) = None -> dget o (w_remote st) = Some q ->
    gives st d i t (YStr s) [Far q (computeTag hash o d k i)].

(* What a reference makes object [o] send: one message to the process of the reader, if it is another one. *)
Inductive sends (st : wst) (o : string) : string * string * yval -> list (option string * spec) -> Prop :=
| sends_here d i x : dget d (w_objs st) <> None -> sends st o (d, i, x) []
| sends_other d i s o' k dl n : means s o' k dl n -> o' <> o -> sends st o (d, i, YStr s) []
| sends_none d i s k dl n : means s o k dl n -> value (w_objs st) o k RNone -> sends st o (d, i, YStr s) []
| sends_far d i s k dl n r q : dget d (w_objs st) = None -> means s o k dl n -> value (w_objs st) o k r -> r <> RNone ->
    dget d (w_remote st) = Some q -> sends st o (d, i, YStr s) [(k, mkSpec q (computeTag hash o d k i) dl)].

(* an object is in this process or in another one *)
Definition apart (st : wst) : Prop := forall o, dget o (w_objs st) <> None -> dget o (w_remote st) = None.

(* ---- when the objects can be connected ---- *)

(* every reference must lead somewhere, and what is sent must come from a processing object *)
Inductive edge_ok (st : wst) : string * string * yval -> Prop :=
| ok_in d i x ob p n l : dget d (w_objs st) = Some ob -> s_proc ob = Some p -> dget i (p_ins p) = Some n -> gives st d i (in_type n) x l ->
    edge_ok st (d, i, x)
| ok_away d i s o k dl n : dget d (w_objs st) = None -> means s o k dl n -> dget o (w_objs st) = None -> dget o (w_remote st) <> None ->
    edge_ok st (d, i, YStr s)
| ok_none d i s o k dl n : dget d (w_objs st) = None -> means s o k dl n -> value (w_objs st) o k RNone -> edge_ok st (d, i, YStr s)
| ok_out d i s o k dl n r ob p q : dget d (w_objs st) = None -> means s o k dl n -> value (w_objs st) o k r ->
    dget o (w_objs st) = Some ob -> s_proc ob = Some p -> dget d (w_remote st) = Some q -> edge_ok st (d, i, YStr s).

(* names declared under 'outputs' *)
Definition output_ok (proc : option Z) (st : wst) (d : string) (x : yval) : Prop :=
  match dget d (w_objs st) with
  | Some ob => exists p s r, s_proc ob = Some p /\ x = YStr s /\ dget s (p_outs p) = Some r
  | None => exists z, dget d (w_ranks st) = Some z /\ proc <> Some z
  end.
Definition iterable (v : yval) (l : list yval) : Prop :=
  v = YList l \/ (exists d, v = YDict d /\ l = map (fun kv => YStr (fst kv)) d) \/
  exists s, v = YStr s /\ l = map (fun c => YStr (String c "")) (list_ascii_of_string s).
Definition outputs_ok (proc : option Z) (st : wst) (d : string) (p : pars) : Prop :=
  forall v, dget "outputs" p = Some v -> exists l, iterable v l /\ forall x, In x l -> output_ok proc st d x.
(* names of inputs *)
Definition names_ok (st : wst) (d : string) (p : pars) : Prop :=
  forall v, dget "inputs" p = Some v -> exists ins, v = YDict ins /\
    forall i x, In (i, x) ins -> ((exists s, x = YStr s) \/ (exists l, x = YList l)) /\
      forall ob, dget d (w_objs st) = Some ob -> i <> "input_list" -> exists pr n, s_proc ob = Some pr /\ dget i (p_ins pr) = Some n.
End Spec.
