(* Specification vocabulary for inputs, device transfers and messages. *)
From Coq Require Import String List ZArith Bool.
From Verif Require Import PyBase ConnModel.
Import ListNotations.
Local Open Scope Z_scope.

Section ConnSpec.
Variables A X : Type.
Notation dobj := (dobj A X).

Definition attr (d : dobj) (k : string) : option (pv A X) := dget k (d_attrs A X d).
Definition array (d : dobj) (k : string) (l : list A) : Prop := exists g, attr d k = Some (Arr A X g l).

(* an ordinary data object: attribute names are different, and all its arrays are on the
   device of the object *)
Definition allocated (d : dobj) : Prop :=
  NoDup (dkeys (d_attrs A X d)) /\ -1 <= d_dev A X d /\
  forall k g l, attr d k = Some (Arr A X g l) -> g = (d_dev A X d >=? 0).

(* from [p] to [p'] the device and the names of the attributes remain the same, and arrays
   remain arrays of the same size *)
Definition steady (p p' : dobj) : Prop :=
  d_dev A X p' = d_dev A X p /\
  (forall k, attr p k = None <-> attr p' k = None) /\
  (forall k l, array p k l -> exists l', array p' k l' /\ length l' = length l).

Fixpoint chain {T} (R : T -> T -> Prop) (l : list T) : Prop :=
  match l with
  | x :: (y :: _) as r => R x y /\ chain R r
  | _ => True
  end.

(* every array of [p] is an array of [c] with the same content, and the times agree *)
Definition up_to_date (c p : dobj) : Prop :=
  (forall k l, array p k l -> array c k l) /\ d_time A X c = d_time A X p.

(* the same value up to the place where arrays are stored *)
Definition same_value (v w : pv A X) : Prop :=
  match v, w with
  | Arr _ _ _ l, Arr _ _ _ l' => l = l'
  | Scal _ _ a, Scal _ _ b => a = b
  | PyNone _ _, PyNone _ _ => True
  | _, _ => False
  end.

(* the ways in which the value of an output may evolve: a missing value may become an array,
   arrays keep their size, scalars remain scalars *)
Definition vstep (v w : pv A X) : Prop :=
  match v, w with
  | PyNone _ _, PyNone _ _ => True
  | PyNone _ _, Arr _ _ _ _ => True
  | Arr _ _ _ l, Arr _ _ _ l' => length l = length l'
  | Scal _ _ _, Scal _ _ _ => True
  | _, _ => False
  end.
(* the values of an output at the beginning *)
Definition sendable (v : pv A X) : Prop := match v with Oth _ _ _ => False | _ => True end.

(* only the attribute [vn] and the time differ *)
Definition only_value (vn : string) (p p' : dobj) : Prop :=
  d_dev A X p' = d_dev A X p /\ forall k, k <> vn -> attr p' k = attr p k.

End ConnSpec.

(* The objects in a nested argument, from left to right. *)
Section Leaves.
Variable Obj : Type.
Inductive leaves : arg Obj -> list Obj -> Prop :=
| l_obj o : leaves (AObj Obj o) [o]
| l_nil : leaves (AList Obj []) []
| l_cons x r a b : leaves x a -> leaves (AList Obj r) b -> leaves (AList Obj (x :: r)) (a ++ b).

(* operations on an input *)
Inductive iop := OSet (x : arg Obj) | OApp (x : arg Obj).
Definition iop_arg (o : iop) : arg Obj := match o with OSet x => x | OApp x => x end.

(* what should be connected after the operations: [set] starts again *)
Inductive connected : list Obj -> list iop -> list Obj -> Prop :=
| cn_nil acc : connected acc [] acc
| cn_set acc x l r z : leaves x l -> connected l r z -> connected acc (OSet x :: r) z
| cn_app acc x l r z : leaves x l -> connected (acc ++ l) r z -> connected acc (OApp x :: r) z.
End Leaves.
