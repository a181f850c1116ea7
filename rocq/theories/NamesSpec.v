(* Independent grammar of output references:
     [input_name-]object[.output][:delay] *)
From Coq Require Import String List Ascii ZArith Bool Decimal DecimalString DecimalZ.
From Verif Require Import PyBase.
Local Open Scope string_scope.

Definition free_of (c : ascii) (s : string) : Prop :=
  forall n a, String.get n s = Some a -> a <> c.

Definition opt_prefix (o : option string) (sep : string) (s : string) : string :=
  match o with Some x => x ++ sep ++ s | None => s end.
Definition opt_suffix (s sep : string) (o : option string) : string :=
  match o with Some x => s ++ sep ++ x | None => s end.

Definition opt_free (c : ascii) (o : option string) : Prop :=
  match o with Some x => free_of c x | None => True end.

(* [ref_text inp obj key dl] is the text of a reference; [dl] is the text of the
   delay, if any. *)
Definition ref_text (inp : option string) (obj : string) (key dl : option string) : string :=
  opt_suffix (opt_prefix inp "-" (opt_suffix obj "." key)) ":" dl.

(* The separators may not occur inside the parts they delimit. *)
Definition ref_parts_ok (inp : option string) (obj : string) (key dl : option string) : Prop :=
  opt_free ":" inp /\ free_of ":" obj /\ opt_free ":" key /\ opt_free ":" dl /\
  opt_free "-" inp /\ free_of "-" obj /\ opt_free "-" key /\
  free_of "." obj /\ opt_free "." key.

(* decimal text of an integer, as Python's str() *)
Definition str_of_Z (z : Z) : string := NilZero.string_of_int (Z.to_int z).
