(* What files may be written, and what it means that only one file was written. *)
From Coq Require Import String List ZArith Bool.
From Verif Require Import PyBase Arith FitsModel.
Import ListNotations.

Section S.
(* the file does not exist or may be replaced *)
Context {A : arith}.
Definition writable (fs : files A) (name : string) (overwrite : bool) : Prop := overwrite = true \/ ~ In name (dkeys fs).
(* every other file is as before *)
Definition only_wrote (name : string) (fs fs' : files A) : Prop :=
  In name (dkeys fs') /\ forall other, other <> name -> dget other fs' = dget other fs.
(* a rectangular array with at least one row *)
Definition rect {X} (m : arr2 X) : Prop := 0 < length (a_rows m) /\ forall r, In r (a_rows m) -> length r = a_c m.
End S.
