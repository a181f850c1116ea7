(* The last elements of a sequence, the columns of a table. *)
From Coq Require Import List Arith ZArith.
Import ListNotations.

Definition lastn {A} (n : nat) (l : list A) : list A := skipn (length l - n) l.
(* values of the series i *)
Definition series {V} (v0 : V) (i : nat) (rows : list (list V)) : list V := map (fun r => nth i r v0) rows.
