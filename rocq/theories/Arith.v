(* Arithmetic used by the numerical models.

   The numerical code of /repo runs on numpy floating-point arrays.  The models are
   written over an arbitrary carrier with arbitrary operations ([arith]), in the order
   in which the Python code applies them.  Theorems that do not mention [is_field] hold
   for every such structure, floating point included.  Theorems that need algebra
   assume [is_field], that is exact arithmetic (rationals, reals). *)
From Coq Require Import List Field_theory Ring_theory QArith Qcanon Lia PeanoNat.
Import ListNotations.

Record arith := mkArith {
  car :> Type;
  zer : car; one : car;
  add : car -> car -> car; mul : car -> car -> car; sub : car -> car -> car;
  opp : car -> car; dvd : car -> car -> car; inv : car -> car
}.
Arguments zer {a}. Arguments one {a}. Arguments add {a}. Arguments mul {a}.
Arguments sub {a}. Arguments opp {a}. Arguments dvd {a}. Arguments inv {a}.

Definition is_field (A : arith) : Prop :=
  field_theory (@zer A) one add mul sub opp dvd inv eq.

(* exact rationals *)
Definition qc : arith := mkArith Qc 0%Qc 1%Qc Qcplus Qcmult Qcminus Qcopp Qcdiv Qcinv.
Lemma qc_field : is_field qc.
Proof. exact Qcft. Qed.

Declare Scope ar_scope.
Delimit Scope ar_scope with ar.
Infix "+" := add : ar_scope.
Infix "*" := mul : ar_scope.
Infix "-" := sub : ar_scope.
Infix "/" := dvd : ar_scope.
Notation "0" := zer : ar_scope.
Notation "1" := one : ar_scope.

(* element-wise operations; numpy requires equal sizes, which the callers check or
   guarantee *)
Fixpoint map2 {A B C} (f : A -> B -> C) (l1 : list A) (l2 : list B) : list C :=
  match l1, l2 with
  | x :: r1, y :: r2 => f x y :: map2 f r1 r2
  | _, _ => []
  end.

Notation vec A := (list (car A)).
Notation mat A := (list (list (car A))).   (* list of rows *)

Section V.
Variable A : arith.
Local Open Scope ar_scope.

(* numpy.sum of a vector *)
Definition vsum (v : vec A) : A := fold_left add v 0.
Definition dot (u v : vec A) : A := vsum (map2 mul u v).
(* matrix @ vector *)
Definition mv (M : mat A) (v : vec A) : vec A := map (fun r => dot r v) M.
Definition vadd (u v : vec A) : vec A := map2 add u v.
Definition vsub (u v : vec A) : vec A := map2 sub u v.
Definition vmul (u v : vec A) : vec A := map2 mul u v.
Definition vscale (a : A) (v : vec A) : vec A := map (fun x => a * x) v.
Definition zeros (n : nat) : vec A := repeat 0 n.
Definition mzeros (n m : nat) : mat A := repeat (zeros m) n.
Definition ones (n : nat) : vec A := repeat 1 n.
(* column j of a matrix *)
Definition col (j : nat) (M : mat A) : vec A := map (fun r => nth j r 0) M.
(* matrix @ matrix *)
Definition mm (M N : mat A) : mat A := map (fun r => map (fun j => dot r (col j N)) (seq 0 (length (hd [] N)))) M.

Definition shape (M : mat A) (n m : nat) : Prop := length M = n /\ forall r, In r M -> length r = m.
End V.
Arguments vsum {A}. Arguments dot {A}. Arguments mv {A}. Arguments vadd {A}. Arguments vsub {A}.
Arguments vmul {A}. Arguments vscale {A}. Arguments zeros {A}. Arguments mzeros {A}. Arguments ones {A}.
Arguments col {A}. Arguments mm {A}. Arguments shape {A}.
