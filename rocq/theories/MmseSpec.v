(* Small specification of linear estimation. *)
From Coq Require Import List ZArith Bool Arith QArith Qcanon.
From Verif Require Import Arith SlopecSpec FilterSpec.
Import ListNotations.
Local Open Scope Qc_scope.

Definition dotp (n : nat) (u v : nat -> Qc) : Qc := qsum n (fun i => u i * v i).
(* a matrix with n columns times a vector *)
Definition mv (n : nat) (M : nat -> nat -> Qc) (v : nat -> Qc) : nat -> Qc := fun i => qsum n (fun j => M i j * v j).
Definition same (n : nat) (u v : nat -> Qc) : Prop := forall i, (i < n)%nat -> u i = v i.
(* X is the inverse of M: what one does to a vector the other undoes *)
Definition inverse (n : nat) (M X : nat -> nat -> Qc) : Prop := forall v, same n (mv n M (mv n X v)) v /\ same n (mv n X (mv n M v)) v.
Definition symmetric (n : nat) (M : nat -> nat -> Qc) : Prop := forall i j, (i < n)%nat -> (j < n)%nat -> M i j = M j i.
Definition nonnegative (n : nat) (M : nat -> nat -> Qc) : Prop := forall v, 0 <= dotp n v (mv n M v).
Definition positive (n : nat) (M : nat -> nat -> Qc) : Prop := forall v, ~ same n v (fun _ => 0) -> 0 < dotp n v (mv n M v).
(* the misfit of the modes x with the slopes s, weighted with the inverse covariance N of the noise, plus the improbability
   of x, weighted with the inverse covariance P of the atmosphere *)
Definition cost (m n : nat) (A N P : nat -> nat -> Qc) (s x : nat -> Qc) : Qc :=
  let e := fun i => s i - mv n A x i in dotp m e (mv m N e) + dotp n x (mv n P x).
(* A' N A + P applied to a vector *)
Definition normal (m n : nat) (A N P : nat -> nat -> Qc) (x : nat -> Qc) : nat -> Qc := fun i => mv m (fun i j => A j i) (mv m N (mv n A x)) i + mv n P x i.
(* A' N applied to slopes *)
Definition weighted (m : nat) (A N : nat -> nat -> Qc) (s : nat -> Qc) : nat -> Qc := mv m (fun i j => A j i) (mv m N s).
(* a function that inverts matrices, and says so when there is no inverse *)
Definition correct_inv (n : nat) (inv : nat -> (nat -> nat -> Qc) -> option (nat -> nat -> Qc)) : Prop :=
  (forall M X, inv n M = Some X -> inverse n M X) /\ (forall M, (exists X, inverse n M X) -> inv n M <> None).
(* the equations have one solution for every right hand side *)
Definition solvable (m n : nat) (A N P : nat -> nat -> Qc) : Prop :=
  exists X, forall v, same n (normal m n A N P (mv n X v)) v /\ same n (mv n X (normal m n A N P v)) v.
