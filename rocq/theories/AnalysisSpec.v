(* What a modal analysis should give. *)
From Coq Require Import List ZArith Bool PeanoNat QArith Qcanon.
From Verif Require Import PyBase Arith FilterSpec FitsModel CutSpec FieldModel FieldSpec.
Import ListNotations.
Local Open Scope ar_scope.

Section S.
Context {A : arith}.
Definition delta (i j : nat) : A := if Nat.eqb i j then 1 else 0.
(* modes F (n rows of K pixels), inverse P *)
Definition inverts (n K : nat) (F P : nat -> nat -> A) : Prop :=
  forall i j, (i < n)%nat -> (j < n)%nat -> sumn K (fun k => F i k * P k j) = delta i j.
(* two of the properties of a pseudo-inverse *)
Definition pseudo (n K : nat) (F P : nat -> nat -> A) : Prop :=
  (forall i k, (i < n)%nat -> (k < K)%nat -> sumn K (fun l => F i l * sumn n (fun j => P l j * F j k)) = F i k) /\
  (forall k l, (k < K)%nat -> (l < K)%nat -> sumn n (fun j => P k j * F j l) = sumn n (fun j => P l j * F j k)).
(* pixel k of a combination of modes *)
Definition blend (n : nat) (c : nat -> A) (F : nat -> nat -> A) (k : nat) : A := sumn n (fun j => c j * F j k).
(* coefficient j of the wavefront ph *)
Definition coefficient (K : nat) (ph : nat -> A) (P : nat -> nat -> A) (j : nat) : A := sumn K (fun k => ph k * P k j).
(* pixels are the pixels of the mask, each once, row by row *)
Definition before (p q : nat * nat) : Prop := (fst p < fst q \/ fst p = fst q /\ snd p < snd q)%nat.
Definition pixels_of (inside : nat -> nat -> bool) (r c : nat) (l : list (nat * nat)) : Prop :=
  (forall i j, In (i, j) l <-> (i < r)%nat /\ (j < c)%nat /\ inside i j = true) /\
  forall a b d, (a < b)%nat -> (b < length l)%nat -> before (nth a l d) (nth b l d).
End S.
(* sum of squares of the differences *)
Definition misfit (K : nat) (f g : nat -> Qc) : Qc := sumn (A:=qc) K (fun k => (f k - g k) * (f k - g k))%Qc.
