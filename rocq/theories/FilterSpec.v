(* Vocabulary used to state the filter properties, independent of FilterModel's state. *)
From Coq Require Import List PeanoNat.
From Verif Require Import PyBase Arith.
Import ListNotations.
Local Open Scope ar_scope.

Section S.
Context {A : arith}.

(* f 0 + ... + f (n-1) *)
Fixpoint sumn (n : nat) (f : nat -> A) : A :=
  match n with 0%nat => 0 | S m => sumn m f + f m end.

(* x^n *)
Fixpoint pow (x : A) (n : nat) : A := match n with 0%nat => 1 | S m => x * pow x m end.

(* the value of a sequence [j] steps before step [k]; zero before the beginning *)
Definition ago (x : nat -> A) (k j : nat) : A := if Nat.leb j k then x (k - j)%nat else 0.

(* value for channel [i] of an input vector: one value per channel, or one value for all *)
Definition chan_val (n : nat) (v : vec A) (i : nat) : A :=
  if Nat.eqb (length v) n then nth i v 0 else nth 0 v 0.

(* channel [i] of the input at step [k], and the gain modulation (1 when not connected) *)
Definition in_at (n : nat) (us : list (vec A * option (vec A))) (k i : nat) : A :=
  chan_val n (fst (nth k us ([], None))) i.
Definition gain_at (n : nat) (us : list (vec A * option (vec A))) (k i : nat) : A :=
  match snd (nth k us ([], None)) with Some g => chan_val n g i | None => 1 end.

(* channel [i] of the delayed and of the undelayed output after step [k] *)
Definition out_at (ys : list (vec A * vec A)) (k i : nat) : A := nth i (fst (nth k ys ([], []))) 0.
Definition nd_at (ys : list (vec A * vec A)) (k i : nat) : A := nth i (snd (nth k ys ([], []))) 0.

(* an input vector acceptable to a filter with [n] channels *)
Definition fits (n : nat) (v : vec A) : Prop := length v = n \/ length v = 1%nat.
Definition input_fits (n : nat) (i : vec A * option (vec A)) : Prop :=
  fits n (fst i) /\ match snd i with Some g => fits n g | None => True end.

(* n-fold application of a matrix *)
Fixpoint mpow (M : mat A) (k : nat) (v : vec A) : vec A :=
  match k with 0%nat => v | S m => mv M (mpow M m v) end.

(* vector sum v 0 + ... + v (k-1) of vectors of size m *)
Fixpoint vsumn (m k : nat) (v : nat -> vec A) : vec A :=
  match k with 0%nat => zeros m | S j => vadd (vsumn m j v) (v j) end.

End S.

(* A filter law with [n] channels: from the initial state [x0], on inputs and gains of
   size [n], it always produces outputs of size [n]. *)
Definition sized {A : arith} {X : Type} (n : nat) (law : X -> vec A -> vec A -> X * vec A) (x0 : X) : Prop :=
  exists P : X -> Prop, P x0 /\
    forall x u g, P x -> length u = n -> length g = n ->
      P (fst (law x u g)) /\ length (snd (law x u g)) = n.

(* channel [i] belongs to the [b]-th group of modes; without grouping each channel is
   its own group *)
Definition in_group (modes : option (list nat)) (b i : nat) : Prop :=
  match modes with
  | None => i = b
  | Some ms => (list_sum (firstn b ms) <= i < list_sum (firstn (S b) ms))%nat
  end.

(* number of channels *)
Definition n_channels {B} (modes : option (list nat)) (g : list B) : nat :=
  match modes with None => length g | Some ms => list_sum ms end.

(* the linear combination of two input sequences with the same gain modulation *)
Definition in_comb {A : arith} (a b : A) (i1 i2 i : vec A * option (vec A)) : Prop :=
  length (fst i1) = length (fst i2) /\ snd i1 = snd i /\ snd i2 = snd i /\
  fst i = vadd (vscale a (fst i1)) (vscale b (fst i2)).
