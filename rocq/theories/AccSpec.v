(* Windows of accumulated frames. *)
From Coq Require Import List ZArith Bool PeanoNat.
From Verif Require Import Arith FilterSpec.
Import ListNotations.

(* a window ends at the positive multiples of its length *)
Definition window_end (dt t : Z) : Prop := (dt <= t /\ exists k, t = k * dt)%Z.

(* [cur] are the frames of the window that contains the last of [frames]: those after the
   last frame but one that ended a window *)
Definition current_window {V} (dt : Z) (frames cur : list (Z * V)) : Prop :=
  exists before, frames = before ++ cur /\ cur <> [] /\
    (before = [] \/ exists b x, before = b ++ [x] /\ window_end dt (fst x)) /\
    (forall c x, cur = c ++ [x] -> forall y, In y c -> ~ window_end dt (fst y)).

(* pixel j of the sum of some frames *)
Definition summed {A : arith} (cur : list (Z * vec A)) (j : nat) : A :=
  sumn (length cur) (fun k => nth j (snd (nth k cur (0%Z, []))) zer).
