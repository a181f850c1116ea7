(* What a phase screen without end is. *)
From Coq Require Import List ZArith Bool Arith QArith Qcanon.
From Verif Require Import Arith FilterSpec SlopecSpec InfModel.
Import ListNotations.
Local Open Scope nat_scope.

(* [a] is a square of n x n values *)
Definition square_of (n : nat) (f : nat -> nat -> Qc) (a : list (list Qc)) : Prop :=
  length a = n /\ (forall i, i < n -> length (nth i a []) = n) /\ forall i j, i < n -> j < n -> nth j (nth i a []) 0%Qc = f i j.

(* A screen moves along its rows ([row]) or along its columns, new lines appearing at the end
   ([after]) or at the beginning.  Coordinates of pixel (i, j) of a screen of n x n pixels: across
   the direction of motion, and along it, the last line being the newest. *)
Definition across (row : bool) (i j : nat) : nat := if row then i else j.
Definition depth (row after : bool) (n i j : nat) : nat := let d := if row then j else i in if after then d else n - 1 - d.

(* Matrices and points of a screen of the right sizes. *)
Definition geom_ok (g : geom) : Prop := 0 < g_n g /\ shape (A:=qc) (g_B g) (g_n g) (g_n g) /\
  forall after, shape (A:=qc) (g_A g after) (g_n g) (length (g_at g after)) /\
  forall r c, In (r, c) (g_at g after) -> r < g_n g /\ c < g_n g.

(* One line of new turbulence: the part given by the points of the stencil, with values [val] at
   row r and column c of the stencil, and the random part. *)
Definition given (g : geom) (after : bool) (val : nat -> nat -> Qc) (a : nat) : Qc :=
  qsum (length (g_at g after)) (fun k => nth k (nth a (g_A g after) []) 0%Qc * val (fst (nth k (g_at g after) (0, 0)%nat)) (snd (nth k (g_at g after) (0, 0)%nat)))%Qc.
Definition chance (g : geom) (v : list Qc) (a : nat) : Qc := qsum (g_n g) (fun k => nth k (nth a (g_B g) []) 0%Qc * nth k v 0%Qc)%Qc.

(* A strip of turbulence, g_n wide and unlimited on one side: it begins with the given screen, and
   each further line is made of the g_n lines before it and of one vector of random numbers. *)
Definition strip (g : geom) (noise : nat -> list Qc) (row after : bool) (f : nat -> nat -> Qc) (P : nat -> nat -> Qc) : Prop :=
  (forall i j, i < g_n g -> j < g_n g -> P (across row i j) (depth row after (g_n g) i j) = f i j) /\
  forall n a, a < g_n g ->
    P a (g_n g + n)%nat = (given g after (fun r c => P c (n + if after then r else g_n g - 1 - r)%nat) a + chance g (noise n) a)%Qc.

(* The strip seen through the screen when it has moved by n + f lines (0 <= f < 1): the broken
   line through its values; fractions up to eps are not seen. *)
Definition glimpse (eps : Qc) (P : nat -> nat -> Qc) (n : nat) (f : Qc) (a d : nat) : Qc :=
  (if Qclt_le_dec eps f then (1 - f) * P a (n + d)%nat + f * P a (n + d + 1)%nat else P a (n + d)%nat)%Qc.
