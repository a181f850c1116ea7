(* What interpolation means. *)
From Coq Require Import List ZArith Bool Arith QArith Qcanon.
From Verif Require Import Arith FilterSpec RebinModel SlopecSpec.
Local Open Scope Qc_scope.

(* a tent of height 1 and half width 1 *)
Definition tent (t : Qc) : Qc := if Qclt_le_dec t (-(1)) then 0 else if Qclt_le_dec t 0 then 1 + t else if Qclt_le_dec t 1 then 1 - t else 0.
(* the value at (y, x) of the surface made of one tent per pixel *)
Definition surface (r c : nat) (v : nat -> nat -> Qc) (y x : Qc) : Qc :=
  sumn (A:=qc) r (fun i => sumn (A:=qc) c (fun j => v i j * (tent (y - qnat i) * tent (x - qnat j)))).
(* the point of 0 .. n-1 closest to x *)
Definition nearest (n : nat) (x : Qc) : Qc := if Qclt_le_dec x 0 then 0 else if Qclt_le_dec (qnat (n - 1)) x then qnat (n - 1) else x.
(* the point of the input seen at (y, x): dilation and rotation (cosine, sine) about the middle
   of an input of r x c pixels, then a shift *)
Definition middle (n : nat) : Qc := (qnat n - 1) / (1 + 1).
Definition seen (r c : nat) (rot : Qc * Qc) (mag rs cs y x : Qc) : Qc * Qc :=
  let u := (x - middle c) / mag in let w := (y - middle r) / mag in
  (u * snd rot + w * fst rot + middle r + rs, u * fst rot - w * snd rot + middle c + cs).
Definition angle (rot : option (Qc * Qc)) : Qc * Qc := match rot with Some p => p | None => (1, 0) end.
