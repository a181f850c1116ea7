(* Integration over time windows.

   Modelled code:
   - specula/processing_objects/windowed_integration.py (WindowedIntegration)
   - specula/processing_objects/ccd.py (CCD), exposure logic

   Times are integers (nanoseconds).  [u * loop_dt / dt] multiplies and divides by the
   floating-point images of the two integers; these images are parameters. *)
From Coq Require Import List Bool PeanoNat ZArith.
From Verif Require Import PyBase Arith FilterModel.
Import ListNotations.
Local Open Scope Z_scope.

Section Window.
Context {A : arith}.

(* ---------------------------------------------------------- WindowedIntegration *)

Record wcfg := mkW { w_loop : Z; w_dt : Z; w_start : Z; w_upd : bool; w_n : nat;
                     w_fl : A; w_fd : A }.    (* loop_dt and dt as numbers *)

Record wst := mkWst { w_out : vec A; w_int : vec A; w_gt : Z }.

(* __init__, windowed_integration.py:23-41; [%] by zero raises ZeroDivisionError *)
Definition winit (c : wcfg) : res wst :=
  if w_dt c <=? 0 then Err ValueError
  else if w_loop c =? 0 then Err ZeroDivisionError
  else if negb (w_dt c mod w_loop c =? 0) then Err ValueError
  else Ok (mkWst (zeros (w_n c)) (zeros (w_n c)) (-1)).

(* trigger_code, windowed_integration.py:51-66, at time [t] with input [u]; the input
   must have the size of the integrator or be a single value (numpy broadcasting) *)
Definition wtrigger (c : wcfg) (s : wst) (t : Z) (u : vec A) : res wst :=
  let s1 :=
    if (w_start c <=? 0) || (w_start c <=? t) then
      u' <- fit (w_n c) u ;;
      let out := map (fun x => x * 0)%ar (w_out s) in
      let int := vadd (w_int s) (map (fun x => (x * w_fl c) / w_fd c)%ar u') in
      if (t + w_loop c - w_dt c - w_start c) mod w_dt c =? 0 then
        Ok (mkWst int (map (fun x => x * 0)%ar int) (if w_upd c then t else w_gt s))
      else Ok (mkWst out int (w_gt s))
    else Ok s in
  s2 <- s1 ;;
  Ok (if w_upd c then s2 else mkWst (w_out s2) (w_int s2) t).

(* successive triggers; the state after each *)
Fixpoint wrun (c : wcfg) (s : wst) (us : list (Z * vec A)) : res (list wst) :=
  match us with
  | [] => Ok []
  | (t, u) :: r => s1 <- wtrigger c s t u ;; l <- wrun c s1 r ;; Ok (s1 :: l)
  end.

(* -------------------------------------------------------------------------- CCD *)

(* [R]: state of the random generators; [c_proc]: apply_binning, apply_qe and
   apply_noise (ccd.py:265-329), which overwrite the pixels in place with a function of
   the integrated intensity and the random state.  Frames are flattened arrays. *)
Record ccfg (R : Type) := mkC { c_loop : Z; c_dt : Z; c_start : Z; c_n : nat;
   c_factor : A;                                   (* t_to_seconds(loop_dt) * bandw *)
   c_proc : R -> vec A -> R * vec A }.
Arguments mkC {R}. Arguments c_loop {R}. Arguments c_dt {R}. Arguments c_start {R}.
Arguments c_n {R}. Arguments c_factor {R}. Arguments c_proc {R}.

Record cst (R : Type) := mkCst { c_int : vec A; c_pix : vec A; c_pt : Z; c_outi : vec A; c_ot : Z; c_rng : R }.
Arguments mkCst {R}. Arguments c_int {R}. Arguments c_pix {R}. Arguments c_pt {R}.
Arguments c_outi {R}. Arguments c_ot {R}. Arguments c_rng {R}.

(* __init__, ccd.py:123-131, 210-211.  Simplification: [dt <= 0] is tested on the time in
   nanoseconds instead of seconds. *)
Definition cinit {R} (c : ccfg R) (pix0 : vec A) (r0 : R) : res (cst R) :=
  if c_dt c <=? 0 then Err ValueError
  else if c_loop c =? 0 then Err ZeroDivisionError
  else if negb (c_dt c mod c_loop c =? 0) then Err ValueError
  else Ok (mkCst (zeros (c_n c)) pix0 (-1) (zeros (c_n c)) (-1) r0).

(* trigger_code, ccd.py:247-263; Intensity.sum, intensity.py:35-36.  An intensity of
   another size raises ValueError. *)
Definition ctrigger {R} (c : ccfg R) (s : cst R) (t : Z) (u : vec A) : res (cst R) :=
  if (0 <? c_start c) && (t <? c_start c) then Ok s
  else if negb (Nat.eqb (length u) (c_n c)) then Err ValueError
  else
    let int := vadd (c_int s) (map (fun x => x * c_factor c)%ar u) in
    if (t + c_loop c - c_dt c - c_start c) mod c_dt c =? 0 then
      let (r, pix) := c_proc c (c_rng s) int in
      Ok (mkCst (map (fun x => x * 0)%ar int) pix t int t r)
    else Ok (mkCst int (c_pix s) (c_pt s) (c_outi s) (c_ot s) (c_rng s)).

Fixpoint crun {R} (c : ccfg R) (s : cst R) (us : list (Z * vec A)) : res (list (cst R)) :=
  match us with
  | [] => Ok []
  | (t, u) :: r => s1 <- ctrigger c s t u ;; l <- crun c s1 r ;; Ok (s1 :: l)
  end.
End Window.
Arguments wcfg : clear implicits. Arguments wst : clear implicits.
Arguments ccfg : clear implicits. Arguments cst : clear implicits.
Arguments mkC {A R}. Arguments c_loop {A R}. Arguments c_dt {A R}. Arguments c_start {A R}.
Arguments c_n {A R}. Arguments c_factor {A R}. Arguments c_proc {A R}.
Arguments mkCst {A R}. Arguments c_int {A R}. Arguments c_pix {A R}. Arguments c_pt {A R}.
Arguments c_outi {A R}. Arguments c_ot {A R}. Arguments c_rng {A R}.
