(* Signal generators.

   Modelled code:
   - specula/processing_objects/base_generator.py (BaseGenerator)
   - specula/processing_objects/schedule_generator.py (ScheduleGenerator)
   - specula/processing_objects/time_history_generator.py (TimeHistoryGenerator)
   - specula/processing_objects/vibration_generator.py:136-141 (play-back part)
   - specula/processing_objects/push_pull_generator.py (PushPullGenerator)
   - specula/lib/modal_pushpull_signal.py (modal_pushpull_signal) *)
From Coq Require Import List Bool PeanoNat ZArith.
From Verif Require Import PyBase Arith FilterModel.
Import ListNotations.

(* ------------------------------------------------------------- BaseGenerator *)

(* State of a generator: output value, its generation time, iter_counter
   (base_generator.py:18-29) *)
Record gst (V : Type) := mkG { g_out : V; g_time : Z; g_iter : nat }.
Arguments mkG {V}. Arguments g_out {V}. Arguments g_time {V}. Arguments g_iter {V}.

(* one frame: trigger_code of the derived class, then post_trigger
   (base_generator.py:45-48) *)
Definition gstep {V} (code : Z -> nat -> res V) (s : gst V) (t : Z) : res (gst V) :=
  v <- code t (g_iter s) ;; Ok (mkG v t (S (g_iter s))).

Fixpoint grun {V} (code : Z -> nat -> res V) (s : gst V) (ts : list Z) : res (list (gst V)) :=
  match ts with
  | [] => Ok []
  | t :: r => s1 <- gstep code s t ;; l <- grun code s1 r ;; Ok (s1 :: l)
  end.

(* ----------------------------------------------------- time histories, play-back *)

(* trigger_code, time_history_generator.py:26-32 and vibration_generator.py:136-141;
   [time_hist[-1]] of an empty array raises IndexError *)
Definition th_code {V} (hist : list V) (iter : nat) : res V :=
  if Nat.ltb iter (length hist) then
    match nth_error hist iter with Some v => Ok v | None => Err IndexError end
  else match rev hist with v :: _ => Ok v | [] => Err IndexError end.

(* trigger_code, push_pull_generator.py:69-70 *)
Definition pp_code {V} (hist : list V) (iter : nat) : res V :=
  match nth_error hist iter with Some v => Ok v | None => Err IndexError end.

(* ------------------------------------------------------------- ScheduleGenerator *)

Section Sched.
Context {A : arith}.
Variable T : Type.                     (* times, after conversion to the array type *)
Variable leb : T -> T -> bool.

(* numpy.searchsorted(a, v, side='right'): binary search on [lo, hi).  [fuel] bounds the
   number of halvings; [length a] is enough. *)
Fixpoint search (fuel : nat) (a : list T) (v : T) (lo hi : nat) : nat :=
  match fuel with
  | 0 => lo
  | S f =>
      if Nat.ltb lo hi then
        let mid := lo + (hi - lo) / 2 in
        match nth_error a mid with
        | Some x => if leb x v then search f a v (S mid) hi else search f a v lo mid
        | None => lo
        end
      else lo
  end.
Definition searchsorted_right (a : list T) (v : T) : nat := search (length a) a v 0 (length a).

(* __init__, schedule_generator.py:18-41; modes_per_group is a list (an int is wrapped) *)
Definition sched_init (values : mat A) (times : list T) (modes : list nat) : res (mat A) :=
  if negb (Nat.eqb (length values) (length times + 1)) then Err ValueError
  else map_res (fun vs => if Nat.eqb (length modes) (length vs) then Ok (expand modes vs)
                          else Err ValueError) values.

(* trigger_code, schedule_generator.py:43-53 *)
Definition sched_code (expanded : mat A) (times : list T) (now : T) : res (vec A) :=
  let idx := Nat.min (searchsorted_right times now) (length expanded - 1) in
  match nth_error expanded idx with Some v => Ok v | None => Err IndexError end.
End Sched.
Arguments search {T}. Arguments searchsorted_right {T}. Arguments sched_init {A T}. Arguments sched_code {A T}.

(* --------------------------------------------------------- modal_pushpull_signal *)

Section PushPull.
Context {A : arith}.
Local Open Scope ar_scope.

Definition set_nth {B} (j : nat) (x : B) (l : list B) : list B :=
  map (fun i => if Nat.eqb i j then x else nth i l x) (seq 0 (length l)).

(* [M[r0 : r0 + len(vals), c] = vals] *)
Definition assign_rows (M : mat A) (r0 c : nat) (vals : vec A) : mat A :=
  map (fun r => let row := nth r M [] in
         if Nat.leb r0 r && Nat.ltb r (r0 + length vals) then set_nth c (nth (r - r0) vals 0) row else row)
      (seq 0 (length M)).

(* xp.repeat(v, n) / xp.repeat(M, n, axis=0) *)
Definition np_repeat {B} (l : list B) (n : nat) : list B := concat (map (fun x => repeat x n) l).
(* xp.tile(M, [n, 1]) *)
Definition np_tile {B} (l : list B) (n : nat) : list B := concat (repeat l n).

(* modal_pushpull_signal, modal_pushpull_signal.py:87-126.  [amps] is vect_amplitude, given
   by the caller or computed by lines 90-99 (not modelled: radial orders, square root).
   Simplification: counts are natural numbers. *)
Definition pushpull (n_modes first : nat) (amps pattern0 : vec A) (only_push : bool)
    (ncycles nsamples : nat) (repeat_ncycles repeat_full : bool) : res (mat A) :=
  let pattern := if only_push then [1] else pattern0 in
  let va := repeat 0 first ++ amps in
  let n_pokes := length pattern in
  let cycles := if repeat_full then 1%nat else ncycles in
  if Nat.ltb n_modes first && Nat.ltb 0 (n_pokes * cycles) then Err ValueError   (* negative array size *)
  else
    let real := (n_modes - first)%nat in
    hist <- fold_res (fun M mode =>
       let h := (mode - first)%nat in
       match nth_error va mode with
       | None => Err IndexError
       | Some a =>
           let poke := map (fun p => a * p) pattern in
           if repeat_ncycles && negb repeat_full then
             Ok (assign_rows M (n_pokes * h * cycles) mode (np_repeat poke cycles))
           else
             Ok (fold_left (fun M j => assign_rows M (n_pokes * (cycles * h + j)) mode poke) (seq 0 cycles) M)
       end) (mzeros (n_pokes * real * cycles) n_modes) (seq first real) ;;
    let hist := if repeat_full then np_tile hist ncycles else hist in
    Ok (np_repeat hist nsamples).

(* PushPullGenerator.__init__, push_pull_generator.py:25-67 *)
Inductive pp_type := PUSH | PUSHPULL | OtherType.
Definition pp_init (ty : pp_type) (n_modes first : nat) (amps : option (vec A)) (pattern : vec A)
    (ncycles nsamples : nat) (repeat_ncycles repeat_full : bool) : res (mat A) :=
  match amps with
  | None => Err ValueError           (* neither amp nor vect_amplitude *)
  | Some amps =>
      if negb (Nat.eqb nsamples 1) && match ty with PUSHPULL => false | _ => true end then Err ValueError
      else match ty with
           | PUSH => pushpull n_modes first amps [1; opp 1] true ncycles 1 repeat_ncycles repeat_full
           | PUSHPULL => pushpull n_modes first amps pattern false ncycles nsamples repeat_ncycles repeat_full
           | OtherType => Err ValueError
           end
  end.
End PushPull.
