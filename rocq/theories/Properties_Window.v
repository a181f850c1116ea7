(* C34-C36: integration over time windows and detector exposures.

   [A] is an arbitrary arithmetic; [is_field A] marks results that need exact arithmetic. *)
From Coq Require Import List Bool PeanoNat ZArith QArith Qcanon Lia Field.
From Verif Require Import PyBase Arith ArithLemmas FilterModel FilterSpec SumLemmas MultirateModel MultirateProofs
  WindowModel WindowSpec WindowProofs Properties_Filter.
Import ListNotations.
Local Open Scope nat_scope.

(* ----------------------------------------------------------------------- C34, C35 *)

(* C34: whatever the trigger times, a window that ends at a trigger puts out the sum of
   the weighted inputs of its triggers; other triggers put out zero. *)
Theorem C34_window_sum : forall A (HF : is_field A) (c : wcfg A) s0 us l m k i,
  winit c = Ok s0 -> wrun c s0 us = Ok l ->
  k < length us -> i < w_n c -> begun (w_start c) (time_of us k) ->
  window (w_loop c) (w_dt c) (w_start c) us m k ->
  (window_end (w_loop c) (w_dt c) (w_start c) (time_of us k) ->
     nth i (w_out (nth k l s0)) zer =
     sumn (S k - m) (fun j => if begunb (w_start c) (time_of us (m + j))
                              then (val_of (w_n c) us (m + j) i * w_fl c / w_fd c)%ar else zer)) /\
  (~ window_end (w_loop c) (w_dt c) (w_start c) (time_of us k) -> nth i (w_out (nth k l s0)) zer = zer).
Proof. intros. apply window_output; auto. Qed.
Print Assumptions C34_window_sum.

(* each input counts exactly once: what has been put out plus what is pending is the sum
   of all the inputs *)
Theorem C34_each_input_once : forall A (HF : is_field A) (c : wcfg A) s0 us l k i,
  winit c = Ok s0 -> wrun c s0 us = Ok l -> k < length us -> i < w_n c ->
  (sumn (S k) (fun j => if begunb (w_start c) (time_of us j) then nth i (w_out (nth j l s0)) zer else zer)
     + nth i (w_int (nth k l s0)) zer)%ar =
  sumn (S k) (fun j => if begunb (w_start c) (time_of us j)
                       then (val_of (w_n c) us j i * w_fl c / w_fd c)%ar else zer).
Proof. intros A HF c s0 us l k i E0 E Hk Hi. apply (window_conserves A HF c s0 us l E0 E (S k)); auto. Qed.
Print Assumptions C34_each_input_once.

(* with one trigger per step and a window of [N] steps the output is the average *)
Theorem C34_average : forall A (HF : is_field A) (c : wcfg A) s0 us l N z b i,
  winit c = Ok s0 -> wrun c s0 us = Ok l -> (0 < w_loop c)%Z -> 0 < N ->
  w_dt c = (Z.of_nat N * w_loop c)%Z -> w_start c = (Z.of_nat z * w_loop c)%Z -> every_step (w_loop c) us ->
  w_fd c = (of_nat N * w_fl c)%ar -> w_fd c <> zer ->
  z + b * N + (N - 1) < length us -> i < w_n c ->
  (of_nat N * nth i (w_out (nth (z + b * N + (N - 1)) l s0)) zer)%ar = sumn N (fun j => val_of (w_n c) us (z + b * N + j) i).
Proof.
  intros A HF c s0 us l N z b i E0 E Hl HN Hd Hs He Hf Hnz Hk Hi.
  destruct (window_regular A HF c s0 us l N z E0 E Hl HN Hd Hs He) as [_ H].
  rewrite (H b (N - 1)) by (auto; lia). rewrite Nat.eqb_refl.
  rewrite <- (sumn_scale A HF). apply sumn_ext. intros j Hj.
  assert (HF' : field_theory (@zer A) one add mul sub opp dvd inv eq) by exact HF.
  clear - HF' Hf Hnz. set (v := val_of _ _ _ _).
  assert (Hm : forall a b x : A, b <> zer -> b = (a * x)%ar -> (a * (v * x / b))%ar = v).
  { intros a b0 x Hb Hab.
    transitivity (v * (a * x) / b0)%ar.
    - rewrite !(Fdiv_def HF'). pose proof (F_R HF') as R.
      rewrite !(Rmul_assoc R), (Rmul_comm R a v). reflexivity.
    - rewrite <- Hab, (Fdiv_def HF'), <- (Rmul_assoc (F_R HF')), (Rmul_comm (F_R HF') b0), (Finv_l HF') by auto.
      rewrite (Rmul_comm (F_R HF')). apply (Rmul_1_l (F_R HF')). }
  apply Hm; auto.
Qed.
Print Assumptions C34_average.

(* C35: with a start on a loop step, the emissions are exactly the last steps of the
   consecutive windows of [N] steps; elsewhere the output is zero *)
Theorem C35_emission_times : forall A (HF : is_field A) (c : wcfg A) s0 us l N z,
  winit c = Ok s0 -> wrun c s0 us = Ok l -> (0 < w_loop c)%Z -> 0 < N ->
  w_dt c = (Z.of_nat N * w_loop c)%Z -> w_start c = (Z.of_nat z * w_loop c)%Z -> every_step (w_loop c) us ->
  (forall k i, k < length us -> k < z -> i < w_n c -> nth i (w_out (nth k l s0)) zer = zer) /\
  (forall b o i, o < N -> z + b * N + o < length us -> i < w_n c ->
     nth i (w_out (nth (z + b * N + o) l s0)) zer =
     if Nat.eqb o (N - 1) then sumn N (fun j => (val_of (w_n c) us (z + b * N + j) i * w_fl c / w_fd c)%ar) else zer).
Proof. intros. eapply window_regular; eauto. Qed.
Print Assumptions C35_emission_times.

(* the time stamp moves at emissions only, if so requested *)
Theorem C35_time_stamp : forall A (HF : is_field A) (c : wcfg A) s0 us l k,
  winit c = Ok s0 -> wrun c s0 us = Ok l -> k < length us ->
  w_gt (nth k l s0) =
  if w_upd c then
    if begunb (w_start c) (time_of us k) && endb (w_loop c) (w_dt c) (w_start c) (time_of us k)
    then time_of us k else w_gt (match k with 0 => s0 | S p => nth p l s0 end)
  else time_of us k.
Proof. intros A HF c s0 us l k E0 E Hk. apply (window_stamp A HF c s0 us l E0 E k Hk). Qed.
Print Assumptions C35_time_stamp.

(* a start that is not on a loop step is accepted, and nothing is ever put out *)
Theorem C35_misaligned_never_emits : forall A (HF : is_field A) (c : wcfg A) s0 us l k i,
  winit c = Ok s0 -> wrun c s0 us = Ok l -> every_step (w_loop c) us ->
  (w_start c mod w_loop c)%Z <> 0%Z -> k < length us -> i < w_n c ->
  nth i (w_out (nth k l s0)) zer = zer.
Proof. intros. eapply window_misaligned; eauto. Qed.
Print Assumptions C35_misaligned_never_emits.

Definition steps_of (loop : Z) (vs : list (vec qc)) : list (Z * vec qc) :=
  combine (map (fun k => (Z.of_nat k * loop)%Z) (seq 0 (length vs))) vs.
Definition wshow (c : wcfg qc) (us : list (Z * vec qc)) :=
  match winit c with
  | Ok s0 => match wrun c s0 us with Ok l => Some (map (fun s : wst qc => map this (w_out s)) l, map w_gt l) | Err _ => None end
  | Err _ => None end.
Definition ramp (n : nat) : list (vec qc) := map (fun k => [qi (Z.of_nat k)]) (seq 1 n).

(* 3-step windows from step 1: averages of 2,3,4 and of 5,6,7 *)
Example C34_example : wshow (mkW 10%Z 30%Z 10%Z true 1 (qi 10) (qi 30)) (steps_of 10 (ramp 8)) =
  Some ([[0]; [0]; [0]; [3]; [0]; [0]; [6]; [0]]%Q, [-1; -1; -1; 30; 30; 30; 60; 60]%Z).
Proof. vm_compute. reflexivity. Qed.

(* an accepted start time for which the first window is too short, and one for which
   nothing comes out *)
Theorem C35_any_start_refuted :
  (wshow (mkW 10%Z 30%Z (-10)%Z true 1 (qi 10) (qi 30)) (steps_of 10 (ramp 5)) =
   Some ([[0]; [1]; [0]; [0]; [4]]%Q, [-1; 10; 10; 10; 40]%Z)) /\
  (wshow (mkW 10%Z 30%Z 5%Z true 1 (qi 10) (qi 30)) (steps_of 10 (ramp 7)) =
   Some ([[0]; [0]; [0]; [0]; [0]; [0]; [0]]%Q, [-1; -1; -1; -1; -1; -1; -1]%Z)).
Proof. split; vm_compute; reflexivity. Qed.
Print Assumptions C35_any_start_refuted.

(* --------------------------------------------------------------------------- C36 *)

(* C36: a frame is the processed sum of the intensities of its exposure; both outputs are
   stamped with the current time *)
Theorem C36_frame_content : forall A (HF : is_field A) R (c : ccfg A R) pix0 r0 s0 us l m k,
  cinit c pix0 r0 = Ok s0 -> crun c s0 us = Ok l ->
  k < length us -> begun (c_start c) (time_of us k) ->
  window_end (c_loop c) (c_dt c) (c_start c) (time_of us k) ->
  window (c_loop c) (c_dt c) (c_start c) us m k ->
  let s := nth k l s0 in
  let before := match k with 0 => s0 | S p => nth p l s0 end in
  c_pt s = time_of us k /\ c_ot s = time_of us k /\ length (c_outi s) = c_n c /\
  (forall i, i < c_n c -> nth i (c_outi s) zer =
     sumn (S k - m) (fun j => if begunb (c_start c) (time_of us (m + j))
                              then (val_of (c_n c) us (m + j) i * c_factor c)%ar else zer)) /\
  (c_rng s, c_pix s) = c_proc c (c_rng before) (c_outi s).
Proof. intros. eapply ccd_frame; eauto. Qed.
Print Assumptions C36_frame_content.

(* between exposure ends the frame, its time stamp and the random state do not change *)
Theorem C36_frame_holds : forall A (HF : is_field A) R (c : ccfg A R) pix0 r0 s0 us l k,
  cinit c pix0 r0 = Ok s0 -> crun c s0 us = Ok l -> k < length us ->
  ~ (begun (c_start c) (time_of us k) /\ window_end (c_loop c) (c_dt c) (c_start c) (time_of us k)) ->
  let s := nth k l s0 in
  let before := match k with 0 => s0 | S p => nth p l s0 end in
  c_pix s = c_pix before /\ c_pt s = c_pt before /\ c_outi s = c_outi before /\ c_ot s = c_ot before /\
  c_rng s = c_rng before.
Proof. intros. eapply ccd_hold; eauto. Qed.
Print Assumptions C36_frame_holds.

(* one trigger per step: frames at the ends of consecutive exposures of [N] steps, each
   made of its own [N] intensities *)
Theorem C36_exposures : forall A (HF : is_field A) R (c : ccfg A R) pix0 r0 s0 us l N z,
  cinit c pix0 r0 = Ok s0 -> crun c s0 us = Ok l -> (0 < c_loop c)%Z -> 0 < N ->
  c_dt c = (Z.of_nat N * c_loop c)%Z -> c_start c = (Z.of_nat z * c_loop c)%Z -> every_step (c_loop c) us ->
  forall b o, o < N -> z + b * N + o < length us ->
  let k := z + b * N + o in
  let s := nth k l s0 in
  let before := match k with 0 => s0 | S p => nth p l s0 end in
  if Nat.eqb o (N - 1) then
    c_pt s = time_of us k /\ c_ot s = time_of us k /\
    (forall i, i < c_n c -> nth i (c_outi s) zer = sumn N (fun j => (val_of (c_n c) us (z + b * N + j) i * c_factor c)%ar)) /\
    (c_rng s, c_pix s) = c_proc c (c_rng before) (c_outi s)
  else c_pix s = c_pix before /\ c_pt s = c_pt before /\ c_outi s = c_outi before /\ c_ot s = c_ot before.
Proof. intros. eapply ccd_regular; eauto. Qed.
Print Assumptions C36_exposures.

(* exposures of two steps, factor 1/2, "noise" adding the number of frames so far *)
Definition ccd_ex : ccfg qc Z :=
  mkC 10%Z 20%Z 0%Z 2 (qf 1 2) (fun r v => ((r + 1)%Z, map (fun x : qc => (x + qi r)%ar) v)).
Example C36_example :
  match cinit ccd_ex [qi 0; qi 0] 0%Z with
  | Ok s0 => match crun ccd_ex s0 (steps_of 10 (map (fun k => [qi (Z.of_nat k); qi 2]) (seq 1 5))) with
             | Ok l => Some (map (fun s : cst qc Z => (map this (c_outi s), map this (c_pix s))) l, map c_pt l)
             | Err _ => None end
  | Err _ => None end =
  Some ([([0;0], [0;0]); ([3#2;2], [3#2;2]); ([3#2;2], [3#2;2]); ([7#2;2], [9#2;3]); ([7#2;2], [9#2;3])]%Q,
        [-1; 10; 10; 30; 30]%Z).
Proof. vm_compute. reflexivity. Qed.
