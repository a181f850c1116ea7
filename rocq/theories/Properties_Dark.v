(* C90: dark frames measured while the simulation runs. *)
From Coq Require Import List Bool PeanoNat ZArith QArith Qcanon Lia.
From Verif Require Import PyBase Arith ArithLemmas FilterSpec SumLemmas MultirateModel DarkModel DarkProofs Properties_Filter.
Import ListNotations.
Local Open Scope nat_scope.

(* the frames have the size of the images; no new number of frames; no trigger *)
Definition of_size {A} size (es : list (dframe A)) := Forall (fun e => length (d_pix e) = size) es.
Definition same_number {A} (es : list (dframe A)) := Forall (fun e => d_n e = None) es.
Definition no_trigger {A} (es : list (dframe A)) := Forall (fun e => d_trigger e = false) es.
Definition nth_frame {A} (es : list (dframe A)) k := nth k es (mkDF 0 [] false false None None).
Definition pixel {A : arith} (es : list (dframe A)) k p : A := nth p (d_pix (nth_frame es k)) 0%ar.
(* a state that the object can be in *)
Definition reached {A : arith} size (s : dark A) := exists n s0 es,
  dark_init n size = Ok s0 /\ of_size size es /\ dark_run s0 es = Ok s.

(* example material *)
Definition fr (t : Z) (x y : Z) (tr re : bool) : dframe qc := mkDF t [qi x; qi y] tr re None None.
Definition start (n : nat) : dark qc := mkDk n 0 (zeros 2) (zeros 2) (-1) (zeros 2) (-1).
Lemma start_ok n : n <> 0 -> dark_init n 2 = Ok (start n).
Proof. intros H. unfold dark_init. destruct (Nat.eqb_spec n 0); [contradiction|reflexivity]. Qed.
Definition kshow (r : res (dark qc)) := match r with Ok s => Some (map this (k_dark s), k_dark_t s, map this (k_sub s)) | Err _ => None end.

Lemma reached_good (A : arith) (HF : is_field A) size (s : dark A) : reached size s -> good A size s.
Proof.
  intros (n & s0 & es & H1 & H2 & H3). destruct (good_init A size n s0 H1) as [G _]. exact (run_good A HF size es s0 s G H2 H3).
Qed.

(* From an idle object, a trigger and n frames give the mean of these n frames, stamped with the last one. *)
Theorem C90_mean : forall A, is_field A -> forall size (s s' : dark A) e es,
  reached size s -> k_left s = 0 -> of_size size (e :: es) -> same_number (e :: es) ->
  d_trigger e = true -> no_trigger es -> S (length es) = k_n s -> dark_run s (e :: es) = Ok s' ->
  (forall p, p < size -> nth p (k_dark s') 0%ar = (sumn (k_n s) (fun m => pixel (e :: es) m p) / of_nat (k_n s))%ar) /\
  k_dark_t s' = d_time (last (e :: es) e) /\ k_left s' = 0 /\ k_n s' = k_n s.
Proof.
  intros A HF size s s' e es R K F1 F2 T Q L E. pose proof (reached_good A HF size s R) as G.
  destruct (acquired A HF size s e es s' G F1 F2 T Q L E) as (I1 & I2 & I3 & I4).
  split; [|split; [|auto]].
  - intros p Hp. rewrite I4 by auto. destruct G as (_ & _ & _ & G). rewrite (G K). rewrite (add_0_l' A HF). reflexivity.
  - rewrite I3. clear. revert e. induction es; intros e; auto. change (d_time (last (a :: es) (df0 A)) = d_time (last (a :: es) e)).
    rewrite IHes. destruct es; auto. f_equal. clear. revert d. induction es; intros; auto. apply IHes.
Qed.
Print Assumptions C90_mean.

(* Before the last of the n frames the dark frame is the old one (zero after a reset). *)
Theorem C90_wait : forall A, is_field A -> forall size (s s' : dark A) e es,
  reached size s -> of_size size (e :: es) -> same_number (e :: es) ->
  d_trigger e = true -> no_trigger es -> S (length es) < k_n s -> dark_run s (e :: es) = Ok s' ->
  forall p, nth p (k_dark s') 0%ar = if existsb (fun f => d_reset f) (e :: es) then 0%ar else nth p (k_dark s) 0%ar.
Proof.
  intros A HF size s s' e es R F1 F2 T Q L E. pose proof (reached_good A HF size s R) as G.
  destruct (acquiring A HF size s e es s' G F1 F2 T Q L E) as (_ & _ & I3 & _). exact I3.
Qed.
Print Assumptions C90_wait.

(* An idle object without trigger stays idle and keeps its dark frame, but for resets. *)
Theorem C90_idle : forall A, is_field A -> forall size (s s' : dark A) es,
  reached size s -> k_left s = 0 -> of_size size es -> same_number es -> no_trigger es -> dark_run s es = Ok s' ->
  k_left s' = 0 /\ forall p, nth p (k_dark s') 0%ar = if existsb (fun f => d_reset f) es then 0%ar else nth p (k_dark s) 0%ar.
Proof.
  intros A HF size s s' es R K F1 F2 Q E. pose proof (reached_good A HF size s R) as G.
  destruct (wait A HF size es s s' G F1 F2 Q (or_intror K) E) as (_ & I2 & I3 & _). split; [lia|exact I3].
Qed.
Print Assumptions C90_idle.

(* Every frame is shown minus the dark frame in force before it (zero when a reset arrives with it). *)
Theorem C90_subtract : forall A, is_field A -> forall size (s s' : dark A) e,
  reached size s -> length (d_pix e) = size -> dark_step s e = Ok s' ->
  k_sub_t s' = d_time e /\
  forall p, p < size -> nth p (k_sub s') 0%ar = (nth p (d_pix e) 0 - (if d_reset e then 0 else nth p (k_dark s) 0))%ar.
Proof.
  intros A HF size s s' e R L E. pose proof (reached_good A HF size s R) as G.
  destruct (step_facts A HF size s e s' G L E) as (_ & _ & H1 & H2 & _). split; auto.
Qed.
Print Assumptions C90_subtract.

(* A second trigger before the end: the frames of the first acquisition stay in the sum. *)
Theorem C90_restarted : forall A, is_field A -> forall size (s s' : dark A) e1 r1 e2 r2,
  reached size s -> k_left s = 0 -> of_size size (e1 :: r1) -> of_size size (e2 :: r2) -> same_number (e1 :: r1) -> same_number (e2 :: r2) ->
  d_trigger e1 = true -> no_trigger r1 -> d_trigger e2 = true -> no_trigger r2 ->
  S (length r1) < k_n s -> S (length r2) = k_n s -> dark_run s ((e1 :: r1) ++ (e2 :: r2)) = Ok s' ->
  forall p, p < size -> nth p (k_dark s') 0%ar =
    (sumn (S (length r1) + k_n s)%nat (fun m => pixel ((e1 :: r1) ++ (e2 :: r2)) m p) / of_nat (k_n s))%ar.
Proof.
  intros A HF size s s' e1 r1 e2 r2 R K F1 F2 S1 S2 T1 Q1 T2 Q2 L1 L2 E. pose proof (reached_good A HF size s R) as G.
  exact (restarted A HF size s e1 r1 e2 r2 s' G K F1 F2 S1 S2 T1 Q1 T2 Q2 L1 L2 E).
Qed.
Print Assumptions C90_restarted.

(* A run succeeds exactly when every new number of frames is a positive number and every file can be read. *)
Theorem C90_ok : forall A (s : dark A) es, (exists s', dark_run s es = Ok s') <->
  Forall (fun e => match d_n e with Some (Some z) => (0 < z)%Z | Some None => False | None => True end /\ d_load e <> Some None) es.
Proof. intros A s es. exact (run_ok A es s). Qed.
Print Assumptions C90_ok.

Example C90_example :
  kshow (dark_run (start 2) [fr 1 7 8 false false; fr 2 1 2 true false; fr 3 3 5 false false; fr 4 10 10 false false]) =
  Some ([2; 7 # 2], 3%Z, [8; 13 # 2])%Q.
Proof. vm_compute. reflexivity. Qed.

(* After a second trigger the dark frame is not the mean of the n frames that follow it. *)
Theorem C90_restart_refuted : exists (s' : dark qc) es,
  dark_run (start 2) es = Ok s' /\ length es = 3 /\ d_trigger (nth_frame es 1) = true /\ k_left s' = 0 /\
  nth 0 (k_dark s') 0%ar <> (sumn 2 (fun m => pixel es (S m) 0) / of_nat 2)%ar.
Proof.
  eexists _, [fr 1 8 8 true false; fr 2 1 2 true false; fr 3 3 5 false false].
  split; [reflexivity|]. split; [reflexivity|]. split; [reflexivity|]. split; [reflexivity|].
  intros Q. apply (f_equal this) in Q. vm_compute in Q. discriminate.
Qed.
Print Assumptions C90_restart_refuted.

(* A new number of frames arriving with the trigger: as many frames as before are taken, and their sum is
   divided by the new number. *)
Theorem C90_number_refuted : exists (s' : dark qc) e1 e2 m,
  dark_run (start 2) [e1; e2] = Ok s' /\ d_trigger e1 = true /\ d_n e1 = Some (Some (Z.of_nat m)) /\ k_left s' = 0 /\
  nth 0 (d_pix e1) 0%ar = nth 0 (d_pix e2) 0%ar /\ nth 0 (k_dark s') 0%ar <> nth 0 (d_pix e1) 0%ar.
Proof.
  eexists _, (mkDF 1 [qi 6; qi 6] true false (Some (Some 3%Z)) None), (fr 2 6 6 false false), 3.
  split; [reflexivity|]. split; [reflexivity|]. split; [reflexivity|]. split; [reflexivity|]. split; [reflexivity|].
  intros Q. apply (f_equal this) in Q. vm_compute in Q. discriminate.
Qed.
Print Assumptions C90_number_refuted.

(* A loaded file is stamped but not used. *)
Theorem C90_load_refuted : exists (s' : dark qc) e v,
  d_load e = Some (Some v) /\ dark_step (start 2) e = Ok s' /\ k_dark_t s' = d_time e /\ k_dark s' <> v /\ k_dark s' = k_dark (start 2).
Proof.
  eexists _, (mkDF 1 [qi 6; qi 6] false false None (Some (Some [qi 1; qi 2]))), [qi 1; qi 2].
  split; [reflexivity|]. split; [reflexivity|]. split; [reflexivity|]. split; [|reflexivity].
  intros Q. apply (f_equal (map this)) in Q. vm_compute in Q. discriminate.
Qed.
Print Assumptions C90_load_refuted.

(* A wrong value on an interactive input stops the simulation. *)
Theorem C90_protected_refuted : exists (s : dark qc) e1 e2,
  d_n e1 = Some (Some 0%Z) /\ dark_step s e1 = Err AttributeError /\
  d_load e2 = Some None /\ dark_step s e2 = Err AttributeError.
Proof.
  exists (start 2), (mkDF 1 [qi 6; qi 6] false false (Some (Some 0%Z)) None), (mkDF 1 [qi 6; qi 6] false false None (Some None)).
  repeat split; reflexivity.
Qed.
Print Assumptions C90_protected_refuted.

(* A reset changes the dark frame without stamping it. *)
Theorem C90_reset_time_refuted : exists (s s' : dark qc) e,
  reached 2 s /\ d_reset e = true /\ dark_step s e = Ok s' /\ k_dark s' <> k_dark s /\ k_dark_t s' = k_dark_t s /\ d_time e <> k_dark_t s'.
Proof.
  assert (H : exists s, dark_run (start 1) [fr 1 6 6 true false] = Ok s) by (eexists; reflexivity). destruct H as [s E].
  assert (H : exists s', dark_step s (fr 2 1 1 false true) = Ok s').
  { injection E as <-. eexists. reflexivity. } destruct H as [s' E'].
  exists s, s', (fr 2 1 1 false true).
  split. { exists 1, (start 1), [fr 1 6 6 true false]. split; [reflexivity|]. split; [repeat constructor|exact E]. }
  split; [reflexivity|]. split; [exact E'|]. injection E as <-. injection E' as <-.
  split; [|split; [reflexivity|discriminate]]. intros Q. apply (f_equal (map this)) in Q. vm_compute in Q. discriminate.
Qed.
Print Assumptions C90_reset_time_refuted.

(* At least one frame is needed for a dark. *)
Theorem C90_no_frames : forall A size, dark_init (A := A) 0 size = Err ValueError.
Proof. reflexivity. Qed.
Print Assumptions C90_no_frames.
