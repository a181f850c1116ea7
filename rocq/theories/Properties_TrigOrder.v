(* C02-C06: the trigger order. *)
From Coq Require Import String List ZArith Lia.
From Verif Require Import PyBase NamesModel NamesSpec TrigOrderModel TrigOrderSpec TrigOrderProofs ScaoExample.
Import ListNotations.
Local Open Scope string_scope.

(* C02: every same-step producer is scheduled, earlier and with a smaller index. *)
Theorem C02_producer_strictly_earlier : forall ps order idx j c p,
  wf_params ps -> delays_ok ps -> build_trigger_order ps = Ok (order, idx) ->
  nth_error order j = Some c -> reads ps c p 0 ->
  exists i ii jj, i < j /\ ii < jj /\ nth_error order i = Some p /\
    nth_error idx i = Some ii /\ nth_error idx j = Some jj.
Proof. exact now_order. Qed.
Print Assumptions C02_producer_strictly_earlier.

(* The hypothesis on delays is needed: with a positive delay in a list of inputs a
   consumer is scheduled before its same-step producer. *)
Theorem C02_positive_delay_refuted : exists ps order idx i j c p,
  wf_params ps /\ inputs_ok ps /\ build_trigger_order ps = Ok (order, idx) /\
  reads ps c p 0 /\ nth_error order i = Some c /\ nth_error order j = Some p /\ i < j.
Proof.
  exists [("c", [ins [("x", YList [YStr "p.out"; YStr "q.out:1"])]]); ("p", []); ("q", [])].
  exists ["c"; "p"; "q"], [0; 0; 0], 0, 1, "c", "p".
  repeat split; try reflexivity; try lia.
  - apply (wf_check_ok); reflexivity.
  - apply (wf_check_ok [("c", [ins [("x", YList [YStr "p.out"; YStr "q.out:1"])]]); ("p", []); ("q", [])]); reflexivity.
  - apply (wf_check_ok [("c", [ins [("x", YList [YStr "p.out"; YStr "q.out:1"])]]); ("p", []); ("q", [])]); reflexivity.
  - apply (inputs_check_ok [("c", [ins [("x", YList [YStr "p.out"; YStr "q.out:1"])]]); ("p", []); ("q", [])] eq_refl c pc); auto.
  - apply (inputs_check_ok [("c", [ins [("x", YList [YStr "p.out"; YStr "q.out:1"])]]); ("p", []); ("q", [])] eq_refl c pc); auto.
  - apply reads_check_ok; reflexivity.
Qed.
Print Assumptions C02_positive_delay_refuted.

(* C03 *)
Theorem C03_terminates : forall ps, build_trigger_order ps <> Err OutOfFuel.
Proof. exact build_terminates. Qed.
Print Assumptions C03_terminates.

Theorem C03_shape : forall ps order idx,
  wf_params ps -> build_trigger_order ps = Ok (order, idx) ->
  NoDup order /\ (forall c, In c order -> declared ps c) /\ length idx = length order /\
  (forall x, nth_error idx 0 = Some x -> x = 0) /\
  (forall j x y, nth_error idx j = Some x -> nth_error idx (S j) = Some y -> y = x \/ y = S x).
Proof. exact build_shape. Qed.
Print Assumptions C03_shape.

(* C04 *)
Theorem C04_delayed_consumer_first : forall ps order idx j p c d,
  wf_params ps -> delays_ok ps -> build_trigger_order ps = Ok (order, idx) ->
  nth_error order j = Some p -> reads ps c p d -> (d < 0)%Z ->
  exists i ii jj, i < j /\ ii <= jj /\ nth_error order i = Some c /\
    nth_error idx i = Some ii /\ nth_error idx j = Some jj.
Proof. exact delayed_order. Qed.
Print Assumptions C04_delayed_consumer_first.

(* C05: a complete schedule is found exactly when one exists. *)
Theorem C05_schedulable_is_scheduled : forall ps rank,
  wf_params ps -> delays_ok ps -> inputs_ok ps -> valid_rank ps rank ->
  exists order idx, build_trigger_order ps = Ok (order, idx) /\ forall c, declared ps c -> In c order.
Proof. exact schedulable_complete. Qed.
Print Assumptions C05_schedulable_is_scheduled.

Theorem C05_scheduled_is_schedulable : forall ps order idx,
  wf_params ps -> delays_ok ps -> build_trigger_order ps = Ok (order, idx) ->
  (forall c, declared ps c -> In c order) -> exists rank, valid_rank ps rank.
Proof. exact complete_schedulable. Qed.
Print Assumptions C05_scheduled_is_schedulable.

(* C06: a missing object waits for another missing (or undeclared) object; an
   algebraic loop is never scheduled. *)
Theorem C06_missing_waits_for_missing : forall ps order idx c,
  wf_params ps -> delays_ok ps -> build_trigger_order ps = Ok (order, idx) ->
  declared ps c -> ~ In c order -> exists p, reads ps c p 0 /\ ~ In p order.
Proof. exact missing_reads_missing. Qed.
Print Assumptions C06_missing_waits_for_missing.

Theorem C06_loop_never_scheduled : forall ps order idx (L : string -> Prop),
  wf_params ps -> delays_ok ps -> build_trigger_order ps = Ok (order, idx) ->
  (forall c, L c -> exists p, L p /\ reads ps c p 0) ->
  forall c, L c -> ~ In c order.
Proof. exact loop_never_scheduled. Qed.
Print Assumptions C06_loop_never_scheduled.

(* The hypotheses hold for the SCAO configuration shipped with the code. *)
Example scao_wf : wf_params scao. Proof. apply wf_check_ok; reflexivity. Qed.
Example scao_delays : delays_ok scao. Proof. apply delays_check_ok; reflexivity. Qed.
Example scao_inputs : inputs_ok scao. Proof. apply inputs_check_ok; reflexivity. Qed.
Example scao_order : build_trigger_order scao =
  Ok (["main"; "seeing"; "wind_speed"; "wind_direction"; "on_axis_source"; "pupilstop"; "launcher";
       "atmo"; "prop"; "sh"; "psf"; "data_store"; "detector"; "slopec"; "rec"; "control"; "dm"],
      [0; 0; 0; 0; 0; 0; 0; 1; 2; 3; 3; 3; 4; 5; 6; 7; 8]).
Proof. reflexivity. Qed.
Example scao_reads_now : reads scao "sh" "prop" 0. Proof. apply reads_check_ok; reflexivity. Qed.
Example scao_reads_delayed : reads scao "prop" "dm" (-1). Proof. apply reads_check_ok; reflexivity. Qed.
Example scao_rank : exists rank, valid_rank scao rank.
Proof.
  exists (fun c => index_of c ["main"; "seeing"; "wind_speed"; "wind_direction"; "on_axis_source"; "pupilstop"; "launcher";
       "atmo"; "prop"; "sh"; "psf"; "data_store"; "detector"; "slopec"; "rec"; "control"; "dm"]).
  apply rank_check_ok; reflexivity.
Qed.
(* an undelayed loop a <-> b is left out although z is scheduled *)
Example loop_example :
  build_trigger_order [("z", []); ("a", [ins [("x", YStr "b.out")]]); ("b", [ins [("x", YStr "a.out")]])]
  = Ok (["z"], [0]).
Proof. reflexivity. Qed.
