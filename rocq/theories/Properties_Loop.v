(* C07, C11-C15: the simulation loop in one process.

   In all theorems the state type, the data type, the access to the outputs and the
   code of the objects are arbitrary. *)
From Coq Require Import String List ZArith Bool Lia Permutation.
From Verif Require Import PyBase TrigOrderModel TrigOrderSpec TrigOrderProofs LoopModel LoopSpec LoopProofs LoopLink LoopExample.
Import ListNotations.
Local Open Scope Z_scope.

(* C15: one iteration, with the computed trigger order, is a synchronous step. *)
Theorem C15_synchronous_step :
  forall St Dt outs gtime cod ps order idx isproc t w w',
  let ord := loop_order isproc order idx in
  wf_params ps -> delays_ok ps -> wired St Dt cod ps -> build_trigger_order ps = Ok (order, idx) ->
  tame St Dt outs cod ord ->
  iter_step St Dt outs gtime cod ord t w = Ok w' ->
  (forall o j, In (o, j) ord -> sync_step St Dt outs gtime cod o t (w_st St w) (w_st St w') (w_st St w' o)) /\
  (forall o, ~ In o (map fst ord) -> w_st St w' o = w_st St w o).
Proof.
  intros St Dt outs gtime cod ps order idx isproc t w w' ord Hwf Hd Hw Hb Ht Hi.
  exact (iter_sync St Dt outs gtime cod _ t w w' (loop_order_nodup ps order idx isproc Hwf Hb)
    (trigger_order_respects St Dt cod ps order idx isproc Hwf Hd Hw Hb) Ht Hi).
Qed.
Print Assumptions C15_synchronous_step.

(* Without the requirement on objects of the same trigger list the property fails. *)
Theorem C15_same_trigger_list_refuted :
  exists cod ps order idx t w w' o j,
  let ord := loop_order (fun _ => true) order idx in
  wf_params ps /\ delays_ok ps /\ wired tS tS cod ps /\ build_trigger_order ps = Ok (order, idx) /\
  iter_step tS tS touts tgtime cod ord t w = Ok w' /\ In (o, j) ord /\
  ~ sync_step tS tS touts tgtime cod o t (w_st tS w) (w_st tS w') (w_st tS w' o).
Proof.
  pose (ord := loop_order (fun _ => true) ["q"; "c"; "p"]%string [0; 1; 1]%nat).
  assert (H : match iter_step tS tS touts tgtime hz ord 0 w0 with
              | Ok w' => fst (w_st tS w' "c") = 1 | Err _ => False end) by (vm_compute; reflexivity).
  destruct (iter_step tS tS touts tgtime hz ord 0 w0) as [w'|] eqn:E; [|destruct H].
  exists hz, hz_ps, ["q"; "c"; "p"]%string, [0; 1; 1]%nat, 0, w0, w', "c"%string, 1%nat. cbv zeta. fold ord.
  split; [apply wf_check_ok; reflexivity|].
  split; [apply delays_check_ok; reflexivity|].
  split; [|split; [reflexivity|split; [exact E|split; [simpl; auto|]]]].
  - intros o s (i & Hi & Hs). unfold hz in Hi.
    destruct (String.eqb_spec o "q"); [subst; destruct Hi|].
    destruct (String.eqb_spec o "p"); [subst; destruct Hi|].
    destruct (String.eqb_spec o "c"); [|destruct Hi].
    subst. simpl in Hi. destruct Hi as [<-|[<-|[]]]; destruct Hs as [<-|[]]; apply reads_check_ok; reflexivity.
  - intros (v & Hv & HS).
    assert (Hm : targ "m" v = 0) by (cbn in Hv; injection Hv as <-; reflexivity).
    destruct HS as [[_ HS]|[_ (s1 & s2 & H1 & H2 & H3)]].
    + rewrite HS in H. discriminate.
    + cbn in H1, H2, H3. unfold keep in H1. unfold calc in H2. unfold stamp in H3.
      injection H1 as <-. injection H2 as <-. injection H3 as H3. rewrite <- H3 in H. simpl in H. congruence.
Qed.
Print Assumptions C15_same_trigger_list_refuted.

(* C07: any two schedules that respect the ordering guarantees give the same states. *)
Theorem C07_any_schedule : forall St Dt outs gtime cod ord1 ord2,
  NoDup (map fst ord1) -> respects St Dt cod ord1 -> tame St Dt outs cod ord1 ->
  NoDup (map fst ord2) -> respects St Dt cod ord2 -> tame St Dt outs cod ord2 ->
  (forall o, In o (map fst ord1) <-> In o (map fst ord2)) ->
  forall f1 f2 l1 l2 l1' l2', same_clock St l1 l2 ->
  (forall o, w_st St (l_w _ l1) o = w_st St (l_w _ l2) o) ->
  loop_while St Dt outs gtime cod f1 ord1 l1 = Ok l1' -> loop_while St Dt outs gtime cod f2 ord2 l2 = Ok l2' ->
  same_clock St l1' l2' /\ forall o, w_st St (l_w _ l1') o = w_st St (l_w _ l2') o.
Proof.
  intros St Dt outs gtime cod ord1 ord2 A1 B1 D1 A2 B2 D2.
  exact (while_order_independent St Dt outs gtime cod ord1 ord2 (conj A1 (conj B1 D1)) (conj A2 (conj B2 D2))).
Qed.
Print Assumptions C07_any_schedule.

Theorem C07_configuration_order :
  forall St Dt outs gtime cod ps1 ps2 order1 idx1 order2 idx2 isproc f1 f2 l1 l2 l1' l2',
  Permutation ps1 ps2 -> wf_params ps1 -> delays_ok ps1 -> wired St Dt cod ps1 ->
  build_trigger_order ps1 = Ok (order1, idx1) -> build_trigger_order ps2 = Ok (order2, idx2) ->
  let ord1 := loop_order isproc order1 idx1 in let ord2 := loop_order isproc order2 idx2 in
  tame St Dt outs cod ord1 -> tame St Dt outs cod ord2 ->
  same_clock St l1 l2 -> (forall o, w_st St (l_w _ l1) o = w_st St (l_w _ l2) o) ->
  loop_while St Dt outs gtime cod f1 ord1 l1 = Ok l1' -> loop_while St Dt outs gtime cod f2 ord2 l2 = Ok l2' ->
  same_clock St l1' l2' /\ forall o, w_st St (l_w _ l1') o = w_st St (l_w _ l2') o.
Proof. exact config_order_independent. Qed.
Print Assumptions C07_configuration_order.

(* C11: times of the iterations, number of iterations, calls. *)
Theorem C11_iterations : forall St Dt outs gtime cod fuel ord run dt t0 cnt w l,
  NoDup (map fst ord) -> w_log St w = [] -> 0 < dt ->
  loop_run St Dt outs gtime cod fuel ord run dt t0 cnt w = Ok l ->
  exists n, map fst (iter_times (w_log St (l_w _ l))) = map (fun k => t0 + Z.of_nat k * dt) (seq 0 n) /\
  0 <= run /\ Z.of_nat n = (run + dt - 1) / dt.
Proof.
  intros St Dt outs gtime cod fuel ord run dt t0 cnt w l Hn Hw Hdt H.
  destruct (run_times St Dt outs gtime cod fuel ord run dt t0 cnt w l Hn Hw Hdt H) as (n & E & H1 & H2).
  exists n. split; [rewrite E, map_map; reflexivity|auto].
Qed.
Print Assumptions C11_iterations.

Theorem C11_terminates : forall St Dt outs gtime cod fuel ord run dt t0 cnt w,
  0 < dt -> 0 <= run -> (run + dt - 1) / dt <= Z.of_nat fuel ->
  (forall o v s, c_setup St Dt (cod o) v s <> Err OutOfFuel) ->
  (forall o t v s, c_prep St Dt (cod o) t v s <> Err OutOfFuel) ->
  (forall o t v s, c_trig St Dt (cod o) t v s <> Err OutOfFuel) ->
  (forall o t v s, c_post St Dt (cod o) t v s <> Err OutOfFuel) ->
  (forall o v s, c_final St Dt (cod o) v s <> Err OutOfFuel) ->
  loop_run St Dt outs gtime cod fuel ord run dt t0 cnt w <> Err OutOfFuel.
Proof.
  intros St Dt outs gtime cod fuel ord run dt t0 cnt w H1 H2 H3.
  refine (run_raises St Dt outs gtime cod OutOfFuel fuel ord run dt t0 cnt w _ (fun _ => conj H1 (conj H2 H3))). discriminate.
Qed.
Print Assumptions C11_terminates.

(* The cases outside the property: with a negative duration, or a step that is not
   positive, the loop never finishes. *)
Theorem C11_endless_runs : forall St Dt outs gtime cod fuel ord run dt t0 cnt w l,
  NoDup (map fst ord) -> (run < 0 \/ 0 < run /\ dt <= 0) ->
  loop_run St Dt outs gtime cod fuel ord run dt t0 cnt w <> Ok l.
Proof. exact run_never_stops. Qed.
Print Assumptions C11_endless_runs.

(* C11 and C14: the complete sequence of calls. *)
Theorem C14_calls : forall St Dt outs gtime cod fuel ord run dt t0 cnt w l,
  NoDup (map fst ord) -> w_log St w = [] ->
  loop_run St Dt outs gtime cod fuel ord run dt t0 cnt w = Ok l ->
  exists ready last, length ready = length last /\
    w_log St (l_w _ l) = map ESetup (concat (groups ord)) ++
        iters_calls (groups ord) t0 dt ready last ++ map EFinal (concat (groups ord)).
Proof.
  intros St Dt outs gtime cod fuel ord run dt t0 cnt w l Hn Hw H.
  destruct (run_trace St Dt outs gtime cod fuel ord run dt t0 cnt w l Hn H) as (r & b & H1 & H2 & _).
  exists r, b. split; auto. rewrite H2, Hw. reflexivity.
Qed.
Print Assumptions C14_calls.

(* every object is in exactly one trigger list, and the lists are sorted by index *)
Theorem C14_trigger_lists : forall ord : order, NoDup (map fst ord) ->
  NoDup (concat (groups ord)) /\
  forall o j, In (o, j) ord <-> exists g, nth_error (groups ord) j = Some g /\ In o g.
Proof.
  intros ord Hn. split; [exact (concat_groups_nodup tS tS ao ord 0 _ Hn)|]. intros o j. split.
  - intros Ho. exists (group ord j). split; [|apply in_group; auto].
    unfold groups. rewrite nth_error_map. pose proof (index_le_max _ _ _ Ho) as Hj.
    rewrite (nth_error_nth' _ 0%nat) by (rewrite seq_length; lia). rewrite seq_nth by lia. reflexivity.
  - intros (g & Hg & Ho). unfold groups in Hg. rewrite nth_error_map in Hg.
    destruct (nth_error (seq 0 _) j) as [i|] eqn:E; [|discriminate]. injection Hg as <-.
    assert (i = j); [|subst; apply in_group; auto].
    assert (Hj : (j < S (list_max (map snd ord)))%nat).
    { rewrite <- (seq_length (S (list_max (map snd ord))) 0). apply nth_error_Some. congruence. }
    rewrite (nth_error_nth' _ 0%nat) in E by (rewrite seq_length; lia). rewrite seq_nth in E by lia. simpl in E. congruence.
Qed.
Print Assumptions C14_trigger_lists.

Theorem C14_guards_unreachable : forall St Dt outs gtime cod fuel ord run dt t0 cnt w,
  (forall o v s, c_setup St Dt (cod o) v s <> Err RuntimeError) ->
  (forall o t v s, c_prep St Dt (cod o) t v s <> Err RuntimeError) ->
  (forall o t v s, c_trig St Dt (cod o) t v s <> Err RuntimeError) ->
  (forall o t v s, c_post St Dt (cod o) t v s <> Err RuntimeError) ->
  (forall o v s, c_final St Dt (cod o) v s <> Err RuntimeError) ->
  loop_run St Dt outs gtime cod fuel ord run dt t0 cnt w <> Err RuntimeError.
Proof.
  intros St Dt outs gtime cod fuel ord run dt t0 cnt w.
  apply (run_raises St Dt outs gtime cod RuntimeError); discriminate.
Qed.
Print Assumptions C14_guards_unreachable.

Theorem C14_flags_down : forall St Dt outs gtime cod ord t w w',
  NoDup (map fst ord) -> iter_step St Dt outs gtime cod ord t w = Ok w' ->
  forall o, In o (map fst ord) -> w_chg St w' o = false.
Proof. exact iter_flags. Qed.
Print Assumptions C14_flags_down.

(* C12: in the first run, from time 0 and with a duration multiple of the step, the
   iteration marked as the last one is the last one. *)
Theorem C12_last_iteration_partial : forall St Dt outs gtime cod fuel ord run dt w l,
  NoDup (map fst ord) -> w_log St w = [] -> 0 < dt -> 0 < run -> (dt | run) ->
  loop_run St Dt outs gtime cod fuel ord run dt 0 0 w = Ok l ->
  exists early t, iter_times (w_log St (l_w _ l)) = map (fun t => (t, false)) early ++ [(t, true)].
Proof.
  intros St Dt outs gtime cod fuel ord run dt w l Hn Hw Hdt Hr [q Hq] H.
  destruct (run_times St Dt outs gtime cod fuel ord run dt 0 0 w l Hn Hw Hdt H) as (n & E & H1 & H2).
  rewrite E. assert (Hqn : Z.of_nat n = q).
  { rewrite H2, Hq. replace (q * dt + dt - 1) with (q * dt + (dt - 1)) by lia.
    rewrite Z.div_add_l by lia. rewrite Z.div_small by lia. lia. }
  assert (Hni : niters run dt 0 = q).
  { unfold niters. destruct (Z.eqb_spec dt 0); [lia|]. rewrite Z.add_0_r, Hq. apply Z.quot_mul. lia. }
  destruct n as [|n]; [nia|].
  exists (map (fun k => Z.of_nat k * dt) (seq 0 n)), (Z.of_nat n * dt).
  rewrite seq_S, map_app, map_map. f_equal.
  - apply map_ext_in. intros k Hk. apply in_seq in Hk. rewrite Hni. f_equal. apply Z.eqb_neq. lia.
  - simpl. rewrite Hni. f_equal. f_equal. apply Z.eqb_eq. lia.
Qed.
Print Assumptions C12_last_iteration_partial.

(* The full claim is false: duration not a multiple of the step (no iteration is
   marked before an extra one is run) *)
Theorem C12_not_multiple_refuted : exists run dt l,
  0 < dt /\ 0 < run /\
  loop_run tS tS touts tgtime ao 10 ao_ord run dt 0 0 w0 = Ok l /\
  iter_times (w_log tS (l_w _ l)) = [(0, false); (2, true); (4, false)].
Proof.
  exists 5, 2.
  assert (H : match loop_run tS tS touts tgtime ao 10 ao_ord 5 2 0 0 w0 with
              | Ok l => iter_times (w_log tS (l_w _ l)) = [(0, false); (2, true); (4, false)] | Err _ => False end)
    by (vm_compute; reflexivity).
  destruct (loop_run _ _ _ _ _ _ _ _ _ _ _ _) as [l|]; [|destruct H].
  exists l. split; [lia|]. split; [lia|]. auto.
Qed.
Print Assumptions C12_not_multiple_refuted.

(* start time different from zero: no iteration is marked *)
Theorem C12_start_time_refuted : exists run dt t0 l,
  0 < dt /\ 0 < run /\ (dt | run) /\ (dt | t0) /\
  loop_run tS tS touts tgtime ao 10 ao_ord run dt t0 0 w0 = Ok l /\
  iter_times (w_log tS (l_w _ l)) = [(2, false); (4, false)].
Proof.
  exists 4, 2, 2.
  assert (H : match loop_run tS tS touts tgtime ao 10 ao_ord 4 2 2 0 w0 with
              | Ok l => iter_times (w_log tS (l_w _ l)) = [(2, false); (4, false)] | Err _ => False end)
    by (vm_compute; reflexivity).
  destruct (loop_run _ _ _ _ _ _ _ _ _ _ _ _) as [l|]; [|destruct H].
  exists l. split; [lia|]. split; [lia|]. split; [exists 2; reflexivity|]. split; [exists 1; reflexivity|]. auto.
Qed.
Print Assumptions C12_start_time_refuted.

(* second run of the same loop: no iteration is marked *)
Theorem C12_second_run_refuted : exists run dt l l2 w,
  0 < dt /\ 0 < run /\ (dt | run) /\
  loop_run tS tS touts tgtime ao 10 ao_ord run dt 0 0 w0 = Ok l /\
  w_st _ w = w_st _ (l_w _ l) /\
  loop_run tS tS touts tgtime ao 10 ao_ord run dt 0 (l_iter _ l) w = Ok l2 /\
  iter_times (w_log tS (l_w _ l2)) = [(0, false); (2, false)].
Proof.
  exists 4, 2.
  assert (H : match loop_run tS tS touts tgtime ao 10 ao_ord 4 2 0 0 w0 with
              | Ok l => match loop_run tS tS touts tgtime ao 10 ao_ord 4 2 0 (l_iter _ l)
                                (mkWorld tS (w_st _ (l_w _ l)) (fun _ => false) []) with
                        | Ok l2 => iter_times (w_log tS (l_w _ l2)) = [(0, false); (2, false)] | Err _ => False end
              | Err _ => False end)
    by (vm_compute; reflexivity).
  destruct (loop_run _ _ _ _ _ _ _ _ _ _ _ w0) as [l|] eqn:E1; [|destruct H].
  destruct (loop_run _ _ _ _ _ _ _ _ _ _ _ (mkWorld _ _ _ _)) as [l2|] eqn:E2; [|destruct H].
  exists l, l2, (mkWorld tS (w_st _ (l_w _ l)) (fun _ => false) []).
  split; [lia|]. split; [lia|]. split; [exists 2; reflexivity|]. auto.
Qed.
Print Assumptions C12_second_run_refuted.

(* C13: the readiness check *)
Theorem C13_triggers_iff : forall St Dt outs gtime cod t w o w',
  check_one St Dt outs gtime cod t w o = Ok w' ->
  exists v, get_view St Dt outs (w_st St w) (c_inputs St Dt (cod o)) = Ok v /\
    (w_chg St w' o = true <-> must_trigger Dt gtime t (c_inputs St Dt (cod o)) v) /\
    (w_chg St w' o = false -> w_st St w' o = w_st St w o).
Proof.
  intros St Dt outs gtime cod t w o w' H.
  destruct (check_one_inv St Dt outs gtime cod t w o w' H) as (v & s & b & Hv & Hb & Hs & ->).
  exists v. split; auto. simpl. rewrite !fupd_same. subst b. split.
  - refine (triggers_iff St Dt gtime cod t _ v _). eapply get_view_length; eassumption.
  - intros E. rewrite E in Hs. congruence.
Qed.
Print Assumptions C13_triggers_iff.

(* With generation times that are only ever set to the current time, an input is fresh
   exactly when an undelayed producer refreshed it in this same iteration; the
   hypothesis on the generation times is then re-established for later iterations. *)
Theorem C13_fresh_means_refreshed_now :
  forall St Dt outs gtime cod ord t w w' o j v,
  NoDup (map fst ord) -> respects St Dt cod ord -> tame St Dt outs cod ord ->
  (forall p, stamps St Dt outs gtime cod p) -> (forall p, times_le St Dt outs gtime (t - 1) (w_st St w) p) ->
  iter_step St Dt outs gtime cod ord t w = Ok w' -> In (o, j) ord ->
  sync_view St Dt outs (w_st St w) (w_st St w') (c_inputs St Dt (cod o)) = Ok v ->
  (fresh Dt gtime t v <->
   exists s d, has_src St Dt cod o s /\ 0 <= s_delay s /\ In (s_obj s) (map fst ord) /\
     In d (outs (w_st St w' (s_obj s)) (s_key s)) /\ gtime d = Some t) /\
  (forall p, times_le St Dt outs gtime t (w_st St w') p).
Proof. exact fresh_iff. Qed.
Print Assumptions C13_fresh_means_refreshed_now.

(* As a consequence an object that reads everything with a delay never runs. *)
Theorem C13_delayed_only_never_runs : forall St Dt outs gtime cod ord t w w' o j i0,
  NoDup (map fst ord) -> respects St Dt cod ord -> tame St Dt outs cod ord ->
  (forall p, stamps St Dt outs gtime cod p) -> (forall p, times_le St Dt outs gtime (t - 1) (w_st St w) p) ->
  iter_step St Dt outs gtime cod ord t w = Ok w' -> In (o, j) ord ->
  In i0 (c_inputs St Dt (cod o)) -> i_opt i0 = false ->
  (forall s, has_src St Dt cod o s -> s_delay s < 0) ->
  w_st St w' o = w_st St w o.
Proof. exact delayed_only_never. Qed.
Print Assumptions C13_delayed_only_never_runs.

(* An optional input list that is left empty does not count as unconnected: the
   object is never triggered. *)
Theorem C13_optional_list_refuted : exists o,
  (forall i, In i (c_inputs tS tS (ol o)) -> i_opt i = true /\ i_src i = []) /\
  forall t w w', check_one tS tS touts tgtime ol t w o = Ok w' -> w_chg tS w' o = false.
Proof.
  exists "x"%string. split.
  - intros i [<-|[]]; auto.
  - intros t w w' H. cbn in H. injection H as <-. reflexivity.
Qed.
Print Assumptions C13_optional_list_refuted.

(* ---- the hypotheses are satisfied ---- *)
Example ao_wf : wf_params ao_ps. Proof. apply wf_check_ok; reflexivity. Qed.
Example ao_delays : delays_ok ao_ps. Proof. apply delays_check_ok; reflexivity. Qed.
Example ao_order : build_trigger_order ao_ps = Ok (["atm"; "wfs"; "ctl"; "dm"]%string, [0; 1; 2; 3]%nat).
Proof. reflexivity. Qed.
Example ao_order' : build_trigger_order ao_ps' = Ok (["atm"; "wfs"; "ctl"; "dm"]%string, [0; 1; 2; 3]%nat).
Proof. reflexivity. Qed.
Example ao_perm : Permutation ao_ps ao_ps'.
Proof. exact (Permutation_rev ao_ps). Qed.
Lemma ao_src o s : has_src tS tS ao o s ->
  In (o, s) [("wfs", mkSrc "atm" (Some "out") 0); ("wfs", mkSrc "dm" (Some "out") (-1));
             ("ctl", mkSrc "wfs" (Some "out") 0); ("dm", mkSrc "ctl" (Some "out") 0)]%string.
Proof.
  intros (i & Hi & Hs). unfold ao in Hi.
  destruct (String.eqb_spec o "atm"); [subst; destruct Hi|].
  destruct (String.eqb_spec o "wfs"); [subst; simpl in Hi; destruct Hi as [<-|[<-|[]]]; destruct Hs as [<-|[]]; simpl; auto|].
  destruct (String.eqb_spec o "ctl"); [subst; simpl in Hi; destruct Hi as [<-|[]]; destruct Hs as [<-|[]]; simpl; auto|].
  destruct (String.eqb_spec o "dm"); [subst; simpl in Hi; destruct Hi as [<-|[]]; destruct Hs as [<-|[]]; simpl; auto|].
  destruct Hi.
Qed.
Example ao_wired : wired tS tS ao ao_ps.
Proof.
  intros o s H. apply ao_src in H. simpl in H.
  destruct H as [H|[H|[H|[H|[]]]]]; injection H as <- <-; apply reads_check_ok; reflexivity.
Qed.
Example ao_tame : tame tS tS touts ao ao_ord.
Proof.
  intros o j s Ho Hs Hd Hp. apply ao_src in Hs. simpl in Hs.
  destruct Hs as [H|[H|[H|[H|[]]]]]; injection H as <- <-; simpl in Hd; try lia.
  simpl in Ho, Hp. exfalso.
  repeat (destruct Ho as [Ho|Ho]; [try discriminate Ho|]); [|destruct Ho].
  injection Ho as <-. repeat (destruct Hp as [Hp|Hp]; [discriminate Hp|]). destruct Hp.
Qed.
Example ao_stamps : forall p, stamps tS tS touts tgtime ao p.
Proof.
  assert (E : forall p, exists l f, ao p = mk l f).
  { intros p. unfold ao. repeat (destruct (String.eqb _ _); [eauto|]). eauto. }
  intros p f Hf t v s s' k d g H Hd Hg. destruct (E p) as (l & g0 & Ep). rewrite Ep in Hf. simpl in Hf.
  destruct Hd as [<-|[]]. unfold tgtime in *. injection Hg as <-.
  destruct Hf as [-> | [-> | ->]]; injection H as <-; simpl; auto; right; exists None, s; simpl; auto.
Qed.
(* two steps of the closed loop: the mirror acts with one step of delay *)
Example ao_run : match loop_run tS tS touts tgtime ao 5 ao_ord 4 2 0 0 w0 with
  | Ok l => map (fun o => fst (w_st tS (l_w _ l) o)) ["atm"; "wfs"; "ctl"; "dm"]%string = [6; 3; 6; 6] /\
            iter_times (w_log tS (l_w _ l)) = [(0, false); (2, true)]
  | Err _ => False
  end.
Proof. vm_compute. split; reflexivity. Qed.
