(* C16, C17, C18: simulations distributed over several processes. *)
From Coq Require Import String List ZArith Bool PeanoNat Lia.
From Verif Require Import PyBase PyLemmas LoopModel LoopSpec LoopProofs LoopExample DistModel DistSpec DistConf DistSim DistRec DistExample.
Import ListNotations.

(* All facts come from one complete execution, in the order of the single-process loop. *)
Lemma complete St Dt outs gtime cod rank n ord its w w' :
  (0 < n)%nat -> distributable St Dt outs cod rank n ord (w_st St w) -> well_flagged its ->
  one_process St Dt outs gtime cod ord its w = Ok w' ->
  let s0 := start St Dt cod rank (w_st St w) (w_chg St w) ord its in
  owned St Dt rank n s0 /\
  exists m f, steps St Dt outs gtime cod rank n m s0 f /\ finished St Dt n f /\
    (forall o, k_st (fst f) o = w_st St w' o) /\ (forall o, k_chg (fst f) o = w_chg St w' o) /\ (forall c, k_ch (fst f) c = []).
Proof.
  intros Hn (H1 & H2 & H3 & H4 & H5 & H6 & H7) Hf H s0.
  assert (Own : owned St Dt rank n s0).
  { intros r x Hr Hx. unfold s0, start in Hx. cbn [snd] in Hx. rewrite program_projection in Hx.
    apply filter_In in Hx as [_ Hx]. unfold mine in Hx. destruct x; auto; right; cbn [own] in *;
    match goal with |- ?a = _ => destruct a as [q|]; cbn in Hx; [|discriminate] end; apply Nat.eqb_eq in Hx; congruence. }
  split; auto.
  destruct (run_sim St Dt outs gtime cod rank n ord (w_st St w) H1 H2 H3 H4 H5 H6 H7 its w w') as (k & Hk & E1 & E2 & E3); auto.
  destruct (grun_steps St Dt outs gtime cod rank n Hn (run_ops St Dt cod rank (map fst ord) (groups ord) its)
              (mkCore (w_st St w) (w_chg St w) (fun _ => []) (fun _ => [])) k (program St Dt cod rank ord its)) as (m & p' & Hs & Hp); auto.
  { intros x Hx. eapply run_ops_mine; eauto. }
  { intros r Hr. apply program_projection. }
  exists m, (k, p'). split; [exact Hs|]. split; [exact Hp|]. auto.
Qed.

(* C16: whatever the assignment of the objects to processes and whatever the interleaving,
   the objects end in the same states as in a single process. *)
Theorem C16_same_results : forall St Dt outs gtime cod rank n ord its w w',
  (0 < n)%nat -> distributable St Dt outs cod rank n ord (w_st St w) -> well_flagged its ->
  one_process St Dt outs gtime cod ord its w = Ok w' ->
  forall s, reachable St Dt outs gtime cod rank n (start St Dt cod rank (w_st St w) (w_chg St w) ord its) s ->
  finished St Dt n s ->
  forall o, k_st (fst s) o = w_st St w' o /\ k_chg (fst s) o = w_chg St w' o.
Proof.
  intros St Dt outs gtime cod rank n ord its w w' Hn Hd Hf H s (m' & Hs) Hfin o.
  destruct (complete _ _ _ _ _ _ _ _ _ _ _ Hn Hd Hf H) as (Own & m & f & Hm & Hff & E1 & E2 & E3).
  destruct (complete_unique _ _ _ _ _ _ n m _ f Own Hff Hm m' s Hs) as [_ R].
  destruct (steps_finished _ _ _ _ _ _ _ _ _ _ R Hfin) as [_ [[K1 [K2 _]] _]]. rewrite K1, K2. auto.
Qed.
Print Assumptions C16_same_results.

(* ... for a run of a whole number of steps as started by the user, up to finalize() *)
Theorem C16_whole_run : forall St Dt outs gtime cod rank n ord fuel q dt w l,
  (0 < n)%nat -> distributable St Dt outs cod rank n ord (w_st St w) -> (0 < q)%nat -> (0 < dt)%Z ->
  loop_run St Dt outs gtime cod fuel ord (Z.of_nat q * dt) dt 0 0 w = Ok l ->
  exists w2, fold_res (final_one St Dt outs cod) w2 (concat (groups ord)) = Ok (l_w St l) /\
  forall s, reachable St Dt outs gtime cod rank n (start St Dt cod rank (w_st St w) (w_chg St w) ord (iterations q dt)) s ->
  finished St Dt n s -> forall o, k_st (fst s) o = w_st St w2 o.
Proof.
  intros St Dt outs gtime cod rank n ord fuel q dt w l Hn Hd Hq Hdt H.
  destruct (run_one_process _ _ _ _ _ _ _ _ _ _ _ Hdt H) as (w2 & H1 & H2). exists w2. split; auto.
  intros s Hs Hf o. apply (C16_same_results St Dt outs gtime cod rank n ord (iterations q dt) w w2); auto. apply iterations_flags; auto.
Qed.
Print Assumptions C16_whole_run.

(* C17: no deadlock, no endless execution, and no exception that the single-process run
   does not have *)
Theorem C17_no_deadlock : forall St Dt outs gtime cod rank n ord its w w',
  (0 < n)%nat -> distributable St Dt outs cod rank n ord (w_st St w) -> well_flagged its ->
  one_process St Dt outs gtime cod ord its w = Ok w' ->
  forall s, reachable St Dt outs gtime cod rank n (start St Dt cod rank (w_st St w) (w_chg St w) ord its) s ->
  finished St Dt n s \/ exists s', step St Dt outs gtime cod rank n s s'.
Proof.
  intros St Dt outs gtime cod rank n ord its w w' Hn Hd Hf H s (m' & Hs).
  destruct (complete _ _ _ _ _ _ _ _ _ _ _ Hn Hd Hf H) as (Own & m & f & Hm & Hff & _).
  destruct (complete_unique _ _ _ _ _ _ n m _ f Own Hff Hm m' s Hs) as [_ R].
  inversion R as [s1 s2 [_ HP] Em|m1 s1 s2 s3 Hst Hrest]; subst; [left|right; eauto].
  intros r Hr. rewrite HP. auto.
Qed.
Print Assumptions C17_no_deadlock.

Theorem C17_terminates : forall St Dt outs gtime cod rank n ord its w w',
  (0 < n)%nat -> distributable St Dt outs cod rank n ord (w_st St w) -> well_flagged its ->
  one_process St Dt outs gtime cod ord its w = Ok w' ->
  exists m, forall m' s, steps St Dt outs gtime cod rank n m' (start St Dt cod rank (w_st St w) (w_chg St w) ord its) s ->
  (m' <= m)%nat /\ (finished St Dt n s <-> m' = m).
Proof.
  intros St Dt outs gtime cod rank n ord its w w' Hn Hd Hf H.
  destruct (complete _ _ _ _ _ _ _ _ _ _ _ Hn Hd Hf H) as (Own & m & f & Hm & Hff & _). exists m. intros m' s Hs.
  destruct (complete_unique _ _ _ _ _ _ n m _ f Own Hff Hm m' s Hs) as [Hle R]. split; auto. split.
  - intros Hfs. destruct (steps_finished _ _ _ _ _ _ _ _ _ _ R Hfs) as [E _]. lia.
  - intros ->. rewrite Nat.sub_diag in R. inversion R as [s1 s2 [_ HP]|]; subst. intros r Hr. rewrite HP. auto.
Qed.
Print Assumptions C17_terminates.

Theorem C17_no_exception : forall St Dt outs gtime cod rank n ord its w w',
  (0 < n)%nat -> distributable St Dt outs cod rank n ord (w_st St w) -> well_flagged its ->
  one_process St Dt outs gtime cod ord its w = Ok w' ->
  forall s r, reachable St Dt outs gtime cod rank n (start St Dt cod rank (w_st St w) (w_chg St w) ord its) s ->
  (r < n)%nat -> ~ raises St Dt outs gtime cod rank s r.
Proof.
  intros St Dt outs gtime cod rank n ord its w w' Hn Hd Hf H s r (m' & Hs) Hr HR.
  destruct (complete _ _ _ _ _ _ _ _ _ _ _ Hn Hd Hf H) as (Own & m & f & Hm & Hff & _).
  destruct (complete_unique _ _ _ _ _ _ n m _ f Own Hff Hm m' s Hs) as [_ R].
  apply (raises_steps St Dt outs gtime cod rank n (m - m') s f r); auto. eapply steps_owned; [exact Own|exact Hs].
Qed.
Print Assumptions C17_no_exception.

(* C18: when all processes have finished, every message has been received *)
Theorem C18_channels_empty : forall St Dt outs gtime cod rank n ord its w w',
  (0 < n)%nat -> distributable St Dt outs cod rank n ord (w_st St w) -> well_flagged its ->
  one_process St Dt outs gtime cod ord its w = Ok w' ->
  forall s, reachable St Dt outs gtime cod rank n (start St Dt cod rank (w_st St w) (w_chg St w) ord its) s ->
  finished St Dt n s -> forall c, k_ch (fst s) c = [].
Proof.
  intros St Dt outs gtime cod rank n ord its w w' Hn Hd Hf H s (m' & Hs) Hfin c.
  destruct (complete _ _ _ _ _ _ _ _ _ _ _ Hn Hd Hf H) as (Own & m & f & Hm & Hff & E1 & E2 & E3).
  destruct (complete_unique _ _ _ _ _ _ n m _ f Own Hff Hm m' s Hs) as [_ R].
  destruct (steps_finished _ _ _ _ _ _ _ _ _ _ R Hfin) as [_ [[_ [_ [_ K4]]] _]]. rewrite K4. auto.
Qed.
Print Assumptions C18_channels_empty.

(* C16: the objects also go through the same sequence of states.  [recorded] is the same
   object with a state that keeps the list of the states left by its methods. *)
Theorem C16_same_histories : forall St Dt outs gtime cod rank n ord its w w1,
  (0 < n)%nat -> distributable St Dt outs cod rank n ord (w_st St w) -> well_flagged its ->
  one_process St Dt outs gtime cod ord its w = Ok w1 ->
  let cod' := fun o => recorded St Dt (cod o) in
  let outs' := fun (x : St * list St) k => outs (fst x) k in
  let wr := mkWorld (St * list St) (fun o => (w_st St w o, [])) (w_chg St w) (w_log St w) in
  exists h,
    (* in one process *)
    (exists w', one_process (St * list St) Dt outs' gtime cod' ord its wr = Ok w' /\
                forall o, w_st _ w' o = (w_st St w1 o, h o)) /\
    (* in several processes *)
    forall s, reachable _ Dt outs' gtime cod' rank n (start _ Dt cod' rank (w_st _ wr) (w_chg _ wr) ord its) s ->
    finished _ Dt n s -> forall o, k_st (fst s) o = (w_st St w1 o, h o).
Proof.
  intros St Dt outs gtime cod rank n ord its w w1 Hn Hd Hf H cod' outs' wr.
  destruct (recorded_run St Dt outs gtime cod ord its w w1 wr) as (w' & Hw' & HR); auto.
  { split; intros o; reflexivity. }
  exists (fun o => snd (w_st _ w' o)).
  assert (E : forall o, w_st _ w' o = (w_st St w1 o, snd (w_st _ w' o))).
  { intros o. destruct HR as [HR _]. specialize (HR o). rewrite HR. apply surjective_pairing. }
  split; [exists w'; auto|]. intros s Hs Hfin o. rewrite <- E.
  eapply (C16_same_results (St * list St) Dt outs' gtime cod' rank n ord its wr w'); eauto.
  apply recorded_distributable. exact Hd.
Qed.
Print Assumptions C16_same_histories.

(* ---- the hypotheses are satisfied: the closed loop over three processes ---- *)
Lemma ao_conn c : valid_conn tS tS ao ao_rank ao_ord c ->
  In c [mkConn "wfs" "m" (mkSrc "dm" (Some "out") (-1)); mkConn "ctl" "e" (mkSrc "wfs" (Some "out") 0);
        mkConn "dm" "c" (mkSrc "ctl" (Some "out") 0)]%string.
Proof.
  intros H. apply valid_rconns in H as [H1 H2].
  assert (E : forall o, In o (map fst ao_ord) -> forall c, In c (rconns tS tS ao ao_rank o) ->
     In c [mkConn "wfs" "m" (mkSrc "dm" (Some "out") (-1)); mkConn "ctl" "e" (mkSrc "wfs" (Some "out") 0);
        mkConn "dm" "c" (mkSrc "ctl" (Some "out") 0)]%string).
  { intros o Ho c' Hc. cbn in Ho. destruct Ho as [<-|[<-|[<-|[<-|[]]]]]; vm_compute in Hc; simpl; tauto. }
  eapply E; eauto.
Qed.

Lemma ao_mk o : exists l f, ao o = mk l f.
Proof. unfold ao. repeat (destruct (String.eqb _ _); [eauto|]). eauto. Qed.

Lemma ao_sources o s : has_src tS tS ao o s ->
  In (o, s) [("wfs", mkSrc "atm" (Some "out") 0); ("wfs", mkSrc "dm" (Some "out") (-1));
             ("ctl", mkSrc "wfs" (Some "out") 0); ("dm", mkSrc "ctl" (Some "out") 0)]%string%Z.
Proof.
  intros (i & Hi & Hs). unfold ao in Hi.
  destruct (String.eqb_spec o "atm"); [subst; destruct Hi|].
  destruct (String.eqb_spec o "wfs"); [subst; simpl in Hi; destruct Hi as [<-|[<-|[]]]; destruct Hs as [<-|[]]; simpl; auto|].
  destruct (String.eqb_spec o "ctl"); [subst; simpl in Hi; destruct Hi as [<-|[]]; destruct Hs as [<-|[]]; simpl; auto|].
  destruct (String.eqb_spec o "dm"); [subst; simpl in Hi; destruct Hi as [<-|[]]; destruct Hs as [<-|[]]; simpl; auto|].
  destruct Hi.
Qed.

Lemma ao_index o j : In (o, j) ao_ord -> In (o, j) [("atm", 0); ("wfs", 1); ("ctl", 2); ("dm", 3)]%string%nat.
Proof. auto. Qed.

Lemma ao_distributable : distributable tS tS touts ao ao_rank 3 ao_ord (w_st tS w0).
Proof.
  split; [|split; [|split; [|split; [|split; [|split]]]]].
  - repeat constructor; simpl; intuition discriminate.
  - intros o j s k Ho Hs Hk. apply ao_sources in Hs. apply ao_index in Ho. apply ao_index in Hk. simpl in Hs.
    destruct Hs as [H|[H|[H|[H|[]]]]]; injection H as <- <-; cbn [s_obj s_delay] in *; simpl in Ho, Hk;
      repeat match type of Ho with _ \/ _ => destruct Ho as [Ho|Ho] | False => destruct Ho end; try discriminate Ho; injection Ho as <-;
      repeat match type of Hk with _ \/ _ => destruct Hk as [Hk|Hk] | False => destruct Hk end; try discriminate Hk; injection Hk as <-; split; try lia.
    intros _. split; [lia|]. exists [("atm", 0)]%string%nat, [("ctl", 2)]%string%nat, []. reflexivity.
  - intros o j s Ho Hs Hd Hp. apply ao_sources in Hs. apply ao_index in Ho. apply ao_index in Hp. simpl in Hs.
    destruct Hs as [H|[H|[H|[H|[]]]]]; injection H as <- <-; simpl in Hd; try lia.
    simpl in Ho, Hp. exfalso.
    repeat (destruct Ho as [Ho|Ho]; [try discriminate Ho|]); [|destruct Ho].
    injection Ho as <-. repeat (destruct Hp as [Hp|Hp]; [discriminate Hp|]). destruct Hp.
  - split.
    + intros o. split.
      * intros Ho. cbn in Ho. destruct Ho as [<-|[<-|[<-|[<-|[]]]]]; vm_compute; discriminate.
      * intros H. unfold ao_rank in H. cbn.
        destruct (String.eqb_spec o "atm"); [auto|]. destruct (String.eqb_spec o "wfs"); [auto|].
        destruct (String.eqb_spec o "ctl"); [auto|]. destruct (String.eqb_spec o "dm"); [auto|]. congruence.
    + intros o r H. unfold ao_rank in H.
      destruct (String.eqb_spec o "atm"); [injection H as <-; lia|]. destruct (String.eqb_spec o "wfs"); [injection H as <-; lia|].
      destruct (String.eqb_spec o "ctl"); [injection H as <-; lia|]. destruct (String.eqb_spec o "dm"); [injection H as <-; lia|]. discriminate.
  - intros o Ho. cbn in Ho. destruct Ho as [<-|[<-|[<-|[<-|[]]]]]; (split; [|]); cbn;
      try (repeat constructor; simpl; intuition discriminate); intros i Hi; cbn in Hi;
      repeat (destruct Hi as [<-|Hi]; [repeat constructor; simpl; tauto|]); destruct Hi.
  - intros c _. cbn. split; [reflexivity|]. split; intros; reflexivity.
  - intros c Hc _ v x x' H. destruct (ao_mk (s_obj (cn_src c))) as (l & f & E). rewrite E in H. cbn in H. injection H as <-. reflexivity.
Qed.

(* two iterations: same results as Properties_Loop.ao_run *)
Definition shown {n} (s : conf tS tS) : list (string * Z) * list nat :=
  (map (fun o => (o, fst (k_st (fst s) o))) ["atm"; "wfs"; "ctl"; "dm"]%string, map (fun r => length (snd s r)) (seq 0 n)).

Example C16_example :
  one_process tS tS touts tgtime ao ao_ord (iterations 2 2) w0 <> Err OutOfFuel /\
  @shown 3 (drive tS tS touts tgtime ao ao_rank 3 200 (start tS tS ao ao_rank (w_st tS w0) (w_chg tS w0) ao_ord (iterations 2 2)))
  = ([("atm", 6); ("wfs", 3); ("ctl", 6); ("dm", 6)]%string%Z, [0; 0; 0]%nat).
Proof. split; [vm_compute; discriminate|vm_compute; reflexivity]. Qed.

Example C16_example_run : exists l, loop_run tS tS touts tgtime ao 5 ao_ord (Z.of_nat 2 * 2) 2 0 0 w0 = Ok l.
Proof. vm_compute. eauto. Qed.

(* the same messages in another order: process 2 first *)
Example C17_example_blocked :
  try_rank tS tS touts tgtime ao ao_rank (start tS tS ao ao_rank (w_st tS w0) (w_chg tS w0) ao_ord (iterations 2 2)) 2 <> None.
Proof. vm_compute. discriminate. Qed.

(* ---- what happens without the conditions ---- *)

(* Duration not a multiple of the step: last_iter is set one iteration too early
   (C12_not_multiple_refuted) and the reader of a delayed connection waits for ever. *)
Theorem C17_not_multiple_refuted : exists n ord cod rank its w s,
  distributable tS tS touts cod rank n ord (w_st tS w) /\
  (exists l, loop_run tS tS touts tgtime cod 10 ord 5 2 0 0 w = Ok l /\ its = iter_times (w_log tS (l_w _ l))) /\
  reachable tS tS touts tgtime cod rank n (start tS tS cod rank (w_st tS w) (w_chg tS w) ord its) s /\
  ~ finished tS tS n s /\ (forall s', ~ step tS tS touts tgtime cod rank n s s') /\
  (forall r, (r < n)%nat -> ~ raises tS tS touts tgtime cod rank s r).
Proof.
  set (its := [(0, false); (2, true); (4, false)]%Z).
  exists 3%nat, ao_ord, ao, ao_rank, its, w0, (drive tS tS touts tgtime ao ao_rank 3 300 (start tS tS ao ao_rank (w_st tS w0) (w_chg tS w0) ao_ord its)).
  split; [exact ao_distributable|]. split; [|split; [|split; [|split]]].
  - assert (H : match loop_run tS tS touts tgtime ao 10 ao_ord 5 2 0 0 w0 with
                | Ok l => iter_times (w_log tS (l_w _ l)) = its | Err _ => False end) by (vm_compute; reflexivity).
    destruct (loop_run tS tS touts tgtime ao 10 ao_ord 5 2 0 0 w0) as [l|]; [|destruct H]. exists l. auto.
  - apply drive_reach.
  - intros H. specialize (H 0%nat). assert (E : length (snd (drive tS tS touts tgtime ao ao_rank 3 300 (start tS tS ao ao_rank (w_st tS w0) (w_chg tS w0) ao_ord its)) 0%nat) = 5%nat)
      by (vm_compute; reflexivity). rewrite H in E by lia. discriminate.
  - apply no_try_no_step. vm_compute. reflexivity.
  - intros r Hr. apply raisesb_ok. destruct r as [|[|[|r]]]; [vm_compute; reflexivity..|lia].
Qed.
Print Assumptions C17_not_multiple_refuted.

(* conditions met by all systems of the next three theorems *)
Lemma pc_conditions outs su d : (forall s, outs s (Some "out"%string) <> []) ->
  NoDup (map fst (pc_ord d)) /\ respects tS tS (pc su d) (pc_ord d) /\ tame tS tS outs (pc su d) (pc_ord d) /\
  placed pc_rank 2 (pc_ord d) /\ distinct_inputs tS tS (pc su d) (pc_ord d).
Proof.
  intros _.
  assert (S : forall o s, has_src tS tS (pc su d) o s -> o = "c"%string /\ s = mkSrc "p" (Some "out"%string) d).
  { intros o s (i & Hi & Hs). unfold pc in Hi. destruct (String.eqb_spec o "p"); [subst; destruct Hi|].
    destruct (String.eqb_spec o "c"); [subst|destruct Hi]. destruct Hi as [<-|[]]. destruct Hs as [<-|[]]. auto. }
  assert (I : forall o j, In (o, j) (pc_ord d) -> if (d <? 0)%Z then j = 0%nat else (o = "p"%string /\ j = 0%nat) \/ (o = "c"%string /\ j = 1%nat)).
  { intros o j H. unfold pc_ord in H. destruct (d <? 0)%Z; simpl in H; destruct H as [H|[H|[]]]; injection H as <- <-; auto. }
  split; [|split; [|split; [|split]]].
  - unfold pc_ord. destruct (d <? 0)%Z; repeat constructor; simpl; intuition discriminate.
  - intros o j s k Ho Hs Hk. apply S in Hs as [-> ->]. cbn [s_obj s_delay] in *.
    pose proof (I _ _ Ho) as I1. pose proof (I _ _ Hk) as I2.
    destruct (Z.ltb_spec d 0).
    + split; [lia|]. intros _. split; [lia|]. subst j k. exists [], [], []. unfold pc_ord. destruct (Z.ltb_spec d 0); [reflexivity|lia].
    + split; [|lia]. intros _. destruct I1 as [[E _]|[_ ->]]; [discriminate|]. destruct I2 as [[_ ->]|[E _]]; [lia|discriminate].
  - intros o j s Ho Hs Hd Hp. apply S in Hs as [-> ->]. split.
    + intros t v v' x. reflexivity.
    + intros t v x x' k E. cbn in E. injection E as <-. reflexivity.
  - split.
    + intros o. unfold pc_rank, pc_ord. split.
      * intros Ho. destruct (d <? 0)%Z; simpl in Ho; destruct Ho as [<-|[<-|[]]]; vm_compute; discriminate.
      * intros H. destruct (String.eqb_spec o "p"); [subst; destruct (d <? 0)%Z; simpl; auto|].
        destruct (String.eqb_spec o "c"); [subst; destruct (d <? 0)%Z; simpl; auto|]. congruence.
    + intros o r H. unfold pc_rank in H. destruct (String.eqb o "p"); [injection H as <-; lia|].
      destruct (String.eqb o "c"); [injection H as <-; lia|discriminate].
  - intros o _. unfold pc. destruct (String.eqb o "p"); [split; [constructor|intros i []]|].
    destruct (String.eqb o "c"); [|split; [constructor|intros i []]]. split; [repeat constructor; simpl; tauto|].
    intros i [<-|[]]. repeat constructor; simpl; tauto.
Qed.

(* If setup() of a producer changes its output, consumers in other processes see the old
   value in their own setup(). *)
Theorem C16_setup_refuted : exists n ord cod rank its w w' s,
  (NoDup (map fst ord) /\ respects tS tS cod ord /\ tame tS tS touts cod ord /\
   placed rank n ord /\ distinct_inputs tS tS cod ord) /\ one_message tS tS touts cod rank ord (w_st tS w) /\
  well_flagged its /\ one_process tS tS touts tgtime cod ord its w = Ok w' /\
  reachable tS tS touts tgtime cod rank n (start tS tS cod rank (w_st tS w) (w_chg tS w) ord its) s /\
  finished tS tS n s /\ exists o, k_st (fst s) o <> w_st tS w' o.
Proof.
  set (su := fun s : tS => (5, snd s)%Z). set (its := iterations 1 2).
  assert (H : match one_process tS tS touts tgtime (pc su 0) (pc_ord 0) its w0 with
              | Ok w' => fst (w_st tS w' "c"%string) = 56%Z | Err _ => False end) by (vm_compute; reflexivity).
  destruct (one_process tS tS touts tgtime (pc su 0) (pc_ord 0) its w0) as [w'|] eqn:E; [|destruct H].
  exists 2%nat, (pc_ord 0), (pc su 0), pc_rank, its, w0, w', (pc_run touts su 0 its).
  split; [apply pc_conditions; discriminate|]. split.
  { intros c _. cbn. split; [reflexivity|]. split; intros; reflexivity. }
  split; [apply iterations_flags; lia|]. split; [exact E|]. split; [apply drive_reach|]. split.
  - intros r Hr. destruct r as [|[|r]]; [vm_compute; reflexivity..|lia].
  - exists "c"%string. intros F.
    assert (Q : fst (k_st (fst (pc_run touts su 0 its)) "c"%string) = 6%Z) by (vm_compute; reflexivity).
    rewrite F, H in Q. discriminate.
Qed.
Print Assumptions C16_setup_refuted.

(* An output that is a list of data objects is sent as several messages, of which the
   reader takes one: old values are read and messages are left over. *)
Theorem C18_list_output_refuted : exists n ord cod rank its w w' s,
  (NoDup (map fst ord) /\ respects tS tS cod ord /\ tame tS tS touts2 cod ord /\
   placed rank n ord /\ distinct_inputs tS tS cod ord) /\ quiet_setup tS tS touts2 cod rank ord /\
  well_flagged its /\ one_process tS tS touts2 tgtime cod ord its w = Ok w' /\
  reachable tS tS touts2 tgtime cod rank n (start tS tS cod rank (w_st tS w) (w_chg tS w) ord its) s /\
  finished tS tS n s /\ (exists c, k_ch (fst s) c <> []) /\ exists o, k_st (fst s) o <> w_st tS w' o.
Proof.
  set (su := fun s : tS => s). set (its := iterations 2 2).
  assert (H : match one_process tS tS touts2 tgtime (pc su 0) (pc_ord 0) its w0 with
              | Ok w' => fst (w_st tS w' "c"%string) = 11124%Z | Err _ => False end) by (vm_compute; reflexivity).
  destruct (one_process tS tS touts2 tgtime (pc su 0) (pc_ord 0) its w0) as [w'|] eqn:E; [|destruct H].
  exists 2%nat, (pc_ord 0), (pc su 0), pc_rank, its, w0, w', (pc_run touts2 su 0 its).
  split; [apply pc_conditions; discriminate|]. split.
  { intros c Hc _ v x x' F. assert (Ep : s_obj (cn_src c) = "p"%string).
    { destruct Hc as (_ & i & Hi & _ & Hs & _). unfold pc in Hi. destruct (String.eqb _ "p"); [destruct Hi|].
      destruct (String.eqb _ "c"); [|destruct Hi]. destruct Hi as [<-|[]]. destruct Hs as [<-|[]]. reflexivity. }
    rewrite Ep in F. cbn in F. injection F as <-. reflexivity. }
  split; [apply iterations_flags; lia|]. split; [exact E|]. split; [apply drive_reach|]. split; [|split].
  - intros r Hr. destruct r as [|[|r]]; [vm_compute; reflexivity..|lia].
  - exists (mkConn "c" "a" (mkSrc "p" (Some "out"%string) 0)). vm_compute. discriminate.
  - exists "c"%string. intros F.
    assert (Q : fst (k_st (fst (pc_run touts2 su 0 its)) "c"%string) = 0%Z) by (vm_compute; reflexivity).
    rewrite F, H in Q. discriminate.
Qed.
Print Assumptions C18_list_output_refuted.

(* With no iteration at all the values sent after setup() are never received. *)
Theorem C18_no_iteration_refuted : exists n ord cod rank w s,
  distributable tS tS touts cod rank n ord (w_st tS w) /\
  (exists l, loop_run tS tS touts tgtime cod 1 ord 0 2 0 0 w = Ok l /\ iter_times (w_log tS (l_w _ l)) = []) /\
  reachable tS tS touts tgtime cod rank n (start tS tS cod rank (w_st tS w) (w_chg tS w) ord []) s /\
  finished tS tS n s /\ exists c, k_ch (fst s) c <> [].
Proof.
  exists 3%nat, ao_ord, ao, ao_rank, w0, (drive tS tS touts tgtime ao ao_rank 3 300 (start tS tS ao ao_rank (w_st tS w0) (w_chg tS w0) ao_ord [])).
  split; [exact ao_distributable|]. split; [|split; [apply drive_reach|split]].
  - assert (H : match loop_run tS tS touts tgtime ao 1 ao_ord 0 2 0 0 w0 with
                | Ok l => iter_times (w_log tS (l_w _ l)) = [] | Err _ => False end) by (vm_compute; reflexivity).
    destruct (loop_run tS tS touts tgtime ao 1 ao_ord 0 2 0 0 w0) as [l|]; [|destruct H]. eauto.
  - intros r Hr. destruct r as [|[|[|r]]]; [vm_compute; reflexivity..|lia].
  - exists (mkConn "wfs" "m" (mkSrc "dm" (Some "out"%string) (-1))). vm_compute. discriminate.
Qed.
Print Assumptions C18_no_iteration_refuted.
