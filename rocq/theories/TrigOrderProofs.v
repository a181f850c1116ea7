From Coq Require Import String List ZArith Bool Arith Lia.
From Verif Require Import PyBase PyLemmas NamesModel NamesSpec NamesProofs TrigOrderModel TrigOrderSpec.
Import ListNotations.
Local Open Scope string_scope.

(* ---------- references ---------- *)

Lemma refers_iff s o d : refers s o d <-> output_owner s = Ok o /\ output_delay s = Ok d.
Proof.
  unfold refers, output_owner, output_delay. split.
  - intros (inp & key & dl & Hs & Hp & Hd).
    assert (E : split_output s = Ok (mkOutput o key d inp)).
    { apply split_output_iff. exists dl; simpl; auto. }
    rewrite E; simpl; auto.
  - intros [H1 H2]. destruct (split_output s) as [out|] eqn:E; [|discriminate].
    simpl in *. injection H1 as <-. injection H2 as <-.
    apply split_output_iff in E as (dl & Hs & Hp & Hd).
    exists (o_input out), (o_key out), dl; auto.
Qed.

Lemma owner_delay s : (exists o, output_owner s = Ok o) <-> exists d, output_delay s = Ok d.
Proof.
  unfold output_owner, output_delay. destruct (split_output s); simpl; split; intros [? H]; eauto; discriminate.
Qed.

Lemma owner_refers s o : output_owner s = Ok o -> exists d, refers s o d.
Proof.
  intros H. destruct (proj1 (owner_delay s)) as [d Hd]; eauto.
  exists d. apply refers_iff; auto.
Qed.

Lemma delay_refers s d : output_delay s = Ok d -> exists o, refers s o d.
Proof.
  intros H. destruct (proj2 (owner_delay s)) as [o Ho]; eauto.
  exists o. apply refers_iff; auto.
Qed.

Lemma refers_fun s o d o' d' : refers s o d -> refers s o' d' -> o = o' /\ d = d'.
Proof.
  rewrite !refers_iff. intros [H1 H2] [H3 H4].
  rewrite H1 in H3; rewrite H2 in H4. injection H3; injection H4; auto.
Qed.

(* references inside an 'inputs' dictionary *)
Definition item_reads (ins : dict yval) (p : string) (d : Z) : Prop :=
  exists k v s, In (k, v) ins /\ ref_in v s /\ refers s p d.

Lemma item_reads_cons k v ins p d :
  item_reads ((k, v) :: ins) p d <-> (exists s, ref_in v s /\ refers s p d) \/ item_reads ins p d.
Proof.
  unfold item_reads; split.
  - intros (k' & v' & s & [H|H] & H1 & H2); [injection H as -> ->; eauto|right; eauto 6].
  - intros [(s & H1 & H2)|(k' & v' & s & H & H1 & H2)]; [exists k, v, s|exists k', v', s]; simpl; auto.
Qed.

Lemma item_reads_nil p d : ~ item_reads [] p d.
Proof. intros (k & v & s & [] & _). Qed.

Lemma ref_in_str s s' : ref_in (YStr s) s' <-> s' = s.
Proof. split; [intros [H|(l & H & _)]; congruence|intros ->; left; auto]. Qed.

Lemma ref_in_list l s : ref_in (YList l) s <-> In (YStr s) l.
Proof.
  split; [intros [H|(l' & H & Hi)]; [congruence|]|intros H; right; eauto].
  injection H as ->; auto.
Qed.

Lemma remove_items_spec obj ins ins' : remove_items obj ins = Ok ins' ->
  (forall k, In k (map fst ins') -> In k (map fst ins)) /\
  (NoDup (map fst ins) -> NoDup (map fst ins')) /\
  (forall p d, item_reads ins' p d <-> item_reads ins p d /\ p <> obj).
Proof.
  revert ins'; induction ins as [|[k v] ins IH]; simpl; intros ins' H.
  { injection H as <-. split; [auto|split; [auto|]]. intros p d. pose proof (item_reads_nil p d); tauto. }
  assert (Haux : forall v' r', remove_items obj ins = Ok r' ->
     (forall p d, (exists s, ref_in v' s /\ refers s p d) <->
                  (exists s, ref_in v s /\ refers s p d) /\ p <> obj) ->
     (forall k0, In k0 (map fst ((k, v') :: r')) -> In k0 (map fst ((k, v) :: ins))) /\
     (NoDup (map fst ((k, v) :: ins)) -> NoDup (map fst ((k, v') :: r'))) /\
     (forall p d, item_reads ((k, v') :: r') p d <-> item_reads ((k, v) :: ins) p d /\ p <> obj)).
  { intros v' r' E Hv. destruct (IH _ E) as (I1 & I2 & I3). simpl. split; [|split].
    - intros k0 [<-|Hk]; auto.
    - intros Hnd; inversion Hnd; subst. constructor; auto.
    - intros p d. rewrite !item_reads_cons, I3, Hv. tauto. }
  destruct v as [|b0|z0|f0|s|l|d1]; try (inv_bind H; injection H as <-; apply Haux; auto;
    intros p d; split; [intros (?& [Hs|(? & Hs & _)] & _); discriminate|
                        intros [(? & [Hs|(? & Hs & _)] & _) _]; discriminate]).
  - inv_bind H. inv_bind H.
    destruct (owner_refers _ _ E) as [d0 Hr0].
    destruct (String.eqb_spec a obj) as [->|Hne]; injection H as <-.
    + destruct (IH _ E0) as (I1 & I2 & I3). split; [|split].
      * intros k0 Hk; simpl; auto.
      * simpl; intros Hnd; inversion Hnd; auto.
      * intros p d. rewrite item_reads_cons, I3. split; [tauto|].
        intros [[(s' & Hs' & Hr)|Hi] Hne]; auto. apply ref_in_str in Hs'; subst s'.
        exfalso; apply Hne. apply (refers_fun _ _ _ _ _ Hr Hr0).
    + apply Haux; auto. intros p d; split; [|tauto].
      intros (s' & Hs' & Hr). split; eauto. apply ref_in_str in Hs'; subst s'.
      destruct (refers_fun _ _ _ _ _ Hr Hr0); congruence.
  - inv_bind H. inv_bind H. injection H as <-. apply Haux; auto.
    pose proof (filter_res_ok _ _ _ E) as Hf.
    intros p d; split.
    + intros (s & Hs & Hr). apply ref_in_list in Hs. apply Hf in Hs as [Hin Hp].
      simpl in Hp. split; [exists s; split; auto; apply ref_in_list; auto|].
      apply refers_iff in Hr as [Ho _]. rewrite Ho in Hp. simpl in Hp.
      injection Hp as Hp. apply negb_true_iff, String.eqb_neq in Hp; auto.
    + intros [(s & Hs & Hr) Hne]. exists s; split; auto.
      apply ref_in_list in Hs. apply ref_in_list, Hf; split; auto.
      simpl. apply refers_iff in Hr as [Ho _]. rewrite Ho. simpl.
      rewrite (proj2 (String.eqb_neq p obj)) by auto. reflexivity.
Qed.

(* ---------- objects ---------- *)

Definition wf_pars (p : pars) : Prop :=
  NoDup (map fst p) /\ forall ins, In ("inputs", YDict ins) p -> NoDup (map fst ins).

Definition obj_reads (pc : pars) (p : string) (d : Z) : Prop :=
  exists ins, In ("inputs", YDict ins) pc /\ item_reads ins p d.

Lemma reads_iff ps c p d : reads ps c p d <-> exists pc, In (c, pc) ps /\ obj_reads pc p d.
Proof.
  unfold reads, obj_reads, item_reads. split.
  - intros (pc & ins & k & v & s & H1 & H2 & H3 & H4 & H5). eauto 12.
  - intros (pc & H1 & ins & H2 & k & v & s & H3 & H4 & H5). eauto 12.
Qed.

Lemma wf_params_iff ps : wf_params ps <-> NoDup (map fst ps) /\ forall c pc, In (c, pc) ps -> wf_pars pc.
Proof.
  unfold wf_params, wf_pars. split.
  - intros (H1 & H2 & H3); split; auto. intros c pc Hc; split; eauto.
  - intros (H1 & H2); split; [auto|split]; intros c pc; [|intros ins]; intros Hc; apply H2 in Hc as [? ?]; auto.
Qed.

Lemma inputs_items_spec p i : wf_pars p -> inputs_items p = Ok i ->
  match i with
  | None => ~ In "inputs" (map fst p)
  | Some d => forall v, In ("inputs", v) p <-> v = YDict d
  end.
Proof.
  intros [Hnd _] H. unfold inputs_items in H.
  destruct (dget "inputs" p) as [v|] eqn:E.
  - destruct v; try discriminate. injection H as <-. intros v; split.
    + intros Hv. apply In_dget in Hv; auto. rewrite E in Hv. injection Hv as <-; auto.
    + intros ->. apply dget_In; auto.
  - injection H as <-. apply dget_None; auto.
Qed.

Lemma obj_reads_items p i : wf_pars p -> inputs_items p = Ok i ->
  forall o d, obj_reads p o d <-> match i with None => False | Some ins => item_reads ins o d end.
Proof.
  intros Hwf Hi o d. pose proof (inputs_items_spec _ _ Hwf Hi) as Hs.
  unfold obj_reads. destruct i as [ins|]; split.
  - intros (ins' & Hin & Hr). apply Hs in Hin. injection Hin as ->; auto.
  - intros Hr. exists ins; split; auto. apply Hs; auto.
  - intros (ins' & Hin & _). apply Hs. change "inputs" with (fst ("inputs", YDict ins')). apply in_map; auto.
  - tauto.
Qed.

Lemma remove_from_spec obj p p' : wf_pars p -> remove_from obj p = Ok p' ->
  wf_pars p' /\ forall o d, obj_reads p' o d <-> obj_reads p o d /\ o <> obj.
Proof.
  intros Hwf H. unfold remove_from in H. inv_bind H.
  pose proof (obj_reads_items _ _ Hwf E) as Hr.
  pose proof (inputs_items_spec _ _ Hwf E) as Hs.
  destruct a as [ins|].
  - inv_bind H. injection H as <-.
    destruct (remove_items_spec _ _ _ E0) as (I1 & I2 & I3).
    destruct Hwf as [Hnd Hins].
    assert (Hin : In ("inputs", YDict ins) p) by (apply Hs; auto).
    assert (Hk : In "inputs" (map fst p))
      by (change "inputs" with (fst ("inputs", YDict ins)); apply in_map; auto).
    assert (Hwf' : wf_pars (dset "inputs" (YDict a) p)).
    { split; [rewrite keys_dset; auto|]. intros ins' Hi.
      apply In_dset in Hi; auto. destruct Hi as [[_ Hi]|[Hi _]]; [injection Hi as ->; auto|congruence]. }
    split; auto. intros o d. rewrite Hr, <- I3. unfold obj_reads. split.
    + intros (ins' & Hi & Hit). apply In_dset in Hi; auto.
      destruct Hi as [[_ Hi]|[Hi _]]; [injection Hi as ->; auto|congruence].
    + intros Hit. exists a; split; auto. apply In_dset; auto.
  - injection H as <-. split; auto. intros o d. rewrite Hr; tauto.
Qed.

Lemma remove_inputs_spec obj ps ps' : wf_params ps -> remove_inputs obj ps = Ok ps' ->
  wf_params ps' /\ map fst ps' = map fst ps /\
  forall c p d, reads ps' c p d <-> reads ps c p d /\ p <> obj.
Proof.
  rewrite !wf_params_iff. setoid_rewrite reads_iff.
  revert ps'; induction ps as [|[k p] ps IH]; simpl; intros ps' [Hnd Hwf] H.
  - injection H as <-; simpl. split; [split; auto|]. split; auto.
    intros c p d; split; [intros (pc & [] & _)|intros [(pc & [] & _) _]].
  - inv_bind H. inv_bind H. injection H as <-. inversion Hnd; subst.
    destruct (IH a0) as ((N & W) & K & R); auto.
    { split; auto. intros c pc Hc. apply (Hwf c pc); auto. }
    destruct (remove_from_spec _ _ _ (Hwf k p (or_introl eq_refl)) E) as [W' R'].
    simpl. rewrite K. split; [|split; auto].
    + split; auto. intros c pc [Hc|Hc]; [injection Hc as <- <-; auto|eauto].
    + intros c p0 d. specialize (R c p0 d). split.
      * intros (pc & [Hc|Hc] & Hr).
        -- injection Hc as -> ->. apply R' in Hr as [Hr Hne]. split; auto. exists p; auto.
        -- destruct (proj1 R) as ((pc' & Hc' & Hr') & Hne); [eauto|]. split; auto. exists pc'; auto.
      * intros ((pc & [Hc|Hc] & Hr) & Hne).
        -- injection Hc as -> ->. exists a; split; auto. apply R'; auto.
        -- destruct (proj2 R) as (pc' & Hc' & Hr'); [split; eauto|]. exists pc'; auto.
Qed.

(* ---------- is_leaf ---------- *)

Lemma max_list_spec x l : In (max_list x l) (x :: l) /\ forall y, In y (x :: l) -> (y <= max_list x l)%Z.
Proof.
  unfold max_list. revert x; induction l as [|a l IH]; intros x.
  - simpl; split; auto. intros y [->|[]]; lia.
  - simpl fold_left. destruct (IH (Z.max x a)) as [H1 H2]. split.
    + destruct H1 as [H1|H1]; [|simpl; auto].
      rewrite <- H1. destruct (Z.max_spec x a) as [[_ ->]|[_ ->]]; simpl; auto.
    + pose proof (H2 (Z.max x a) (or_introl eq_refl)).
      intros y [->|[->|Hy]]; [lia|lia|]. apply H2; simpl; auto.
Qed.

Lemma delay_v_str v d : delay_v v = Ok d -> exists s, v = YStr s /\ output_delay s = Ok d.
Proof. destruct v; simpl; try discriminate; eauto. Qed.

Lemma owner_v_str v o : owner_v v = Ok o -> exists s, v = YStr s /\ output_owner s = Ok o.
Proof. destruct v; simpl; try discriminate; eauto. Qed.

Lemma is_leaf_items_false ins md :
  is_leaf_items ins md = Ok false -> md <> Some 0%Z -> exists p, item_reads ins p 0.
Proof.
  revert md; induction ins as [|[k v] ins IH]; simpl; intros md H Hmd; [discriminate|].
  setoid_rewrite item_reads_cons.
  assert (Hrec : forall md', is_leaf_items ins md' = Ok false -> md' <> Some 0%Z ->
      exists p, (exists s, ref_in v s /\ refers s p 0) \/ item_reads ins p 0).
  { intros md' H1 H2. destruct (IH _ H1 H2) as [p Hp]; eauto. }
  inv_bind H. destruct a as [d0|]; [|discriminate].
  destruct (Z.eqb_spec d0 0) as [->|Hne].
  2:{ apply (Hrec _ H). congruence. }
  destruct v as [| | | |s|l|]; try (injection E as ->; congruence).
  - inv_bind E. injection E as ->. destruct (delay_refers _ _ E0) as [o Ho].
    exists o; left; exists s; split; auto. apply ref_in_str; auto.
  - destruct l as [|x l]; [discriminate|]. inv_bind E.
    pose proof (map_res_ok_inv _ _ _ E0) as Hm. destruct a as [|y ys]; [discriminate|].
    injection E as E. destruct (max_list_spec y ys) as [H1 _].
    rewrite E in H1. apply Hm in H1 as (x' & Hx & Hin).
    apply delay_v_str in Hx as (s & -> & Hs). destruct (delay_refers _ _ Hs) as [o Ho].
    exists o; left; exists s; split; auto. apply ref_in_list; auto.
Qed.

Lemma is_leaf_items_true ins md :
  is_leaf_items ins md = Ok true -> (forall p d, item_reads ins p d -> (d <= 0)%Z) ->
  forall p, ~ item_reads ins p 0.
Proof.
  revert md; induction ins as [|[k v] ins IH]; simpl; intros md H Hd p.
  { apply item_reads_nil. }
  rewrite item_reads_cons. inv_bind H. destruct a as [d0|]; [|discriminate].
  destruct (Z.eqb_spec d0 0) as [->|Hne]; [discriminate|].
  assert (Hi : ~ item_reads ins p 0).
  { apply (IH _ H). intros p' d' Hr. apply (Hd p' d'). apply item_reads_cons; auto. }
  intros [(s & Hs & Hr)|Hx]; [|auto].
  destruct v as [| | | |s0|l|]; try (destruct Hs as [Hs|(l' & Hs & _)]; discriminate).
  - apply ref_in_str in Hs; subst s0. inv_bind E. injection E as ->.
    apply refers_iff in Hr as [_ Hr]. rewrite Hr in E0. congruence.
  - apply ref_in_list in Hs.
    destruct l as [|x l]; [destruct Hs|]. inv_bind E.
    pose proof (map_res_ok _ _ _ E0) as Hm. pose proof (map_res_ok_inv _ _ _ E0) as Hm'.
    destruct a as [|y ys].
    { destruct (Hm _ Hs) as (? & _ & []). }
    injection E as E. destruct (max_list_spec y ys) as [H1 H2].
    destruct (Hm _ Hs) as (d & Hd1 & Hd2). simpl in Hd1.
    apply refers_iff in Hr as [_ Hr]. rewrite Hr in Hd1. injection Hd1 as <-.
    apply H2 in Hd2. rewrite E in *.
    apply Hm' in H1 as (x' & Hx & Hin). apply delay_v_str in Hx as (s' & -> & Hs').
    destruct (delay_refers _ _ Hs') as [o' Ho'].
    assert (d0 <= 0)%Z; [|lia]. apply (Hd o').
    apply item_reads_cons; left. exists s'; split; auto. apply ref_in_list; auto.
Qed.

Lemma is_leaf_false p : wf_pars p -> is_leaf p = Ok false -> exists o, obj_reads p o 0.
Proof.
  intros Hwf H. unfold is_leaf in H. inv_bind H.
  pose proof (obj_reads_items _ _ Hwf E) as Hr. destruct a as [ins|]; [|discriminate].
  destruct (is_leaf_items_false _ _ H) as [o Ho]; [discriminate|]. exists o; apply Hr; auto.
Qed.

Lemma is_leaf_true p : wf_pars p -> is_leaf p = Ok true ->
  (forall o d, obj_reads p o d -> (d <= 0)%Z) -> forall o, ~ obj_reads p o 0.
Proof.
  intros Hwf H Hd o. unfold is_leaf in H. inv_bind H.
  pose proof (obj_reads_items _ _ Hwf E) as Hr. rewrite Hr.
  destruct a as [ins|]; [|tauto].
  apply (is_leaf_items_true _ _ H). intros p' d' Hi. apply (Hd p'). apply Hr; auto.
Qed.

Lemma find_leaves_spec ps ls : find_leaves ps = Ok ls ->
  (forall k, In k ls -> exists p, In (k, p) ps /\ is_leaf p = Ok true) /\
  (forall k p, In (k, p) ps -> In k ls \/ is_leaf p = Ok false) /\
  (NoDup (map fst ps) -> NoDup ls).
Proof.
  revert ls; induction ps as [|[k p] ps IH]; simpl; intros ls H.
  - injection H as <-; simpl; repeat split; try tauto.
  - inv_bind H. inv_bind H. injection H as <-.
    destruct (IH _ E0) as (I1 & I2 & I3). split; [|split].
    + intros k0 Hk. assert (Hk' : (a = true /\ k0 = k) \/ In k0 a0) by (destruct a; simpl in Hk; intuition).
      destruct Hk' as [[-> ->]|Hk']; [exists p; auto|]. destruct (I1 _ Hk') as (p0 & ? & ?); exists p0; auto.
    + intros k0 p0 [Hk|Hk].
      * injection Hk as <- <-. destruct a; simpl; auto.
      * destruct (I2 _ _ Hk); auto. left; destruct a; simpl; auto.
    + intros Hnd; inversion Hnd; subst. destruct a; auto. constructor; auto.
      intros Hk. apply I1 in Hk as (p0 & Hp & _). apply H1.
      change k with (fst (k, p0)). apply in_map; auto.
Qed.

(* ---------- has_delayed_output ---------- *)

Lemma hdo_outputs_spec obj l b : hdo_outputs obj l = Ok b ->
  if b then exists s d, In (YStr s) l /\ refers s obj d /\ (d < 0)%Z
  else forall s d, In (YStr s) l -> refers s obj d -> (0 <= d)%Z.
Proof.
  induction l as [|x l IH]; simpl; intros H.
  - injection H as <-. tauto.
  - inv_bind H. inv_bind H.
    apply owner_v_str in E as (s & -> & Ho). simpl in E0.
    assert (Hr : refers s a a0) by (apply refers_iff; auto).
    destruct (String.eqb_spec a obj) as [->|Hne]; simpl in H.
    + destruct (Z.ltb_spec a0 0).
      * injection H as <-. exists s, a0; auto.
      * apply IH in H. destruct b.
        -- destruct H as (s' & d' & ? & ? & ?). exists s', d'; auto.
        -- intros s' d' [Hs|Hs] Hr'; [|eauto]. injection Hs as ->.
           destruct (refers_fun _ _ _ _ _ Hr Hr'); subst; auto.
    + apply IH in H. destruct b.
      * destruct H as (s' & d' & ? & ? & ?). exists s', d'; auto.
      * intros s' d' [Hs|Hs] Hr'; [|eauto]. injection Hs as ->.
        destruct (refers_fun _ _ _ _ _ Hr Hr'); congruence.
Qed.

Lemma outputs_list_ref v l s : outputs_list v = Ok l -> (ref_in v s <-> In (YStr s) l).
Proof.
  destruct v; simpl; try discriminate; intros H; injection H as <-.
  - rewrite ref_in_str; simpl. split; [intros ->; auto|intros [H|[]]; congruence].
  - apply ref_in_list.
Qed.

Lemma hdo_inputs_spec obj ins b : hdo_inputs obj ins = Ok b ->
  if b then exists d, item_reads ins obj d /\ (d < 0)%Z
  else forall d, item_reads ins obj d -> (0 <= d)%Z.
Proof.
  revert b; induction ins as [|[k v] ins IH]; simpl; intros b H.
  - injection H as <-. intros d Hd; destruct (item_reads_nil _ _ Hd).
  - inv_bind H. inv_bind H. apply hdo_outputs_spec in E0.
    pose proof (fun s => outputs_list_ref _ _ s E) as Ho.
    destruct a0.
    + injection H as <-. destruct E0 as (s & d & H1 & H2 & H3).
      exists d; split; auto. apply item_reads_cons; left. exists s; split; auto. apply Ho; auto.
    + apply IH in H. destruct b.
      * destruct H as (d & H1 & H2). exists d; split; auto. apply item_reads_cons; auto.
      * intros d Hd. apply item_reads_cons in Hd as [(s & Hs & Hr)|Hd]; auto.
        apply (E0 s); auto. apply Ho; auto.
Qed.

Lemma has_delayed_output_spec obj ps b : wf_params ps -> has_delayed_output obj ps = Ok b ->
  if b then exists c d, reads ps c obj d /\ (d < 0)%Z
  else forall c d, reads ps c obj d -> (0 <= d)%Z.
Proof.
  rewrite wf_params_iff. intros [_ Hwf].
  revert b Hwf; induction ps as [|[k p] ps IH]; simpl; intros b Hwf H.
  - injection H as <-. intros c d Hr. apply reads_iff in Hr as (pc & [] & _).
  - inv_bind H. inv_bind H.
    assert (Hwp : wf_pars p) by (apply (Hwf k); auto).
    pose proof (obj_reads_items _ _ Hwp E) as Hr.
    assert (Hb : if a0 then exists d, obj_reads p obj d /\ (d < 0)%Z
                 else forall d, obj_reads p obj d -> (0 <= d)%Z).
    { destruct a as [ins|].
      - apply hdo_inputs_spec in E0. destruct a0.
        + destruct E0 as (d & H1 & H2). exists d; split; auto. apply Hr; auto.
        + intros d Hd. apply E0, Hr; auto.
      - injection E0 as <-. intros d Hd. apply Hr in Hd; tauto. }
    destruct a0.
    + injection H as <-. destruct Hb as (d & H1 & H2). exists k, d; split; auto.
      apply reads_iff. exists p; simpl; auto.
    + apply IH in H; [|intros c pc Hc; apply (Hwf c); auto]. destruct b.
      * destruct H as (c & d & Hc & H3). exists c, d; split; auto.
        apply reads_iff in Hc as (pc & H1 & H2). apply reads_iff. exists pc; simpl; auto.
      * intros c d Hc. apply reads_iff in Hc as (pc & [Hc|Hc] & Hp); [injection Hc as -> ->; auto|].
        apply (H c). apply reads_iff; eauto.
Qed.

(* ---------- the algorithm ---------- *)

Lemma reads_declared ps c p d : reads ps c p d -> declared ps c.
Proof.
  rewrite reads_iff. intros (pc & H & _). unfold declared.
  change c with (fst (c, pc)). apply in_map; auto.
Qed.

Lemma ddel_reads k ps c p d : reads (ddel k ps) c p d <-> reads ps c p d /\ c <> k.
Proof.
  rewrite !reads_iff. split.
  - intros (pc & H & Hr). apply In_ddel in H as [H Hne]. split; eauto.
  - intros [(pc & H & Hr) Hne]. exists pc; split; auto. apply In_ddel; auto.
Qed.

Lemma ddel_wf k ps : wf_params ps -> wf_params (ddel k ps).
Proof.
  rewrite !wf_params_iff. intros [H1 H2]; split; [apply NoDup_ddel; auto|].
  intros c pc H. apply In_ddel in H as [H _]; eauto.
Qed.

Definition onames (o : list (string * nat)) := map fst o.

Record Inv (ps0 ps : params) (o : list (string * nat)) : Prop := {
  inv_wf : wf_params ps;
  inv_keys : forall c, declared ps c <-> declared ps0 c /\ ~ In c (onames o);
  inv_reads : forall c p d, reads ps c p d <-> declared ps c /\ reads ps0 c p d /\ ~ In p (onames o);
  inv_nd : NoDup (onames o)
}.

Record Good (ps0 : params) (o : list (string * nat)) : Prop := {
  good_now : forall pre c j post p, o = (pre ++ (c, j) :: post)%list -> reads ps0 c p 0 ->
             exists i, In (p, i) pre /\ i < j;
  good_del : forall pre p j post c d, o = (pre ++ (p, j) :: post)%list -> reads ps0 c p d -> (d < 0)%Z ->
             exists i, In (c, i) pre /\ i <= j;
  good_mono : forall pre c j post c' i, o = (pre ++ (c, j) :: post)%list -> In (c', i) pre -> i <= j
}.

Lemma snoc_split {A} (o : list A) x pre y post :
  (o ++ [x])%list = (pre ++ y :: post)%list ->
  (post = [] /\ pre = o /\ y = x) \/ exists post', post = (post' ++ [x])%list /\ o = (pre ++ y :: post')%list.
Proof.
  destruct (List.rev post) as [|z r] eqn:E.
  - assert (post = []) by (rewrite <- (rev_involutive post), E; auto). subst.
    intros H. apply app_inj_tail in H as [-> ->]. auto.
  - assert (post = (List.rev r ++ [z])%list) by (rewrite <- (rev_involutive post), E; auto). subst.
    intros H. rewrite app_comm_cons, app_assoc in H. apply app_inj_tail in H as [-> ->].
    right. exists (List.rev r); auto.
Qed.

Lemma trig_leaf_spec ps0 ps o index leaf ps' o' :
  Inv ps0 ps o -> declared ps leaf ->
  trig_leaf index (ps, o) leaf = Ok (ps', o') ->
  (has_delayed_output leaf ps = Ok true /\ ps' = ps /\ o' = o) \/
  (has_delayed_output leaf ps = Ok false /\ o' = (o ++ [(leaf, index)])%list /\
   Inv ps0 ps' o' /\ length ps' < length ps).
Proof.
  intros HI Hl H. unfold trig_leaf in H. inv_bind H. destruct a.
  - injection H as <- <-; auto.
  - right. inv_bind H. injection H as <- <-. split; auto. split; auto.
    pose proof (inv_wf _ _ _ HI) as Hwf.
    destruct (remove_inputs_spec _ _ _ (ddel_wf leaf _ Hwf) E0) as (W & K & R).
    assert (Hk : forall c, declared a c <-> declared ps c /\ c <> leaf).
    { intros c. unfold declared. rewrite K. apply keys_ddel. }
    split.
    2:{ rewrite <- (map_length fst a), K, map_length. apply length_ddel; auto. }
    assert (Hn : forall c, In c (onames (o ++ [(leaf, index)])) <-> In c (onames o) \/ c = leaf).
    { intros c. unfold onames. rewrite map_app, in_app_iff; simpl. intuition. }
    constructor; auto.
    + intros c. rewrite Hk, Hn, (inv_keys _ _ _ HI). tauto.
    + intros c p d. rewrite R, ddel_reads, Hk, Hn, (inv_reads _ _ _ HI). tauto.
    + unfold onames. rewrite map_app; simpl.
      pose proof (inv_nd _ _ _ HI) as Hnd. apply (inv_keys _ _ _ HI) in Hl as [_ Hl].
      unfold onames in *. apply NoDup_rev in Hnd. rewrite <- (rev_involutive (map fst o ++ [leaf])%list).
      apply NoDup_rev. rewrite rev_app_distr; simpl. constructor; auto. rewrite <- in_rev; auto.
Qed.

Lemma good_snoc ps0 o leaf index :
  Good ps0 o ->
  (forall c i, In (c, i) o -> i <= index) ->
  (forall p, reads ps0 leaf p 0 -> exists i, In (p, i) o /\ i < index) ->
  (forall c d, reads ps0 c leaf d -> (d < 0)%Z -> exists i, In (c, i) o) ->
  Good ps0 (o ++ [(leaf, index)])%list.
Proof.
  intros G Hle Hnow Hdel. constructor.
  - intros pre c j post p Ho Hr. apply snoc_split in Ho as [(-> & -> & Hx)|(post' & -> & ->)].
    + injection Hx as -> ->. auto.
    + eapply good_now; eauto.
  - intros pre p j post c d Ho Hr Hd. apply snoc_split in Ho as [(-> & -> & Hx)|(post' & -> & ->)].
    + injection Hx as -> ->. destruct (Hdel _ _ Hr Hd) as [i Hi]. exists i; split; auto. eapply Hle; eauto.
    + eapply good_del; eauto.
  - intros pre c j post c' i Ho Hi. apply snoc_split in Ho as [(-> & -> & Hx)|(post' & -> & ->)].
    + injection Hx as -> ->. eapply Hle; eauto.
    + eapply (good_mono _ _ G); eauto.
Qed.

Lemma in_onames c o : In c (onames o) -> exists i, In (c, i) o.
Proof.
  unfold onames. rewrite in_map_iff. intros ([c' i] & <- & H). exists i; auto.
Qed.

Lemma onames_in c i o : In (c, i) o -> In c (onames o).
Proof. intros H. unfold onames. change c with (fst (c, i)). apply in_map; auto. Qed.

(* one round *)
Lemma round_spec ps0 index o0 : forall leaves ps o ps' o',
  Inv ps0 ps o -> Good ps0 o ->
  NoDup leaves -> (forall l, In l leaves -> declared ps l) ->
  (forall c i, In (c, i) o0 -> i < index) ->
  (exists new, o = (o0 ++ new)%list /\ forall c i, In (c, i) new -> i = index) ->
  (forall l p, In l leaves -> reads ps0 l p 0 -> In p (onames o0)) ->
  fold_res (trig_leaf index) (ps, o) leaves = Ok (ps', o') ->
  Inv ps0 ps' o' /\ Good ps0 o' /\
  (exists new, o' = (o0 ++ new)%list /\ forall c i, In (c, i) new -> i = index) /\
  length ps' <= length ps /\
  (forall c, declared ps' c -> declared ps c) /\
  (forall l, In l leaves -> declared ps' l ->
     exists psl, has_delayed_output l psl = Ok true /\ wf_params psl /\
       (forall c p d, reads psl c p d -> reads ps c p d) /\
       (forall c, declared psl c -> declared ps c)).
Proof.
  induction leaves as [|l leaves IH]; simpl; intros ps o ps' o' HI HG Hnd Hdec Hlt (new & Ho & Hnew) Hleaf H.
  { injection H as <- <-. split; [exact HI|]. split; [exact HG|]. split; [exists new; auto|].
    split; [lia|]. split; [auto|]. tauto. }
  inv_bind H. destruct a as [ps1 o1]. inversion Hnd; subst.
  destruct (trig_leaf_spec _ _ _ _ _ _ _ HI (Hdec l (or_introl eq_refl)) E)
    as [(Hd & -> & ->)|(Hd & -> & HI1 & Hlen)].
  - destruct (IH ps (o0 ++ new)%list ps' o') as (A & B & C & D & F & G); auto.
    { exists new; auto. }
    { intros l' p Hl'; apply Hleaf; auto. }
    split; [exact A|]. split; [exact B|]. split; [exact C|]. split; [exact D|]. split; [exact F|].
    intros l' [<-|Hl'] Hdl'; [|auto].
    exists ps; repeat split; auto; apply HI.
  - assert (HG1 : Good ps0 ((o0 ++ new) ++ [(l, index)])%list).
    { apply good_snoc; auto.
      - intros c i Hi. apply in_app_iff in Hi as [Hi|Hi]; [apply Hlt in Hi; lia|apply Hnew in Hi; lia].
      - intros p Hr. apply Hleaf in Hr; auto. apply in_onames in Hr as [i Hi].
        exists i; split; [apply in_app_iff; auto|eauto].
      - intros c d Hr Hneg.
        pose proof (has_delayed_output_spec _ _ _ (inv_wf _ _ _ HI) Hd) as Hs. cbv iota in Hs.
        destruct (in_dec string_dec c (onames (o0 ++ new)%list)) as [Hin|Hnin]; [apply in_onames; auto|].
        exfalso. assert (0 <= d)%Z; [|lia]. apply (Hs c).
        apply (inv_reads _ _ _ HI). assert (Hdc : declared ps c).
        { apply (inv_keys _ _ _ HI); split; auto. eapply reads_declared; eauto. }
        split; auto. split; auto.
        apply (inv_keys _ _ _ HI). apply Hdec; auto. }
    destruct (IH ps1 ((o0 ++ new) ++ [(l, index)])%list ps' o') as (A & B & C & D & F & G); auto.
    { intros l' Hl'. apply (inv_keys _ _ _ HI1). specialize (Hdec l' (or_intror Hl')).
      apply (inv_keys _ _ _ HI) in Hdec as [Hd1 Hd2]; split; auto.
      unfold onames in *. rewrite map_app, in_app_iff. intros [Hx|[Hx|[]]]; auto. simpl in Hx; subst; auto. }
    { exists (new ++ [(l, index)])%list. rewrite app_assoc; split; auto.
      intros c i Hi. apply in_app_iff in Hi as [Hi|[Hi|[]]]; eauto. injection Hi as <- <-; auto. }
    { intros l' p Hl'; apply Hleaf; auto. }
    assert (Hsub : forall c, declared ps1 c -> declared ps c).
    { intros c Hc. apply (inv_keys _ _ _ HI1) in Hc as [Hc1 Hc2]. apply (inv_keys _ _ _ HI); split; auto.
      intros Hx; apply Hc2. unfold onames in *. rewrite map_app, in_app_iff; auto. }
    split; [exact A|]. split; [exact B|]. split; [exact C|]. split; [lia|]. split; [auto|].
    intros l' [<-|Hl'] Hdl'.
    + exfalso. apply F in Hdl'. apply (inv_keys _ _ _ HI1) in Hdl' as [_ Hx]. apply Hx.
      unfold onames. rewrite map_app, in_app_iff; simpl; auto.
    + destruct (G l' Hl' Hdl') as (psl & G1 & G2 & G3 & G4). exists psl; repeat split; auto; try apply G2.
      intros c p d Hr. apply G3 in Hr. apply (inv_reads _ _ _ HI1) in Hr as (R1 & R2 & R3).
      apply (inv_reads _ _ _ HI). split; auto. split; auto. intros Hx; apply R3.
      unfold onames in *. rewrite map_app, in_app_iff; auto.
Qed.

Lemma leaves_now ps0 ps o leaves :
  delays_ok ps0 -> Inv ps0 ps o -> find_leaves ps = Ok leaves ->
  forall l p, In l leaves -> reads ps0 l p 0 -> In p (onames o).
Proof.
  intros Hdel HI Hf l p Hl Hr.
  destruct (find_leaves_spec _ _ Hf) as (F1 & _ & _).
  destruct (F1 _ Hl) as (pl & Hpl & Hleaf).
  destruct (in_dec string_dec p (onames o)) as [Hin|Hnin]; auto. exfalso.
  assert (Hdl : declared ps l) by (unfold declared; change l with (fst (l, pl)); apply in_map; auto).
  assert (Hr' : reads ps l p 0) by (apply (inv_reads _ _ _ HI); auto).
  pose proof (inv_wf _ _ _ HI) as Hwf. apply wf_params_iff in Hwf as [Hnd Hwf].
  apply reads_iff in Hr' as (pl' & Hpl' & Hr').
  assert (pl' = pl).
  { apply (In_dget _ _ _ Hnd) in Hpl. apply (In_dget _ _ _ Hnd) in Hpl'. congruence. }
  subst pl'. apply (is_leaf_true pl (Hwf _ _ Hpl) Hleaf) in Hr'; auto.
  intros o' d' Hr2. assert (Hr3 : reads ps l o' d') by (apply reads_iff; eauto).
  apply (inv_reads _ _ _ HI) in Hr3 as (_ & Hr3 & _). apply (Hdel _ _ _ Hr3).
Qed.

Lemma rounds_spec ps0 : delays_ok ps0 -> forall fuel index ps o ps' o',
  Inv ps0 ps o -> Good ps0 o -> (forall c i, In (c, i) o -> i < index) ->
  trig_rounds fuel index (ps, o) = Ok (ps', o') ->
  Inv ps0 ps' o' /\ Good ps0 o' /\ find_leaves ps' = Ok [].
Proof.
  intros Hdel. induction fuel as [|fuel IH]; intros index ps o ps' o' HI HG Hlt H; [discriminate|].
  cbn [trig_rounds fst] in H. inv_bind H. rename a into leaves.
  destruct leaves as [|l0 ls].
  { injection H as <- <-; auto. }
  set (leaves := l0 :: ls) in *.
  inv_bind H. destruct a as [ps1 o1].
  destruct (find_leaves_spec _ _ E) as (F1 & F2 & F3).
  destruct (round_spec ps0 index o leaves ps o ps1 o1) as (A & B & (new & Ho & Hnew) & D & F & G); auto.
  - apply F3. apply (inv_wf _ _ _ HI).
  - intros l Hl. destruct (F1 _ Hl) as (pl & Hpl & _).
    unfold declared; change l with (fst (l, pl)); apply in_map; auto.
  - exists []. rewrite app_nil_r; split; auto. intros c i [].
  - eapply leaves_now; eauto.
  - destruct (Nat.eqb _ _); [discriminate|].
    apply (IH (S index) ps1 o1); auto.
    intros c i Hi. subst o1. apply in_app_iff in Hi as [Hi|Hi]; [apply Hlt in Hi; lia|apply Hnew in Hi; lia].
Qed.

Lemma Inv_init ps0 : wf_params ps0 -> Inv ps0 ps0 [].
Proof.
  intros H; constructor; auto; simpl; try tauto; [|constructor].
  intros c p d. split; [|tauto]. intros Hr; repeat split; auto. eapply reads_declared; eauto.
Qed.

Lemma Good_init ps0 : Good ps0 [].
Proof. constructor; intros; destruct pre; discriminate. Qed.

Lemma build_ok ps0 order idx :
  wf_params ps0 -> delays_ok ps0 -> build_trigger_order ps0 = Ok (order, idx) ->
  exists ps o, order = onames o /\ idx = map snd o /\ Inv ps0 ps o /\ Good ps0 o /\ find_leaves ps = Ok [].
Proof.
  intros Hwf Hd H. unfold build_trigger_order in H. inv_bind H. destruct a as [ps o].
  injection H as <- <-. apply (rounds_spec ps0 Hd) in E as (A & B & C); auto using Inv_init, Good_init.
  - exists ps, o; auto.
  - intros c i [].
Qed.

(* positions *)
Lemma nth_split_pair (o : list (string * nat)) j c :
  nth_error (onames o) j = Some c ->
  exists pre i post, o = (pre ++ (c, i) :: post)%list /\ length pre = j.
Proof.
  unfold onames. intros H. rewrite nth_error_map in H.
  destruct (nth_error o j) as [[c' i]|] eqn:E; [|discriminate].
  injection H as <-. apply nth_error_split in E as (pre & post & -> & Hl).
  exists pre, i, post; auto.
Qed.

Lemma In_nth_pair (pre : list (string * nat)) c i :
  In (c, i) pre -> exists k, nth_error pre k = Some (c, i) /\ k < length pre.
Proof.
  intros H. apply In_nth_error in H as [k Hk]. exists k; split; auto.
  apply nth_error_Some. congruence.
Qed.

Lemma nth_onames o k c i : nth_error o k = Some (c, i) ->
  nth_error (onames o) k = Some c /\ nth_error (map snd o) k = Some i.
Proof. intros H. unfold onames. rewrite !nth_error_map, H; auto. Qed.

Theorem now_order ps order idx j c p :
  wf_params ps -> delays_ok ps -> build_trigger_order ps = Ok (order, idx) ->
  nth_error order j = Some c -> reads ps c p 0 ->
  exists i ii jj, i < j /\ ii < jj /\ nth_error order i = Some p /\
    nth_error idx i = Some ii /\ nth_error idx j = Some jj.
Proof.
  intros Hwf Hd Hb Hj Hr. destruct (build_ok _ _ _ Hwf Hd Hb) as (ps' & o & -> & -> & HI & HG & _).
  apply nth_split_pair in Hj as (pre & jj & post & Ho & Hl).
  destruct (good_now _ _ HG _ _ _ _ _ Ho Hr) as (ii & Hin & Hlt).
  apply In_nth_pair in Hin as (i & Hi & Hil).
  assert (Ei : nth_error o i = Some (p, ii)) by (rewrite Ho, nth_error_app1; auto).
  assert (Ej : nth_error o j = Some (c, jj)).
  { rewrite Ho, nth_error_app2, Hl, Nat.sub_diag by lia; auto. }
  apply nth_onames in Ei as [? ?]. apply nth_onames in Ej as [? ?].
  exists i, ii, jj. repeat split; auto; lia.
Qed.

Theorem delayed_order ps order idx j p c d :
  wf_params ps -> delays_ok ps -> build_trigger_order ps = Ok (order, idx) ->
  nth_error order j = Some p -> reads ps c p d -> (d < 0)%Z ->
  exists i ii jj, i < j /\ ii <= jj /\ nth_error order i = Some c /\
    nth_error idx i = Some ii /\ nth_error idx j = Some jj.
Proof.
  intros Hwf Hd Hb Hj Hr Hneg. destruct (build_ok _ _ _ Hwf Hd Hb) as (ps' & o & -> & -> & HI & HG & _).
  apply nth_split_pair in Hj as (pre & jj & post & Ho & Hl).
  destruct (good_del _ _ HG _ _ _ _ _ _ Ho Hr Hneg) as (ii & Hin & Hlt).
  apply In_nth_pair in Hin as (i & Hi & Hil).
  assert (Ei : nth_error o i = Some (c, ii)) by (rewrite Ho, nth_error_app1; auto).
  assert (Ej : nth_error o j = Some (p, jj)).
  { rewrite Ho, nth_error_app2, Hl, Nat.sub_diag by lia; auto. }
  apply nth_onames in Ei as [? ?]. apply nth_onames in Ej as [? ?].
  exists i, ii, jj. repeat split; auto; lia.
Qed.

(* ---------- C03: shape and termination ---------- *)

Lemma round_shape ps0 index : forall leaves ps o ps' o',
  Inv ps0 ps o -> NoDup leaves -> (forall l, In l leaves -> declared ps l) ->
  fold_res (trig_leaf index) (ps, o) leaves = Ok (ps', o') ->
  Inv ps0 ps' o' /\ (forall c, declared ps' c -> declared ps c) /\
  exists k new, o' = (o ++ new)%list /\ map snd new = repeat index k /\
    ((k = 0 /\ ps' = ps) \/ (0 < k /\ length ps' < length ps)).
Proof.
  induction leaves as [|l leaves IH]; simpl; intros ps o ps' o' HI Hnd Hdec H.
  { injection H as <- <-. split; auto. split; auto. exists 0, []. rewrite app_nil_r; simpl; auto. }
  inv_bind H. destruct a as [ps1 o1]. inversion Hnd; subst.
  destruct (trig_leaf_spec _ _ _ _ _ _ _ HI (Hdec l (or_introl eq_refl)) E)
    as [(Hd & -> & ->)|(Hd & -> & HI1 & Hlen)].
  - eapply IH; eauto.
  - destruct (IH ps1 (o ++ [(l, index)])%list ps' o') as (A & B & k & new & -> & Hs & Hk); auto.
    + intros l' Hl'. apply (inv_keys _ _ _ HI1). specialize (Hdec l' (or_intror Hl')).
      apply (inv_keys _ _ _ HI) in Hdec as [Hd1 Hd2]; split; auto.
      unfold onames in *. rewrite map_app, in_app_iff. intros [Hx|[Hx|[]]]; auto. simpl in Hx; subst; auto.
    + split; auto. split.
      * intros c Hc. apply B, (inv_keys _ _ _ HI1) in Hc as [Hc1 Hc2]. apply (inv_keys _ _ _ HI); split; auto.
        intros Hx; apply Hc2. unfold onames in *. rewrite map_app, in_app_iff; auto.
      * exists (S k), ((l, index) :: new). rewrite <- app_assoc. simpl. rewrite Hs. split; auto. split; auto.
        right; split; [lia|]. destruct Hk as [[_ ->]|[_ Hk]]; lia.
Qed.

Inductive gapless : list nat -> nat -> Prop :=
| gap0 : gapless [] 0
| gapS l n k : gapless l n -> 0 < k -> gapless (l ++ repeat n k) (S n).

Lemma rounds_shape ps0 : forall fuel index ps o ps' o',
  Inv ps0 ps o -> gapless (map snd o) index ->
  trig_rounds fuel index (ps, o) = Ok (ps', o') ->
  Inv ps0 ps' o' /\ exists n, gapless (map snd o') n.
Proof.
  induction fuel as [|fuel IH]; intros index ps o ps' o' HI HG H; [discriminate|].
  cbn [trig_rounds fst] in H. inv_bind H. rename a into leaves.
  destruct leaves as [|l0 ls]; [injection H as <- <-; eauto|].
  set (leaves := l0 :: ls) in *. inv_bind H. destruct a as [ps1 o1].
  destruct (find_leaves_spec _ _ E) as (F1 & F2 & F3).
  destruct (round_shape ps0 index leaves ps o ps1 o1) as (A & B & k & new & Ho & Hs & Hk); auto.
  - apply F3. apply (inv_wf _ _ _ HI).
  - intros l Hl. destruct (F1 _ Hl) as (pl & Hpl & _).
    unfold declared; change l with (fst (l, pl)); apply in_map; auto.
  - cbn [fst] in H. destruct (Nat.eqb_spec (length ps) (length ps1)) as [He|Hne]; [discriminate|].
    destruct Hk as [[-> ->]|[Hk Hlt]]; [congruence|].
    apply (IH (S index) ps1 o1); auto.
    subst o1. rewrite map_app, Hs. constructor; auto.
Qed.

Lemma gapless_max l n : gapless l n -> forall x, In x l -> x < n.
Proof.
  induction 1; simpl; [tauto|]. intros x Hx. apply in_app_iff in Hx as [Hx|Hx].
  - apply IHgapless in Hx; lia.
  - apply repeat_spec in Hx; lia.
Qed.

Lemma gapless_last l n : gapless l n -> forall l0 x, l = (l0 ++ [x])%list -> n = S x.
Proof.
  destruct 1 as [|l n k Hg Hk]; intros l0 x Hl; [destruct l0; discriminate|].
  destruct k; [lia|]. replace (S k) with (k + 1) in Hl by lia.
  rewrite repeat_app in Hl. simpl in Hl. rewrite app_assoc in Hl. apply app_inj_tail in Hl as [_ ->]; auto.
Qed.

Lemma gapless_first l n : gapless l n -> forall x, nth_error l 0 = Some x -> x = 0.
Proof.
  induction 1 as [|l n k Hg IH Hk]; intros x Hx; [discriminate|].
  destruct l as [|y l]; [|simpl in Hx; auto].
  inversion Hg as [|l' n' k' Hg' Hk' Hl]; subst.
  - destruct k; [lia|]. simpl in Hx. congruence.
  - destruct k'; [lia|]. simpl in Hl. destruct l'; discriminate.
Qed.

Lemma gapless_step l n : gapless l n -> forall j x y,
  nth_error l j = Some x -> nth_error l (S j) = Some y -> y = x \/ y = S x.
Proof.
  induction 1 as [|l n k Hg IH Hk]; intros j x y Hx Hy; [destruct j; discriminate|].
  destruct (lt_dec (S j) (length l)) as [Hl|Hl].
  - rewrite nth_error_app1 in Hx, Hy by lia. eauto.
  - rewrite nth_error_app2 in Hy by lia. apply nth_error_In, repeat_spec in Hy. subst y.
    destruct (lt_dec j (length l)) as [Hl'|Hl'].
    + rewrite nth_error_app1 in Hx by lia.
      right. apply (gapless_last _ _ Hg (firstn j l) x).
      rewrite <- (firstn_skipn j l) at 1. f_equal.
      assert (Hlen : length (skipn j l) = 1) by (rewrite skipn_length; lia).
      assert (Hsk : nth_error (skipn j l) 0 = Some x).
      { rewrite <- Hx. clear. revert j; induction l; destruct j; simpl; auto. apply IHl. }
      destruct (skipn j l) as [|z [|]]; simpl in *; try discriminate. congruence.
    + rewrite nth_error_app2 in Hx by lia. apply nth_error_In, repeat_spec in Hx. auto.
Qed.

Lemma build_shape ps0 order idx :
  wf_params ps0 -> build_trigger_order ps0 = Ok (order, idx) ->
  NoDup order /\ (forall c, In c order -> declared ps0 c) /\ length idx = length order /\
  (forall x, nth_error idx 0 = Some x -> x = 0) /\
  (forall j x y, nth_error idx j = Some x -> nth_error idx (S j) = Some y -> y = x \/ y = S x).
Proof.
  intros Hwf H. unfold build_trigger_order in H. inv_bind H. destruct a as [ps o].
  injection H as <- <-.
  assert (Hord : forall fuel index ps o ps' o', (forall c, In c (onames o) -> declared ps0 c) ->
     (forall c, declared ps c -> declared ps0 c) -> Inv ps0 ps o ->
     trig_rounds fuel index (ps, o) = Ok (ps', o') -> forall c, In c (onames o') -> declared ps0 c).
  { clear. induction fuel as [|fuel IH]; intros index ps o ps' o' Ho Hps HI H; [discriminate|].
    cbn [trig_rounds fst] in H. inv_bind H. destruct a as [|l0 ls]; [injection H as <- <-; auto|].
    set (leaves := l0 :: ls) in *. inv_bind H. destruct a as [ps1 o1].
    destruct (find_leaves_spec _ _ E) as (F1 & F2 & F3).
    assert (Hdec : forall l, In l leaves -> declared ps l).
    { intros l Hl. destruct (F1 _ Hl) as (pl & Hpl & _).
      unfold declared; change l with (fst (l, pl)); apply in_map; auto. }
    destruct (round_shape ps0 index leaves ps o ps1 o1) as (A & B & _); auto.
    { apply F3. apply (inv_wf _ _ _ HI). }
    destruct (Nat.eqb _ _); [discriminate|].
    assert (Hf : forall leaves ps o ps' o', (forall l, In l leaves -> declared ps0 l) ->
        (forall c, In c (onames o) -> declared ps0 c) ->
        fold_res (trig_leaf index) (ps, o) leaves = Ok (ps', o') ->
        forall c, In c (onames o') -> declared ps0 c).
    { clear. induction leaves as [|l leaves IH]; simpl; intros ps o ps' o' Hl Ho H.
      - injection H as <- <-; auto.
      - inv_bind H. destruct a as [ps1 o1]. eapply IH; [| |eauto]; auto.
        unfold trig_leaf in E. inv_bind E. destruct a; [injection E as <- <-; auto|].
        inv_bind E. injection E as <- <-. intros c Hc. unfold onames in *. rewrite map_app, in_app_iff in Hc.
        destruct Hc as [Hc|[<-|[]]]; simpl; auto. }
    eapply IH; [| | |exact H]; auto. eapply Hf; [| |exact E0]; auto. }
  destruct (rounds_shape ps0 _ _ _ _ _ _ (Inv_init _ Hwf) gap0 E) as (A & n & B).
  split; [apply (inv_nd _ _ _ A)|]. split.
  { eapply Hord; [| | |exact E]; auto using Inv_init. intros c []. }
  split; [rewrite !map_length; auto|]. split.
  - eapply gapless_first; eauto.
  - eapply gapless_step; eauto.
Qed.

(* fuel is never exhausted *)
Definition noof {A} (m : res A) := m <> Err OutOfFuel.

Lemma noof_bind {A B} (m : res A) (f : A -> res B) : noof m -> (forall a, m = Ok a -> noof (f a)) -> noof (bind m f).
Proof. unfold noof. destruct m as [a|e]; simpl; [eauto|]. intros H _ E. apply H. congruence. Qed.

Lemma noof_ok {A} (a : A) : noof (Ok a).
Proof. discriminate. Qed.

Lemma noof_map_res {A B} (f : A -> res B) l : (forall x, noof (f x)) -> noof (map_res f l).
Proof.
  intros Hf. induction l; simpl; [apply noof_ok|].
  apply noof_bind; auto. intros; apply noof_bind; auto. intros; apply noof_ok.
Qed.

Lemma noof_filter_res {A} (f : A -> res bool) l : (forall x, noof (f x)) -> noof (filter_res f l).
Proof.
  intros Hf. induction l; simpl; [apply noof_ok|].
  apply noof_bind; auto. intros; apply noof_bind; auto. intros; apply noof_ok.
Qed.

Lemma noof_py_int s : noof (py_int s).
Proof.
  unfold py_int, noof. repeat (match goal with |- context [match ?x with _ => _ end] => destruct x end; try discriminate).
Qed.

Lemma noof_split2 c s : noof (split2 c s).
Proof.
  unfold split2, noof. repeat (match goal with |- context [match ?x with _ => _ end] => destruct x end; try discriminate).
Qed.

Lemma noof_split s : noof (split_output s).
Proof.
  unfold split_output.
  repeat (first [ apply noof_ok | apply noof_py_int | apply noof_split2
                | apply noof_bind; [|intros ? _] | match goal with |- noof (let (_, _) := ?x in _) => destruct x end
                | match goal with |- noof (if ?b then _ else _) => destruct b end]).
Qed.

Lemma noof_owner s : noof (output_owner s).
Proof. apply noof_bind; [apply noof_split|intros; apply noof_ok]. Qed.
Lemma noof_delay s : noof (output_delay s).
Proof. apply noof_bind; [apply noof_split|intros; apply noof_ok]. Qed.
Lemma noof_owner_v v : noof (owner_v v).
Proof. destruct v; try discriminate. apply noof_owner. Qed.
Lemma noof_delay_v v : noof (delay_v v).
Proof. destruct v; try discriminate. apply noof_delay. Qed.
Lemma noof_inputs p : noof (inputs_items p).
Proof. unfold inputs_items. destruct (dget "inputs" p) as [[]|]; discriminate. Qed.

Lemma noof_is_leaf_items ins : forall md, noof (is_leaf_items ins md).
Proof.
  induction ins as [|[k v] ins IH]; simpl; intros md; [discriminate|].
  apply noof_bind.
  - destruct v as [| | | |s|[|x l]|]; try apply noof_ok.
    + apply noof_bind; [apply noof_delay|intros; apply noof_ok].
    + apply noof_bind; [apply noof_map_res, noof_delay_v|intros; apply noof_ok].
  - intros [d|] _; [|discriminate]. destruct (d =? 0)%Z; [discriminate|apply IH].
Qed.

Lemma noof_is_leaf p : noof (is_leaf p).
Proof. apply noof_bind; [apply noof_inputs|]. intros [d|] _; [apply noof_is_leaf_items|discriminate]. Qed.

Lemma noof_find_leaves ps : noof (find_leaves ps).
Proof.
  induction ps as [|[k p] ps IH]; simpl; [discriminate|].
  apply noof_bind; [apply noof_is_leaf|]. intros. apply noof_bind; auto. intros; apply noof_ok.
Qed.

Lemma noof_hdo_outputs obj l : noof (hdo_outputs obj l).
Proof.
  induction l as [|x l IH]; simpl; [discriminate|].
  apply noof_bind; [apply noof_owner_v|]; intros. apply noof_bind; [apply noof_delay_v|]; intros.
  destruct (_ && _); [discriminate|auto].
Qed.

Lemma noof_hdo_inputs obj l : noof (hdo_inputs obj l).
Proof.
  induction l as [|[k v] l IH]; simpl; [discriminate|].
  apply noof_bind; [destruct v; discriminate|]; intros.
  apply noof_bind; [apply noof_hdo_outputs|]; intros. destruct a0; [discriminate|auto].
Qed.

Lemma noof_hdo obj ps : noof (has_delayed_output obj ps).
Proof.
  induction ps as [|[k p] ps IH]; simpl; [discriminate|].
  apply noof_bind; [apply noof_inputs|]; intros i _.
  apply noof_bind; [destruct i; [apply noof_hdo_inputs|discriminate]|]. intros [] _; [discriminate|auto].
Qed.

Lemma noof_remove_items obj l : noof (remove_items obj l).
Proof.
  induction l as [|[k v] l IH]; simpl; [discriminate|].
  destruct v; try (apply noof_bind; [auto|intros; apply noof_ok]).
  - apply noof_bind; [apply noof_owner|]; intros. apply noof_bind; [auto|intros; apply noof_ok].
  - apply noof_bind; [apply noof_filter_res|].
    + intros x. apply noof_bind; [apply noof_owner_v|intros; apply noof_ok].
    + intros. apply noof_bind; [auto|intros; apply noof_ok].
Qed.

Lemma noof_remove_inputs obj ps : noof (remove_inputs obj ps).
Proof.
  induction ps as [|[k p] ps IH]; simpl; [discriminate|].
  apply noof_bind.
  - apply noof_bind; [apply noof_inputs|]. intros [d|] _; [|discriminate].
    apply noof_bind; [apply noof_remove_items|intros; apply noof_ok].
  - intros. apply noof_bind; auto. intros; apply noof_ok.
Qed.

Lemma noof_trig_leaf index st l : noof (trig_leaf index st l).
Proof.
  destruct st as [ps o]. apply noof_bind; [apply noof_hdo|].
  intros [] _; [discriminate|]. apply noof_bind; [apply noof_remove_inputs|intros; apply noof_ok].
Qed.

Lemma noof_fold {A B} (f : A -> B -> res A) l : (forall a b, noof (f a b)) -> forall a, noof (fold_res f a l).
Proof.
  intros Hf. induction l; simpl; intros a'; [discriminate|].
  apply noof_bind; auto.
Qed.

Lemma length_remove_inputs obj ps ps' : remove_inputs obj ps = Ok ps' -> length ps' = length ps.
Proof.
  revert ps'; induction ps as [|[k p] ps IH]; simpl; intros ps' H; [injection H as <-; auto|].
  inv_bind H. inv_bind H. injection H as <-. simpl. auto.
Qed.

Lemma fold_trig_length index leaves : forall st st',
  fold_res (trig_leaf index) st leaves = Ok st' -> length (fst st') <= length (fst st).
Proof.
  induction leaves as [|l leaves IH]; simpl; intros st st' H; [injection H as <-; auto|].
  inv_bind H. apply IH in H. destruct st as [ps o]. simpl.
  unfold trig_leaf in E. inv_bind E. destruct a0; [injection E as <-; auto|].
  inv_bind E. injection E as <-. apply length_remove_inputs in E1. simpl in H.
  pose proof (length_ddel_le l ps). lia.
Qed.

Lemma rounds_fuel fuel : forall index st, length (fst st) < fuel -> noof (trig_rounds fuel index st).
Proof.
  induction fuel as [|fuel IH]; intros index st Hlt; [lia|].
  cbn [trig_rounds]. apply noof_bind; [apply noof_find_leaves|]. intros [|l0 ls] _; [discriminate|].
  apply noof_bind; [apply noof_fold, noof_trig_leaf|]. intros st' Hst.
  destruct (Nat.eqb _ _) eqn:En; [discriminate|]. apply Nat.eqb_neq in En.
  apply IH. apply fold_trig_length in Hst. unfold tstate, params, pars, dict in *. lia.
Qed.

Theorem build_terminates ps : build_trigger_order ps <> Err OutOfFuel.
Proof.
  apply noof_bind; [apply rounds_fuel; simpl; lia|]. intros; apply noof_ok.
Qed.

(* ---------- C06 ---------- *)

Lemma find_leaves_nil ps : wf_params ps -> find_leaves ps = Ok [] ->
  forall c, declared ps c -> exists p, reads ps c p 0.
Proof.
  intros Hwf Hf c Hc. destruct (find_leaves_spec _ _ Hf) as (_ & F & _).
  unfold declared in Hc. apply in_map_iff in Hc as ([c' pc] & <- & Hin). simpl.
  destruct (F _ _ Hin) as [[]|Hl]. apply wf_params_iff in Hwf as [_ Hwf].
  destruct (is_leaf_false _ (Hwf _ _ Hin) Hl) as [o Ho]. exists o. apply reads_iff; eauto.
Qed.

Theorem missing_reads_missing ps order idx c :
  wf_params ps -> delays_ok ps -> build_trigger_order ps = Ok (order, idx) ->
  declared ps c -> ~ In c order -> exists p, reads ps c p 0 /\ ~ In p order.
Proof.
  intros Hwf Hd Hb Hc Hn. destruct (build_ok _ _ _ Hwf Hd Hb) as (ps' & o & -> & -> & HI & HG & Hf).
  destruct (find_leaves_nil _ (inv_wf _ _ _ HI) Hf c) as [p Hp].
  - apply (inv_keys _ _ _ HI); auto.
  - apply (inv_reads _ _ _ HI) in Hp as (_ & ? & ?). eauto.
Qed.

Theorem loop_never_scheduled ps order idx (L : string -> Prop) :
  wf_params ps -> delays_ok ps -> build_trigger_order ps = Ok (order, idx) ->
  (forall c, L c -> exists p, L p /\ reads ps c p 0) ->
  forall c, L c -> ~ In c order.
Proof.
  intros Hwf Hd Hb HL.
  assert (H : forall j c, L c -> nth_error order j = Some c -> False).
  { induction j as [j IH] using lt_wf_ind. intros c Hc Hj.
    destruct (HL _ Hc) as (p & Hp & Hr).
    destruct (now_order _ _ _ _ _ _ Hwf Hd Hb Hj Hr) as (i & _ & _ & Hlt & _ & Hi & _).
    eapply IH; eauto. }
  intros c Hc Hin. apply In_nth_error in Hin as [j Hj]. eauto.
Qed.

(* ---------- C05 ---------- *)

Definition val_ok (v : yval) : Prop :=
  (exists s, v = YStr s /\ exists o d, refers s o d) \/
  (exists l, v = YList l /\ forall x, In x l -> exists s o d, x = YStr s /\ refers s o d).
Definition items_ok (ins : dict yval) := forall k v, In (k, v) ins -> val_ok v.
Definition pars_ok (p : pars) :=
  (forall v, In ("inputs", v) p -> exists ins, v = YDict ins) /\
  (forall ins, In ("inputs", YDict ins) p -> items_ok ins).

Lemma inputs_ok_iff ps : inputs_ok ps <-> forall c pc, In (c, pc) ps -> pars_ok pc.
Proof.
  unfold inputs_ok, pars_ok, items_ok, val_ok. split; intros H c pc Hc; destruct (H c pc Hc) as [H1 H2]; split; eauto.
Qed.

Lemma pars_ok_inputs p : pars_ok p -> wf_pars p ->
  exists i, inputs_items p = Ok i /\ match i with None => True | Some ins => In ("inputs", YDict ins) p /\ items_ok ins end.
Proof.
  intros [H1 H2] [Hnd _]. unfold inputs_items. destruct (dget "inputs" p) as [v|] eqn:E.
  - apply dget_In in E. destruct (H1 _ E) as [ins ->]. exists (Some ins); auto.
  - exists None; auto.
Qed.

Lemma map_res_total {A B} (f : A -> res B) l : (forall x, In x l -> exists y, f x = Ok y) -> exists ys, map_res f l = Ok ys.
Proof.
  induction l as [|a l IH]; simpl; intros H; [eauto|].
  destruct (H a) as [y Hy]; auto. destruct IH as [ys Hys]; auto. rewrite Hy, Hys; simpl; eauto.
Qed.

Lemma filter_res_total {A} (f : A -> res bool) l : (forall x, In x l -> exists y, f x = Ok y) -> exists ys, filter_res f l = Ok ys.
Proof.
  induction l as [|a l IH]; simpl; intros H; [eauto|].
  destruct (H a) as [y Hy]; auto. destruct IH as [ys Hys]; auto. rewrite Hy, Hys; simpl; eauto.
Qed.

Lemma items_ok_cons k v ins : items_ok ((k, v) :: ins) -> val_ok v /\ items_ok ins.
Proof. intros H; split; [apply (H k); simpl; auto|]. intros k' v' Hi; apply (H k'); simpl; auto. Qed.

Lemma is_leaf_items_total ins : items_ok ins -> forall md, exists b, is_leaf_items ins md = Ok b.
Proof.
  induction ins as [|[k v] ins IH]; simpl; intros Hok md; [eauto|].
  apply items_ok_cons in Hok as [Hv Hok]. specialize (IH Hok).
  destruct Hv as [(s & -> & o & d & Hr)|(l & -> & Hl)].
  - apply refers_iff in Hr as [_ Hr]. rewrite Hr; simpl. destruct (d =? 0)%Z; eauto.
  - destruct l as [|x l]; simpl; [eauto|].
    destruct (map_res_total delay_v (x :: l)) as [ys Hys].
    { intros y Hy. destruct (Hl y Hy) as (s & o & d & -> & Hr). apply refers_iff in Hr as [_ Hr]. simpl; eauto. }
    simpl in Hys. rewrite Hys. simpl. destruct ys; [simpl; eauto|]. destruct (_ =? 0)%Z; eauto.
Qed.

Lemma is_leaf_total p : pars_ok p -> wf_pars p -> exists b, is_leaf p = Ok b.
Proof.
  intros H Hw. destruct (pars_ok_inputs _ H Hw) as (i & Hi & Hm). unfold is_leaf. rewrite Hi; simpl.
  destruct i as [ins|]; [|eauto]. apply is_leaf_items_total, Hm.
Qed.

Lemma hdo_outputs_total obj l : (forall x, In x l -> exists s o d, x = YStr s /\ refers s o d) ->
  exists b, hdo_outputs obj l = Ok b.
Proof.
  induction l as [|x l IH]; simpl; intros H; [eauto|].
  destruct (H x) as (s & o & d & -> & Hr); auto. apply refers_iff in Hr as [Ho Hd]. simpl. rewrite Ho, Hd; simpl.
  destruct (_ && _); eauto.
Qed.

Lemma hdo_inputs_total obj ins : items_ok ins -> exists b, hdo_inputs obj ins = Ok b.
Proof.
  induction ins as [|[k v] ins IH]; simpl; intros Hok; [eauto|].
  apply items_ok_cons in Hok as [Hv Hok]. specialize (IH Hok).
  destruct Hv as [(s & -> & o & d & Hr)|(l & -> & Hl)].
  - destruct (hdo_outputs_total obj [YStr s]) as [b Hb].
    { intros x [<-|[]]; eauto. }
    unfold outputs_list. cbn [bind]. rewrite Hb. cbn [bind]. destruct b; eauto.
  - destruct (hdo_outputs_total obj l Hl) as [b Hb]. unfold outputs_list. cbn [bind]. rewrite Hb. cbn [bind]. destruct b; eauto.
Qed.

Lemma wf_cons k p ps : wf_params ((k, p) :: ps) -> wf_pars p /\ wf_params ps.
Proof.
  rewrite !wf_params_iff. intros [Hnd H]. inversion Hnd; subst. split; [apply (H k); simpl; auto|].
  split; auto. intros c pc Hc; apply (H c); simpl; auto.
Qed.

Lemma ok_cons k p ps : inputs_ok ((k, p) :: ps) -> pars_ok p /\ inputs_ok ps.
Proof.
  rewrite !inputs_ok_iff. intros H. split; [apply (H k); simpl; auto|].
  intros c pc Hc; apply (H c); simpl; auto.
Qed.

Lemma hdo_total obj ps : wf_params ps -> inputs_ok ps -> exists b, has_delayed_output obj ps = Ok b.
Proof.
  induction ps as [|[k p] ps IH]; simpl; intros Hw Hok; [eauto|].
  apply wf_cons in Hw as [Hwp Hw]. apply ok_cons in Hok as [Hp Hok].
  destruct (pars_ok_inputs _ Hp Hwp) as (i & Hi & Hm). rewrite Hi; simpl. specialize (IH Hw Hok).
  destruct i as [ins|]; simpl; [|auto]. destruct (hdo_inputs_total obj ins) as [b Hb]; [apply Hm|].
  rewrite Hb; simpl. destruct b; eauto.
Qed.

Lemma find_leaves_total ps : wf_params ps -> inputs_ok ps -> exists b, find_leaves ps = Ok b.
Proof.
  induction ps as [|[k p] ps IH]; simpl; intros Hw Hok; [eauto|].
  apply wf_cons in Hw as [Hwp Hw]. apply ok_cons in Hok as [Hp Hok].
  destruct (is_leaf_total _ Hp Hwp) as [b Hb]. destruct (IH Hw Hok) as [ls Hls]. rewrite Hb; simpl; rewrite Hls; simpl; eauto.
Qed.

Lemma remove_items_total obj ins : items_ok ins -> exists ins', remove_items obj ins = Ok ins' /\ items_ok ins'.
Proof.
  induction ins as [|[k v] ins IH]; simpl; intros Hok; [exists []; split; auto; intros ? ? []|].
  apply items_ok_cons in Hok as [Hv Hok]. destruct (IH Hok) as (ins' & Hi & Hi').
  assert (Hc : forall v', val_ok v' -> items_ok ((k, v') :: ins')).
  { intros v' Hv' k0 v0 [H|H]; [injection H as <- <-; auto|eauto]. }
  destruct Hv as [(s & -> & o & d & Hr)|(l & -> & Hl)].
  - pose proof Hr as Hr'. apply refers_iff in Hr as [Ho Hd]. rewrite Ho; simpl. rewrite Hi; simpl.
    eexists; split; [reflexivity|]. destruct (o =? obj); auto. apply Hc. left; eauto.
  - destruct (filter_res_total (fun x => o <- owner_v x;; Ok (negb (o =? obj))) l) as [l' Hl'].
    { intros x Hx. destruct (Hl x Hx) as (s & o & d & -> & Hr). apply refers_iff in Hr as [Ho _].
      simpl; rewrite Ho; simpl; eauto. }
    rewrite Hl'; simpl. rewrite Hi; simpl. eexists; split; [reflexivity|]. apply Hc. right. exists l'; split; auto.
    intros x Hx. apply Hl. apply (filter_res_ok _ _ _ Hl') in Hx; tauto.
Qed.

Lemma remove_inputs_total obj ps : wf_params ps -> inputs_ok ps ->
  exists ps', remove_inputs obj ps = Ok ps' /\ inputs_ok ps'.
Proof.
  induction ps as [|[k p] ps IH]; simpl; intros Hw Hok; [eauto|].
  apply wf_cons in Hw as [Hwp Hw]. apply ok_cons in Hok as [Hp Hok].
  destruct (IH Hw Hok) as (ps' & Hr & Hok'). unfold remove_from.
  destruct (pars_ok_inputs _ Hp Hwp) as (i & Hi & Hm). rewrite Hi; simpl.
  rewrite inputs_ok_iff in Hok'.
  destruct i as [ins|]; simpl.
  - destruct Hm as [Hin Hm]. destruct (remove_items_total obj ins Hm) as (ins' & Hri & Hio). rewrite Hri; simpl.
    rewrite Hr; simpl. eexists; split; [reflexivity|]. apply inputs_ok_iff.
    intros c pc [Hc|Hc]; [|eauto]. injection Hc as <- <-. destruct Hwp as [Hnd _]. destruct Hp as [Hp1 Hp2]. split.
    + intros v Hv. apply In_dset in Hv; auto. destruct Hv as [[_ ->]|[Hv _]]; [eauto|congruence].
    + intros ins0 Hv. apply In_dset in Hv; auto. destruct Hv as [[_ Hv]|[Hv _]]; [injection Hv as ->; auto|congruence].
  - rewrite Hr; simpl. eexists; split; [reflexivity|]. apply inputs_ok_iff.
    intros c pc [Hc|Hc]; [|eauto]. injection Hc as <- <-; auto.
Qed.

Lemma ddel_ok k ps : inputs_ok ps -> inputs_ok (ddel k ps).
Proof. rewrite !inputs_ok_iff. intros H c pc Hc. apply In_ddel in Hc as [Hc _]; eauto. Qed.

Lemma trig_leaf_total index ps o l : wf_params ps -> inputs_ok ps ->
  exists ps' o', trig_leaf index (ps, o) l = Ok (ps', o') /\ inputs_ok ps' /\ wf_params ps'.
Proof.
  intros Hw Hok. unfold trig_leaf. destruct (hdo_total l ps Hw Hok) as [b Hb]. rewrite Hb; simpl.
  destruct b; [eauto 6|].
  destruct (remove_inputs_total l (ddel l ps)) as (ps' & Hr & Hok'); auto using ddel_wf, ddel_ok.
  rewrite Hr; simpl. do 2 eexists; split; [reflexivity|]. split; auto.
  apply (remove_inputs_spec l (ddel l ps)); auto using ddel_wf.
Qed.

Lemma fold_total index leaves : forall ps o, wf_params ps -> inputs_ok ps ->
  exists ps' o', fold_res (trig_leaf index) (ps, o) leaves = Ok (ps', o') /\ inputs_ok ps'.
Proof.
  induction leaves as [|l leaves IH]; cbn [fold_res]; intros ps o Hw Hok; [eauto|].
  destruct (trig_leaf_total index ps o l Hw Hok) as (ps1 & o1 & H1 & H2 & H3). rewrite H1; cbn [bind]. auto.
Qed.

Lemma argmin (rank : string -> nat) (l : list string) : l <> [] -> exists m, In m l /\ forall x, In x l -> rank m <= rank x.
Proof.
  induction l as [|a l IH]; [congruence|]. intros _. destruct l as [|b l].
  - exists a; simpl; split; auto. intros x [->|[]]; auto.
  - destruct IH as (m & Hm & Hmin); [discriminate|].
    destruct (le_lt_dec (rank a) (rank m)).
    + exists a; split; [simpl; auto|]. intros x [->|Hx]; auto. apply Hmin in Hx; lia.
    + exists m; split; [simpl in *; auto|]. intros x [->|Hx]; [lia|auto].
Qed.

Lemma fresh_not_declared ps0 ps o : Inv ps0 ps o -> forall c, declared ps0 c -> ~ declared ps c -> In c (onames o).
Proof.
  intros HI c Hc Hn. destruct (in_dec string_dec c (onames o)); auto. exfalso; apply Hn, (inv_keys _ _ _ HI); auto.
Qed.

Lemma rounds_complete ps0 rank : wf_params ps0 -> delays_ok ps0 -> valid_rank ps0 rank ->
  forall fuel index ps o, length ps < fuel -> Inv ps0 ps o -> Good ps0 o ->
  (forall c i, In (c, i) o -> i < index) -> inputs_ok ps ->
  exists o', trig_rounds fuel index (ps, o) = Ok ([], o').
Proof.
  intros Hwf0 Hdel [R1 R2]. induction fuel as [|fuel IH]; intros index ps o Hlt HI HG Hidx Hok; [lia|].
  cbn [trig_rounds fst].
  pose proof (inv_wf _ _ _ HI) as Hw.
  destruct (find_leaves_total _ Hw Hok) as [leaves Hf]. rewrite Hf. cbn [bind].
  destruct (find_leaves_spec _ _ Hf) as (F1 & F2 & F3).
  destruct ps as [|e ps1] eqn:Eps; [injection Hf as <-; eauto|]. rewrite <- Eps in *.
  (* a minimal remaining object is a leaf *)
  destruct (argmin rank (map fst ps)) as (m & Hm & Hmin); [rewrite Eps; discriminate|].
  assert (Hml : In m leaves).
  { destruct (proj1 (in_map_iff fst ps m) Hm) as ([m' pm] & Hm' & Hin). simpl in Hm'; subst m'.
    destruct (F2 _ _ Hin) as [|Hl]; auto. exfalso.
    apply wf_params_iff in Hw as [_ Hw].
    destruct (is_leaf_false _ (Hw _ _ Hin) Hl) as [p Hp].
    assert (Hr : reads ps m p 0) by (apply reads_iff; eauto).
    apply (inv_reads _ _ _ HI) in Hr as (_ & Hr & Hn). apply R1 in Hr as [Hpd Hrk].
    assert (declared ps p) by (apply (inv_keys _ _ _ HI); auto). apply Hmin in H. lia. }
  destruct leaves as [|l0 ls]; [destruct Hml|]. cbv beta iota zeta. set (leaves := l0 :: ls) in *.
  destruct (fold_total index leaves ps o Hw Hok) as (ps2 & o2 & Hfold & Hok2). 
  match goal with |- context [fold_res ?f ?s ?l] => replace (fold_res f s l) with (Ok (ps2, o2) : res tstate) by (symmetry; exact Hfold) end. cbn [bind fst].
  assert (Hdec : forall l, In l leaves -> declared ps l).
  { intros l Hl. destruct (F1 _ Hl) as (pl & Hpl & _).
    unfold declared; change l with (fst (l, pl)); apply in_map; auto. }
  destruct (round_spec ps0 index o leaves ps o ps2 o2) as (A & B & (new & Ho & Hnew) & D & F & G); auto.
  { apply F3. apply Hw. }
  { exists []. rewrite app_nil_r; split; auto. intros c i []. }
  { eapply leaves_now; eauto. }
  destruct (round_shape ps0 index leaves ps o ps2 o2) as (_ & _ & k & new' & _ & _ & Hk); auto.
  { apply F3. apply Hw. }
  assert (Hnm : ~ declared ps2 m).
  { intros Hdm. destruct (G m Hml Hdm) as (psl & G1 & G2 & G3 & G4).
    apply (has_delayed_output_spec _ _ _ G2) in G1 as (c & d & Hr & Hneg).
    pose proof (reads_declared _ _ _ _ Hr) as Hcd. apply G4 in Hcd.
    apply G3 in Hr. apply (inv_reads _ _ _ HI) in Hr as (_ & Hr & _).
    assert (Hmd : declared ps0 m) by (apply (inv_keys _ _ _ HI) in Hm; apply Hm).
    pose proof (R2 _ _ _ Hr Hneg Hmd). apply Hmin in Hcd. lia. }
  destruct Hk as [[_ ->]|[_ Hlen]]; [contradiction|].
  destruct (Nat.eqb_spec (length ps) (length ps2)); [lia|].
  apply IH; auto; [lia|].
  intros c i Hi. subst o2. apply in_app_iff in Hi as [Hi|Hi]; [apply Hidx in Hi; lia|apply Hnew in Hi; lia].
Qed.

Theorem schedulable_complete ps rank :
  wf_params ps -> delays_ok ps -> inputs_ok ps -> valid_rank ps rank ->
  exists order idx, build_trigger_order ps = Ok (order, idx) /\ forall c, declared ps c -> In c order.
Proof.
  intros Hw Hd Hok Hr.
  destruct (rounds_complete ps rank Hw Hd Hr (S (length ps)) 0 ps []) as [o' Ho'];
    auto using Inv_init, Good_init; [intros c i []|].
  exists (onames o'), (map snd o'). unfold build_trigger_order.
  change (trig_rounds (S (length ps)) 0 (ps, []) = (Ok ([], o') : res tstate)) in Ho'. split.
  { unfold params, dict in *. rewrite Ho'. reflexivity. }
  destruct (rounds_shape ps _ _ _ _ _ _ (Inv_init _ Hw) gap0 Ho') as (A & _).
  intros c Hc. eapply fresh_not_declared; eauto.
Qed.

Fixpoint index_of (c : string) (l : list string) : nat :=
  match l with [] => 0 | x :: r => if String.eqb c x then 0 else S (index_of c r) end.

Lemma index_of_nth l : NoDup l -> forall i c, nth_error l i = Some c -> index_of c l = i.
Proof.
  induction 1 as [|x l Hx Hnd IH]; intros i c Hi; [destruct i; discriminate|].
  destruct i; simpl in *.
  - injection Hi as ->. rewrite String.eqb_refl; auto.
  - destruct (String.eqb_spec c x) as [->|Hne]; [|f_equal; auto].
    exfalso; apply Hx. eapply nth_error_In; eauto.
Qed.

Theorem complete_schedulable ps order idx :
  wf_params ps -> delays_ok ps -> build_trigger_order ps = Ok (order, idx) ->
  (forall c, declared ps c -> In c order) -> exists rank, valid_rank ps rank.
Proof.
  intros Hw Hd Hb Hall. destruct (build_shape _ _ _ Hw Hb) as (Hnd & Hdec & _).
  exists (fun c => index_of c order). split.
  - intros c p Hr. assert (Hc : In c order) by (eapply Hall, reads_declared; eauto).
    apply In_nth_error in Hc as [j Hj].
    destruct (now_order _ _ _ _ _ _ Hw Hd Hb Hj Hr) as (i & _ & _ & Hlt & _ & Hi & _).
    rewrite (index_of_nth _ Hnd _ _ Hi), (index_of_nth _ Hnd _ _ Hj). split; auto.
    apply Hdec. eapply nth_error_In; eauto.
  - intros c p d Hr Hneg Hp. apply Hall in Hp. apply In_nth_error in Hp as [j Hj].
    destruct (delayed_order _ _ _ _ _ _ _ Hw Hd Hb Hj Hr Hneg) as (i & _ & _ & Hlt & _ & Hi & _).
    rewrite (index_of_nth _ Hnd _ _ Hi), (index_of_nth _ Hnd _ _ Hj). auto.
Qed.

(* ---------- checkers, used for concrete configurations ---------- *)

Fixpoint nodupb (l : list string) : bool :=
  match l with [] => true | x :: r => negb (existsb (String.eqb x) r) && nodupb r end.

Lemma nodupb_ok l : nodupb l = true -> NoDup l.
Proof.
  induction l as [|x l IH]; simpl; intros H; constructor; apply andb_true_iff in H as [H1 H2]; auto.
  intros Hin. apply negb_true_iff in H1. rewrite <- not_true_iff_false in H1. apply H1.
  apply existsb_exists. exists x; split; auto. apply String.eqb_refl.
Qed.

Definition refs_of (v : yval) : list string :=
  match v with
  | YStr s => [s]
  | YList l => flat_map (fun x => match x with YStr s => [s] | _ => [] end) l
  | _ => []
  end.

Lemma refs_of_ok v s : ref_in v s <-> In s (refs_of v).
Proof.
  destruct v; simpl; try (split; [intros [H|(l' & H & _)]; discriminate|tauto]).
  - rewrite ref_in_str; intuition.
  - rewrite ref_in_list, in_flat_map. split.
    + intros H. exists (YStr s); simpl; auto.
    + intros (x & Hx & Hs). destruct x; simpl in Hs; try tauto. destruct Hs as [->|[]]; auto.
Qed.

Definition wf_check (ps : params) : bool :=
  nodupb (map fst ps) &&
  forallb (fun cp => nodupb (map fst (snd cp)) &&
    forallb (fun kv => match snd kv with YDict ins => nodupb (map fst ins) | _ => true end) (snd cp)) ps.

Lemma wf_check_ok ps : wf_check ps = true -> wf_params ps.
Proof.
  unfold wf_check. rewrite andb_true_iff, forallb_forall. intros [H1 H2].
  apply wf_params_iff. split; [apply nodupb_ok; auto|]. intros c pc Hc. apply H2 in Hc. simpl in Hc.
  apply andb_true_iff in Hc as [H3 H4]. split; [apply nodupb_ok; auto|].
  rewrite forallb_forall in H4. intros ins Hi. apply H4 in Hi. apply nodupb_ok; auto.
Qed.

Definition all_refs (ps : params) : list (string * string) :=
  flat_map (fun cp => flat_map (fun kv => if String.eqb (fst kv) "inputs" then
     match snd kv with YDict ins => flat_map (fun kv' => map (fun s => (fst cp, s)) (refs_of (snd kv'))) ins | _ => [] end
     else []) (snd cp)) ps.

Lemma all_refs_ok ps c p d : reads ps c p d <-> exists s, In (c, s) (all_refs ps) /\ refers s p d.
Proof.
  unfold all_refs. rewrite reads_iff. split.
  - intros (pc & Hc & ins & Hi & k & v & s & Hkv & Hs & Hr). exists s; split; auto.
    apply in_flat_map. exists (c, pc); split; auto. simpl.
    apply in_flat_map. exists ("inputs", YDict ins); split; auto. simpl.
    apply in_flat_map. exists (k, v); split; auto. simpl. apply (in_map (fun s => (c, s))). apply refs_of_ok; auto.
  - intros (s & Hin & Hr). apply in_flat_map in Hin as ([c' pc] & Hc & Hin). simpl in Hin.
    apply in_flat_map in Hin as ([k v] & Hk & Hin). simpl in Hin.
    destruct (String.eqb_spec k "inputs") as [->|]; [|destruct Hin].
    destruct v; try destruct Hin. rename d0 into ins. apply in_flat_map in Hin as ([k' v'] & Hk' & Hin). simpl in Hin.
    apply in_map_iff in Hin as (s' & Hs & Hin). injection Hs as -> ->.
    exists pc; split; auto. exists ins; split; auto. exists k', v', s. split; auto. split; auto. apply refs_of_ok; auto.
Qed.

Definition delays_check (ps : params) : bool :=
  forallb (fun cs => match output_delay (snd cs) with Ok d => (d <=? 0)%Z | Err _ => true end) (all_refs ps).

Lemma delays_check_ok ps : delays_check ps = true -> delays_ok ps.
Proof.
  unfold delays_check. rewrite forallb_forall. intros H c p d Hr.
  apply all_refs_ok in Hr as (s & Hin & Hr). apply H in Hin. simpl in Hin.
  apply refers_iff in Hr as [_ Hr]. rewrite Hr in Hin. apply Z.leb_le; auto.
Qed.

Definition parses (s : string) : bool := match split_output s with Ok _ => true | Err _ => false end.
Lemma parses_ok s : parses s = true -> exists o d, refers s o d.
Proof.
  unfold parses. destruct (split_output s) as [o|] eqn:E; [|discriminate]. intros _.
  exists (o_obj o), (o_delay o). apply refers_iff. unfold output_owner, output_delay. rewrite E; auto.
Qed.

Definition inputs_check (ps : params) : bool :=
  forallb (fun cp => forallb (fun kv => if String.eqb (fst kv) "inputs" then
     match snd kv with
     | YDict ins => forallb (fun kv' => match snd kv' with
                                        | YStr s => parses s
                                        | YList l => forallb (fun x => match x with YStr s => parses s | _ => false end) l
                                        | _ => false end) ins
     | _ => false end else true) (snd cp)) ps.

Lemma inputs_check_ok ps : inputs_check ps = true -> inputs_ok ps.
Proof.
  unfold inputs_check. rewrite forallb_forall. intros H. apply inputs_ok_iff. intros c pc Hc.
  apply H in Hc. simpl in Hc. rewrite forallb_forall in Hc. split.
  - intros v Hv. apply Hc in Hv. simpl in Hv. destruct v; try discriminate. eauto.
  - intros ins Hi k v Hkv. apply Hc in Hi. simpl in Hi. rewrite forallb_forall in Hi. apply Hi in Hkv. simpl in Hkv.
    destruct v; try discriminate.
    + left. exists s; split; auto. apply parses_ok; auto.
    + right. exists l; split; auto. rewrite forallb_forall in Hkv. intros x Hx. apply Hkv in Hx.
      destruct x; try discriminate. apply parses_ok in Hx as (o & d & Hr). eauto.
Qed.

Definition rank_check (ps : params) (rank : string -> nat) : bool :=
  forallb (fun cs => match split_output (snd cs) with
    | Ok o => if (o_delay o =? 0)%Z then existsb (String.eqb (o_obj o)) (map fst ps) && Nat.ltb (rank (o_obj o)) (rank (fst cs))
              else if (o_delay o <? 0)%Z then Nat.ltb (rank (fst cs)) (rank (o_obj o)) else true
    | Err _ => true end) (all_refs ps).

Lemma rank_check_ok ps rank : rank_check ps rank = true -> valid_rank ps rank.
Proof.
  unfold rank_check. rewrite forallb_forall. intros H.
  assert (H' : forall c p d, reads ps c p d ->
     (if (d =? 0)%Z then existsb (String.eqb p) (map fst ps) && Nat.ltb (rank p) (rank c)
              else if (d <? 0)%Z then Nat.ltb (rank c) (rank p) else true) = true).
  { intros c p d Hr. apply all_refs_ok in Hr as (s & Hin & Hr). apply H in Hin. simpl in Hin.
    apply refers_iff in Hr as [Ho Hd]. unfold output_owner, output_delay in *.
    destruct (split_output s) as [o|]; [|discriminate]. simpl in *. injection Ho as <-. injection Hd as <-. auto. }
  split.
  - intros c p Hr. apply H' in Hr. simpl in Hr. apply andb_true_iff in Hr as [H1 H2].
    apply Nat.ltb_lt in H2. split; auto. apply existsb_exists in H1 as (x & Hx & He).
    apply String.eqb_eq in He. subst; auto.
  - intros c p d Hr Hneg _. apply H' in Hr.
    destruct (Z.eqb_spec d 0); [lia|]. destruct (Z.ltb_spec d 0); [|lia]. apply Nat.ltb_lt; auto.
Qed.

Definition reads_check (ps : params) (c p : string) (d : Z) : bool :=
  existsb (fun cs => String.eqb (fst cs) c && match split_output (snd cs) with
     | Ok o => String.eqb (o_obj o) p && (o_delay o =? d)%Z | Err _ => false end) (all_refs ps).
Lemma reads_check_ok ps c p d : reads_check ps c p d = true -> reads ps c p d.
Proof.
  unfold reads_check. intros H. apply existsb_exists in H as ([c' s] & Hin & H). simpl in H.
  apply andb_true_iff in H as [H1 H2]. apply String.eqb_eq in H1. subst c'.
  apply all_refs_ok. exists s; split; auto. apply refers_iff. unfold output_owner, output_delay.
  destruct (split_output s) as [o|]; [|discriminate]. apply andb_true_iff in H2 as [H2 H3].
  apply String.eqb_eq in H2. apply Z.eqb_eq in H3. subst; auto.
Qed.
