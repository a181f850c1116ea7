(* The trigger order of TrigOrderModel satisfies the requirements of LoopProofs. *)
From Coq Require Import String List ZArith Bool Arith Lia Permutation.
From Verif Require Import PyBase PyLemmas TrigOrderModel TrigOrderSpec TrigOrderProofs LoopModel LoopSpec LoopProofs.
Import ListNotations.

Lemma combine_nth {A B} (l1 : list A) (l2 : list B) i a b :
  nth_error (combine l1 l2) i = Some (a, b) <-> nth_error l1 i = Some a /\ nth_error l2 i = Some b.
Proof.
  revert l2 i; induction l1 as [|x l1 IH]; intros [|y l2] [|i]; simpl; try (split; [discriminate|intros [? ?]; discriminate]).
  - split; [intros H; injection H as -> ->; auto|intros [H1 H2]; congruence].
  - apply IH.
Qed.

Lemma combine_fst {A B} (l1 : list A) (l2 : list B) : length l2 = length l1 -> map fst (combine l1 l2) = l1.
Proof. revert l2; induction l1; intros [|y l2]; simpl; intros; try discriminate; auto. f_equal; auto. Qed.

Lemma NoDup_filter_fst {A B} (f : A * B -> bool) l : NoDup (map fst l) -> NoDup (map fst (filter f l)).
Proof.
  induction l as [|x l IH]; simpl; intros H; auto. inversion H; subst. destruct (f x); simpl; auto.
  constructor; auto. intros Hi. apply H2. apply in_map_iff in Hi as (y & Hy & Hi). apply filter_In in Hi as [Hi _].
  rewrite <- Hy. apply in_map; auto.
Qed.

Lemma NoDup_fst_fun {A B} (l : list (A * B)) a b b' : NoDup (map fst l) -> In (a, b) l -> In (a, b') l -> b = b'.
Proof.
  induction l as [|[x y] l IH]; simpl; intros Hn; [tauto|]. inversion Hn; subst.
  intros [H|H] [H'|H']; auto; try congruence.
  - injection H as -> ->. exfalso; apply H1. change a with (fst (a, b')). apply in_map; auto.
  - injection H' as -> ->. exfalso; apply H1. change a with (fst (a, b)). apply in_map; auto.
Qed.

Lemma before_filter {A} (f : A -> bool) a b l : before a b l -> f a = true -> f b = true -> before a b (filter f l).
Proof.
  intros (l1 & l2 & l3 & ->) Ha Hb. exists (filter f l1), (filter f l2), (filter f l3).
  rewrite filter_app; simpl; rewrite Ha, filter_app; simpl; rewrite Hb; auto.
Qed.

Lemma nth_before {A} (l : list A) i j a b : nth_error l i = Some a -> nth_error l j = Some b -> i < j -> before a b l.
Proof.
  intros Hi Hj Hlt. apply nth_error_split in Hi as (l1 & r & -> & Hl1).
  rewrite nth_error_app2 in Hj by lia. rewrite Hl1 in Hj. destruct (j - i) as [|k] eqn:E; [lia|]. simpl in Hj.
  apply nth_error_split in Hj as (l2 & l3 & -> & _). exists l1, l2, l3; auto.
Qed.

Lemma nth_inj {A} (l : list A) i j a : NoDup l -> nth_error l i = Some a -> nth_error l j = Some a -> i = j.
Proof.
  intros Hn Hi Hj. apply (proj1 (NoDup_nth_error l) Hn i j); [|congruence]. apply nth_error_Some. congruence.
Qed.

Section L.
Variables St Dt : Type.
Variable outs : St -> option string -> list Dt.
Variable gtime : Dt -> option Z.
Variable cod : string -> code St Dt.

Lemma loop_order_nodup ps order idx isproc : wf_params ps -> build_trigger_order ps = Ok (order, idx) ->
  NoDup (map fst (loop_order isproc order idx)).
Proof.
  intros Hwf Hb. destruct (build_shape _ _ _ Hwf Hb) as (Hnd & _ & Hl & _).
  apply NoDup_filter_fst. rewrite combine_fst; auto.
Qed.

Lemma loop_order_names ps order idx isproc o : wf_params ps -> build_trigger_order ps = Ok (order, idx) ->
  In o (map fst (loop_order isproc order idx)) <-> In o order /\ isproc o = true.
Proof.
  intros Hwf Hb. destruct (build_shape _ _ _ Hwf Hb) as (Hnd & _ & Hl & _).
  unfold loop_order. rewrite in_map_iff. split.
  - intros ([o' i] & <- & Hi). apply filter_In in Hi as [Hi Hp]. split; auto. simpl. eapply in_combine_l; eauto.
  - intros [Hi Hp]. rewrite <- (combine_fst order idx Hl) in Hi. apply in_map_iff in Hi as ([o' i] & <- & Hi).
    exists (o', i); split; auto. apply filter_In; auto.
Qed.

Theorem trigger_order_respects ps order idx isproc :
  wf_params ps -> delays_ok ps -> wired St Dt cod ps -> build_trigger_order ps = Ok (order, idx) ->
  respects St Dt cod (loop_order isproc order idx).
Proof.
  intros Hwf Hd Hw Hb o j s k Ho Hs Hk. apply Hw in Hs. pose proof (Hd _ _ _ Hs) as Hneg.
  destruct (build_shape _ _ _ Hwf Hb) as (Hnd & _ & Hl & _).
  assert (Hnc : NoDup (map fst (combine order idx))) by (rewrite combine_fst; auto).
  apply filter_In in Ho as [Ho Po]. apply filter_In in Hk as [Hk Pk].
  destruct (In_nth_error _ _ Ho) as [jo Hjo]. destruct (In_nth_error _ _ Hk) as [jk Hjk].
  pose proof Hjo as Hjo'. pose proof Hjk as Hjk'.
  apply combine_nth in Hjo as [Hjo1 Hjo2]. apply combine_nth in Hjk as [Hjk1 Hjk2].
  split; intros Hsgn.
  - assert (E : s_delay s = 0%Z) by lia. rewrite E in Hs.
    destruct (now_order _ _ _ _ _ _ Hwf Hd Hb Hjo1 Hs) as (i & ii & jj & Hlt & Hlt2 & N1 & N2 & N3).
    assert (i = jk) by exact (nth_inj _ _ _ _ Hnd N1 Hjk1).
    subst i. rewrite Hjk2 in N2; injection N2 as <-. rewrite Hjo2 in N3; injection N3 as <-. auto.
  - destruct (delayed_order _ _ _ _ _ _ _ Hwf Hd Hb Hjk1 Hs Hsgn) as (i & ii & jj & Hlt & Hle & N1 & N2 & N3).
    assert (i = jo) by exact (nth_inj _ _ _ _ Hnd N1 Hjo1).
    subst i. rewrite Hjo2 in N2; injection N2 as <-. rewrite Hjk2 in N3; injection N3 as <-. split; auto.
    apply before_filter; auto. eapply nth_before; eauto.
Qed.

Lemma reads_perm ps1 ps2 c p d : Permutation ps1 ps2 -> reads ps1 c p d -> reads ps2 c p d.
Proof.
  intros HP (pc & i & k & v & s & Hc & H). exists pc, i, k, v, s. split; auto. eapply Permutation_in; eauto.
Qed.

Lemma declared_perm ps1 ps2 c : Permutation ps1 ps2 -> declared ps1 c -> declared ps2 c.
Proof. intros HP. apply Permutation_in, Permutation_map; auto. Qed.

Lemma wf_perm ps1 ps2 : Permutation ps1 ps2 -> wf_params ps1 -> wf_params ps2.
Proof.
  intros HP (H1 & H2 & H3). apply Permutation_sym in HP. repeat split.
  - eapply Permutation_NoDup; [apply Permutation_map, Permutation_sym; eauto|auto].
  - intros c pc Hc. eapply H2. eapply Permutation_in; eauto.
  - intros c pc i Hc. eapply H3. eapply Permutation_in; eauto.
Qed.

Lemma scheduled_perm ps1 ps2 order1 idx1 order2 idx2 :
  Permutation ps1 ps2 -> wf_params ps1 -> delays_ok ps1 ->
  build_trigger_order ps1 = Ok (order1, idx1) -> build_trigger_order ps2 = Ok (order2, idx2) ->
  forall c, In c order1 -> In c order2.
Proof.
  intros HP Hwf Hd Hb1 Hb2.
  assert (Hwf2 : wf_params ps2) by (eapply wf_perm; eauto).
  assert (Hd2 : delays_ok ps2) by (intros c p d Hr; eapply Hd; eapply reads_perm; [apply Permutation_sym|]; eauto).
  assert (H : forall j c, nth_error order1 j = Some c -> In c order2).
  { induction j as [j IH] using lt_wf_ind. intros c Hj.
    destruct (in_dec string_dec c order2) as [|Hn]; auto. exfalso.
    destruct (build_shape _ _ _ Hwf Hb1) as (_ & Hdec & _).
    destruct (missing_reads_missing _ _ _ c Hwf2 Hd2 Hb2) as (p & Hr & Hp); auto.
    { eapply declared_perm; eauto. apply Hdec. eapply nth_error_In; eauto. }
    apply (reads_perm _ _ _ _ _ (Permutation_sym HP)) in Hr.
    destruct (now_order _ _ _ _ _ _ Hwf Hd Hb1 Hj Hr) as (i & _ & _ & Hlt & _ & Hi & _). apply Hp. eapply IH; eauto. }
  intros c Hc. apply In_nth_error in Hc as [j Hj]. eauto.
Qed.

Theorem config_order_independent ps1 ps2 order1 idx1 order2 idx2 isproc f1 f2 l1 l2 l1' l2' :
  Permutation ps1 ps2 -> wf_params ps1 -> delays_ok ps1 -> wired St Dt cod ps1 ->
  build_trigger_order ps1 = Ok (order1, idx1) -> build_trigger_order ps2 = Ok (order2, idx2) ->
  let ord1 := loop_order isproc order1 idx1 in let ord2 := loop_order isproc order2 idx2 in
  tame St Dt outs cod ord1 -> tame St Dt outs cod ord2 ->
  same_clock St l1 l2 -> (forall o, w_st St (l_w _ l1) o = w_st St (l_w _ l2) o) ->
  loop_while St Dt outs gtime cod f1 ord1 l1 = Ok l1' -> loop_while St Dt outs gtime cod f2 ord2 l2 = Ok l2' ->
  same_clock St l1' l2' /\ forall o, w_st St (l_w _ l1') o = w_st St (l_w _ l2') o.
Proof.
  intros HP Hwf Hd Hw Hb1 Hb2 ord1 ord2 T1 T2.
  assert (Hwf2 : wf_params ps2) by (eapply wf_perm; eauto).
  assert (Hd2 : delays_ok ps2) by (intros c p d Hr; eapply Hd; eapply reads_perm; [apply Permutation_sym|]; eauto).
  assert (Hw2 : wired St Dt cod ps2) by (intros o s Hs; eapply reads_perm; eauto).
  apply while_order_independent.
  - split; [exact (loop_order_nodup ps1 _ _ isproc Hwf Hb1)|split; auto].
    exact (trigger_order_respects ps1 _ _ isproc Hwf Hd Hw Hb1).
  - split; [exact (loop_order_nodup ps2 _ _ isproc Hwf2 Hb2)|split; auto].
    exact (trigger_order_respects ps2 _ _ isproc Hwf2 Hd2 Hw2 Hb2).
  - intros o. unfold ord1, ord2.
    rewrite (loop_order_names ps1 order1 idx1), (loop_order_names ps2 order2 idx2) by auto.
    split; intros [Hi Hp]; split; auto.
    + exact (scheduled_perm ps1 ps2 _ _ _ _ HP Hwf Hd Hb1 Hb2 o Hi).
    + exact (scheduled_perm ps2 ps1 _ _ _ _ (Permutation_sym HP) Hwf2 Hd2 Hb2 Hb1 o Hi).
Qed.

End L.
