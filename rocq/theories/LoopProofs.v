From Coq Require Import String List ZArith Bool Arith Lia.
From Verif Require Import PyBase PyLemmas LoopModel LoopSpec.
Import ListNotations.

Lemma fold_res_app {A S} (f : S -> A -> res S) l1 l2 s :
  fold_res f s (l1 ++ l2) = (s' <- fold_res f s l1 ;; fold_res f s' l2).
Proof. revert s; induction l1; simpl; intros s; auto. destruct (f s a); simpl; auto. Qed.

Lemma fold_res_split {A S} (f : S -> A -> res S) l1 x l2 s s' :
  fold_res f s (l1 ++ x :: l2) = Ok s' ->
  exists a b, fold_res f s l1 = Ok a /\ f a x = Ok b /\ fold_res f b l2 = Ok s'.
Proof.
  rewrite fold_res_app. intros H. inv_bind H. simpl in H. inv_bind H. eauto 6.
Qed.

Lemma fupd_same {A} (f : string -> A) k v : fupd f k v k = v.
Proof. unfold fupd. rewrite String.eqb_refl; auto. Qed.
Lemma fupd_other {A} (f : string -> A) k v k' : k <> k' -> fupd f k v k' = f k'.
Proof. unfold fupd. intros H. apply String.eqb_neq in H. rewrite H; auto. Qed.

Section P.
Variables St Dt : Type.
Variable outs : St -> option string -> list Dt.
Variable gtime : Dt -> option Z.
Variable cod : string -> code St Dt.
Notation world := (world St).
Notation check_one := (check_one St Dt outs gtime cod).
Notation trig_one := (trig_one St Dt outs cod).
Notation post_one := (post_one St Dt outs cod).
Notation group_step := (group_step St Dt outs gtime cod).
Notation iter_step := (iter_step St Dt outs gtime cod).
Notation get_view := (get_view St Dt outs).
Notation w_st := (w_st St).
Notation w_chg := (w_chg St).
Notation w_log := (w_log St).

(* ---- triggers (C13) ---- *)

Lemma get_view_length w insl v : get_view w insl = Ok v -> length v = length insl.
Proof.
  revert v; induction insl as [|i l IH]; simpl; intros v H; [injection H as <-; auto|].
  inv_bind H. inv_bind H. injection H as <-. simpl; auto.
Qed.

Lemma triggers_iff t insl v : length v = length insl ->
  triggers Dt gtime t insl v = true <-> must_trigger Dt gtime t insl v.
Proof.
  intros Hlen. unfold triggers, must_trigger.
  destruct insl as [|i0 l0]; [split; auto|]. set (l := i0 :: l0) in *.
  assert (Hne : l <> []) by (unfold l; discriminate). clearbody l. clear i0 l0.
  assert (Hf : forallb (fun iv => i_opt (fst iv) && is_INone Dt (snd (snd iv))) (combine l v) = true <->
    (forall i, In i l -> i_opt i = true) /\ (forall n iv, In (n, iv) v -> iv = INone)).
  { clear Hne. revert v Hlen. induction l as [|i l IH]; intros [|[n iv] v] Hlen; simpl in *; try discriminate.
    - split; auto. intros _; split; tauto.
    - rewrite !andb_true_iff, IH by lia. split.
      + intros [[H1 H2] [H3 H4]]. split; [intros i' [<-|Hi]; auto|].
        intros n' iv' [H|H]; [injection H as <- <-; destruct iv; simpl in H2; congruence|eauto].
      + intros [H1 H2]. rewrite (H2 n iv (or_introl eq_refl)). split; [split; auto|]. split; eauto. }
  destruct (forallb _ _).
  - split; auto. intros _. right; left. apply Hf; auto.
  - assert (Hn : ~ ((forall i, In i l -> i_opt i = true) /\ (forall n iv, In (n, iv) v -> iv = INone))).
    { intros H; apply Hf in H; discriminate. }
    unfold fresh. rewrite existsb_exists. split.
    + intros ([n iv] & Hin & H). apply existsb_exists in H as (d & Hd & Hg). simpl in *.
      destruct (gtime d) as [g|] eqn:E; [|discriminate]. apply Z.leb_le in Hg.
      right; right. exists n, iv, d, g; auto.
    + intros [H|[H|(n & iv & d & g & H1 & H2 & H3 & H4)]]; try tauto.
      exists (n, iv); split; auto. apply existsb_exists. exists d; split; auto. rewrite H3. apply Z.leb_le; auto.
Qed.

Lemma check_one_inv t w o w' : check_one t w o = Ok w' ->
  exists v s b, get_view (w_st w) (c_inputs St Dt (cod o)) = Ok v /\
    b = triggers Dt gtime t (c_inputs St Dt (cod o)) v /\
    (if b then c_prep St Dt (cod o) t v (w_st w o) = Ok s else s = w_st w o) /\
    w' = mkWorld St (fupd (w_st w) o s) (fupd (w_chg w) o b) (w_log w ++ [ECheck o t b]).
Proof.
  unfold LoopModel.check_one. intros H. inv_bind H. inv_bind H. injection H as <-.
  exists a, a0, (triggers Dt gtime t (c_inputs St Dt (cod o)) a).
  repeat split; auto. destruct (triggers _ _ _ _ _); auto. congruence.
Qed.

Lemma trig_one_inv t w o w' : trig_one t w o = Ok w' ->
  (w_chg w o = false /\ w' = w) \/
  (w_chg w o = true /\ exists v s, get_view (w_st w) (c_inputs St Dt (cod o)) = Ok v /\
     c_trig St Dt (cod o) t v (w_st w o) = Ok s /\
     w' = mkWorld St (fupd (w_st w) o s) (w_chg w) (w_log w ++ [ETrig o t])).
Proof.
  unfold LoopModel.trig_one, obj_trigger. destruct (w_chg w o); cbn [negb]; intros H; [right|left; split; congruence].
  inv_bind H. inv_bind H. injection H as <-. split; auto. exists a, a0; auto.
Qed.

Lemma post_one_inv t w o w' : post_one t w o = Ok w' ->
  (w_chg w o = false /\ w' = w) \/
  (w_chg w o = true /\ exists v s, get_view (w_st w) (c_inputs St Dt (cod o)) = Ok v /\
     c_post St Dt (cod o) t v (w_st w o) = Ok s /\
     w' = mkWorld St (fupd (w_st w) o s) (fupd (w_chg w) o false) (w_log w ++ [EPost o t])).
Proof.
  unfold LoopModel.post_one, obj_post. destruct (w_chg w o); cbn [negb]; intros H; [right|left; split; congruence].
  inv_bind H. inv_bind H. injection H as <-. split; auto. exists a, a0; auto.
Qed.

(* frames *)
Definition local_step (f : world -> string -> res world) : Prop :=
  forall w o w', f w o = Ok w' -> forall x, x <> o -> w_st w' x = w_st w x /\ w_chg w' x = w_chg w x.

Lemma check_local t : local_step (check_one t).
Proof.
  intros w o w' H x Hx. apply check_one_inv in H as (v & s & b & _ & _ & _ & ->); simpl.
  rewrite !fupd_other by auto; auto.
Qed.
Lemma trig_local t : local_step (trig_one t).
Proof.
  intros w o w' H x Hx. apply trig_one_inv in H as [[_ ->]|(_ & v & s & _ & _ & ->)]; simpl; auto.
  rewrite fupd_other by auto; auto.
Qed.
Lemma post_local t : local_step (post_one t).
Proof.
  intros w o w' H x Hx. apply post_one_inv in H as [[_ ->]|(_ & v & s & _ & _ & ->)]; simpl; auto.
  rewrite !fupd_other by auto; auto.
Qed.

Lemma fold_frame f : local_step f -> forall l w w', fold_res f w l = Ok w' ->
  forall x, ~ In x l -> w_st w' x = w_st w x /\ w_chg w' x = w_chg w x.
Proof.
  intros Hf; induction l as [|o l IH]; simpl; intros w w' H x Hx; [injection H as <-; auto|].
  inv_bind H. destruct (IH _ _ H x) as [H1 H2]; [tauto|]. destruct (Hf _ _ _ E x) as [H3 H4]; [intros ->; tauto|].
  split; congruence.
Qed.

Lemma group_frame t g w w' : group_step t w g = Ok w' -> forall x, ~ In x g ->
  w_st w' x = w_st w x /\ w_chg w' x = w_chg w x.
Proof.
  unfold LoopModel.group_step. intros H x Hx. inv_bind H. inv_bind H.
  destruct (fold_frame _ (check_local t) _ _ _ E x Hx).
  destruct (fold_frame _ (trig_local t) _ _ _ E0 x Hx).
  destruct (fold_frame _ (post_local t) _ _ _ H x Hx). split; congruence.
Qed.

Lemma groups_frame t gs : forall w w', fold_res (group_step t) w gs = Ok w' -> forall x, ~ In x (concat gs) ->
  w_st w' x = w_st w x /\ w_chg w' x = w_chg w x.
Proof.
  induction gs as [|g gs IH]; simpl; intros w w' H x Hx; [injection H as <-; auto|].
  rewrite in_app_iff in Hx. inv_bind H. destruct (IH _ _ H x) as [? ?]; [tauto|].
  destruct (group_frame _ _ _ _ E x) as [? ?]; [tauto|]. split; congruence.
Qed.

(* groups of an order *)
Lemma in_group ord i o : In o (group ord i) <-> In (o, i) ord.
Proof.
  unfold group. rewrite in_map_iff. split.
  - intros ([o' i'] & <- & H). apply filter_In in H as [H1 H2]. simpl in H2. apply Nat.eqb_eq in H2; subst; auto.
  - intros H. exists (o, i); split; auto. apply filter_In; split; auto. simpl. apply Nat.eqb_refl.
Qed.

Lemma NoDup_filter_fst (ord : order) p : NoDup (map fst ord) -> NoDup (map fst (filter p ord)).
Proof.
  induction ord as [|[o i] ord IH]; simpl; intros H; auto. inversion H; subst.
  destruct (p (o, i)); simpl; auto. constructor; auto.
  intros Hin. apply H2. apply in_map_iff in Hin as ([o' i'] & <- & Hin). apply filter_In in Hin as [Hin _].
  change (fst (o', i')) with (fst (o', i')). apply in_map; auto.
Qed.

Lemma group_nodup ord i : NoDup (map fst ord) -> NoDup (group ord i).
Proof. apply NoDup_filter_fst. Qed.

Lemma index_unique (ord : order) o i j : NoDup (map fst ord) -> In (o, i) ord -> In (o, j) ord -> i = j.
Proof.
  induction ord as [|[o' k] ord IH]; simpl; [tauto|]. intros H; inversion H; subst.
  intros [Ha|Ha] [Hb|Hb]; try congruence; auto.
  - injection Ha as -> ->. exfalso; apply H2. change o with (fst (o, j)). apply in_map; auto.
  - injection Hb as -> ->. exfalso; apply H2. change o with (fst (o, i)). apply in_map; auto.
Qed.

Lemma index_le_max (ord : order) o i : In (o, i) ord -> (i <= list_max (map snd ord))%nat.
Proof.
  intros H. pose proof (proj1 (list_max_le (map snd ord) (list_max (map snd ord))) (le_n _)) as Hm.
  rewrite Forall_forall in Hm. apply Hm. change i with (snd (o, i)). apply in_map; auto.
Qed.

Lemma in_concat_groups ord o a n : In o (concat (map (group ord) (seq a n))) <-> exists i, (a <= i < a + n)%nat /\ In (o, i) ord.
Proof.
  rewrite in_concat. split.
  - intros (l & Hl & Ho). apply in_map_iff in Hl as (i & <- & Hi). apply in_seq in Hi. apply in_group in Ho. eauto.
  - intros (i & Hi & Ho). exists (group ord i); split; [|apply in_group; auto]. apply in_map, in_seq; auto.
Qed.

Lemma groups_split ord j : (j <= list_max (map snd ord))%nat ->
  groups ord = map (group ord) (seq 0 j) ++ group ord j :: map (group ord) (seq (S j) (list_max (map snd ord) - j)).
Proof.
  intros Hj. unfold groups. replace (S (list_max (map snd ord))) with (j + S (list_max (map snd ord) - j))%nat by lia.
  rewrite seq_app, map_app. simpl. auto.
Qed.

Lemma before_group ord j o p : NoDup (map fst ord) -> before (o, j) (p, j) ord -> before o p (group ord j).
Proof.
  intros Hnd (l1 & l2 & l3 & ->). unfold group.
  rewrite !filter_app. simpl. rewrite Nat.eqb_refl. rewrite filter_app. simpl. rewrite Nat.eqb_refl.
  rewrite map_app. simpl. rewrite map_app. simpl. do 3 eexists. reflexivity.
Qed.

Lemma view_ext w old new insl :
  (forall i s, In i insl -> In s (i_src i) ->
     outs (w (s_obj s)) (s_key s) = outs (if (s_delay s <? 0)%Z then old (s_obj s) else new (s_obj s)) (s_key s)) ->
  get_view w insl = sync_view St Dt outs old new insl.
Proof.
  intros H. unfold LoopModel.get_view, sync_view.
  assert (Hi : forall i, In i insl -> get_input St Dt outs w i = sync_input St Dt outs old new i).
  { intros i Hi. unfold get_input, sync_input.
    assert (E : flat_map (fun s => outs (w (s_obj s)) (s_key s)) (i_src i) =
                flat_map (fun s => outs (if (s_delay s <? 0)%Z then old (s_obj s) else new (s_obj s)) (s_key s)) (i_src i)).
    { specialize (H i). revert H. generalize (i_src i). induction l as [|s l IH]; simpl; auto.
      intros H. rewrite (H s) by auto. f_equal. apply IH. intros s' ? ?; apply H; auto. }
    rewrite E; auto. }
  clear H. induction insl as [|i l IH]; simpl; auto.
  rewrite Hi by (simpl; auto). rewrite IH by (intros; apply Hi; simpl; auto). auto.
Qed.

Lemma before_not_in_l1 {A} (o p : A) l l1 l2 : NoDup l -> before o p l -> l = l1 ++ o :: l2 -> ~ In p l1 /\ p <> o.
Proof.
  intros Hnd (m1 & m2 & m3 & H1) H2.
  assert (E : m1 = l1).
  { rewrite H1 in H2. rewrite H1 in Hnd. clear H1.
    revert l1 H2. induction m1 as [|x m1 IH]; intros [|y l1] H2; auto; simpl in *.
    - injection H2 as -> H2. inversion Hnd; subst. exfalso. apply H1. rewrite H2. apply in_app_iff; simpl; auto.
    - injection H2 as -> H2. inversion Hnd; subst. exfalso; apply H1. apply in_app_iff; simpl; auto.
    - injection H2 as -> H2. inversion Hnd; subst. f_equal; auto. }
  subst m1. rewrite H1 in Hnd. clear H1 H2. split.
  - intros Hp. induction l1 as [|x l1 IH]; [destruct Hp|]. simpl in *. inversion Hnd; subst.
    destruct Hp as [->|Hp]; [|auto]. apply H1. apply in_app_iff; right; right. apply in_app_iff; simpl; auto.
  - apply NoDup_remove_2 in Hnd. intros ->. apply Hnd. apply in_app_iff; right. apply in_app_iff; simpl; auto.
Qed.

(* The synchronous equation. *)
Theorem iter_sync ord t w w' :
  NoDup (map fst ord) -> respects St Dt cod ord -> tame St Dt outs cod ord ->
  iter_step ord t w = Ok w' ->
  (forall o j, In (o, j) ord -> sync_step St Dt outs gtime cod o t (w_st w) (w_st w') (w_st w' o)) /\
  (forall o, ~ In o (map fst ord) -> w_st w' o = w_st w o).
Proof.
  intros Hnd Hresp Htame H. unfold LoopModel.iter_step in H. split.
  2:{ intros o Ho. apply (groups_frame _ _ _ _ H). unfold groups. rewrite in_concat_groups.
      intros (i & _ & Hi). apply Ho. change o with (fst (o, i)). apply in_map; auto. }
  intros o j Ho.
  pose proof (index_le_max _ _ _ Ho) as Hj.
  rewrite (groups_split _ _ Hj) in H.
  apply fold_res_split in H as (w0 & w9 & Hpre & Hgrp & Hpost).
  assert (Fpre : forall x, (forall i, In (x, i) ord -> (j <= i)%nat) -> w_st w0 x = w_st w x).
  { intros x Hx. apply (groups_frame _ _ _ _ Hpre). rewrite in_concat_groups. intros (i & Hi & Hxi). apply Hx in Hxi. lia. }
  assert (Fpost : forall x, (forall i, In (x, i) ord -> (i <= j)%nat) -> w_st w' x = w_st w9 x).
  { intros x Hx. apply (groups_frame _ _ _ _ Hpost). rewrite in_concat_groups. intros (i & Hi & Hxi). apply Hx in Hxi. lia. }
  assert (Hog : In o (group ord j)) by (apply in_group; auto).
  pose proof (group_nodup ord j Hnd) as Hgnd.
  apply in_split in Hog as (l1 & l2 & Hg).
  pose proof Hgrp as Hgrp0.
  unfold LoopModel.group_step in Hgrp. inv_bind Hgrp. rename a into w1, E into Hc.
  inv_bind Hgrp. rename a into w2, E into Ht. rename Hgrp into Hp.
  rewrite Hg in Hc, Ht, Hp. rewrite Hg in Hgnd.
  assert (Hno : ~ In o l1 /\ ~ In o l2).
  { apply NoDup_remove_2 in Hgnd. rewrite in_app_iff in Hgnd. tauto. }
  destruct Hno as [Ho1 Ho2].
  apply fold_res_split in Hc as (ca & cb & Hc1 & Hc2 & Hc3).
  apply fold_res_split in Ht as (ta & tb & Ht1 & Ht2 & Ht3).
  apply fold_res_split in Hp as (pa & pb & Hp1 & Hp2 & Hp3).
  (* sources *)
  assert (Hsrc : forall s, has_src St Dt cod o s ->
     let sel := if (s_delay s <? 0)%Z then w_st w (s_obj s) else w_st w' (s_obj s) in
     w_st ca (s_obj s) = sel /\
     outs (w_st ta (s_obj s)) (s_key s) = outs sel (s_key s) /\
     ((forall tt v v' x, c_post St Dt (cod o) tt v x = c_post St Dt (cod o) tt v' x) \/ w_st pa (s_obj s) = sel)).
  { intros s Hs sel. set (p := s_obj s) in *.
    destruct (in_dec string_dec p (map fst ord)) as [Hin|Hnin].
    - apply in_map_iff in Hin as ([p' k] & Hp' & Hin). simpl in Hp'; subst p'.
      destruct (Hresp o j s k Ho Hs Hin) as [HA HB].
      destruct (Z.ltb_spec (s_delay s) 0) as [Hneg|Hpos].
      + destruct (HB Hneg) as [Hle Hbef].
        destruct (Nat.eq_dec j k) as [<-|Hne].
        * (* same index *)
          assert (Hb : before o p (group ord j)) by (apply before_group; auto).
          destruct (before_not_in_l1 o p (group ord j) l1 l2) as [Hpl1 Hpo]; auto. { apply group_nodup; auto. }
          destruct (Htame o j s Ho Hs Hneg Hin) as [T1 T2]. fold p in T2.
          assert (E0 : w_st w0 p = w_st w p).
          { apply Fpre. intros i Hi. rewrite (index_unique _ _ _ _ Hnd Hi Hin); lia. }
          assert (Ea : w_st ca p = w_st w p).
          { rewrite (proj1 (fold_frame _ (check_local t) _ _ _ Hc1 p Hpl1)). auto. }
          split; [exact Ea|]. split; [|left; exact T1].
          rewrite (proj1 (fold_frame _ (trig_local t) _ _ _ Ht1 p Hpl1)).
          (* p is in l2: checked once there *)
          assert (Hpl2 : In p l2).
          { assert (In p (group ord j)) by (apply in_group; auto). rewrite Hg in H.
            apply in_app_iff in H as [H|[H|H]]; try tauto; congruence. }
          apply in_split in Hpl2 as (m1 & m2 & ->).
          assert (Hpnd : ~ In p m1 /\ ~ In p m2).
          { apply NoDup_remove_1 in Hgnd. apply NoDup_app_r in Hgnd. apply NoDup_remove_2 in Hgnd. rewrite in_app_iff in Hgnd. tauto. }
          apply fold_res_split in Hc3 as (cc & cd & Hc4 & Hc5 & Hc6).
          rewrite (proj1 (fold_frame _ (check_local t) _ _ _ Hc6 p (proj2 Hpnd))).
          assert (Ec : w_st cc p = w_st w p).
          { rewrite (proj1 (fold_frame _ (check_local t) _ _ _ Hc4 p (proj1 Hpnd))).
            rewrite (proj1 (check_local t _ _ _ Hc2 p Hpo)). auto. }
          apply check_one_inv in Hc5 as (v & s5 & b & _ & _ & Hs5 & ->). simpl. rewrite fupd_same.
          destruct b; [apply (T2 _ _ _ _ (s_key s)) in Hs5; rewrite Hs5, Ec; auto|rewrite Hs5, Ec; auto].
        * assert (Hlt : (j < k)%nat) by lia.
          assert (Hpg : ~ In p (group ord j)).
          { intros Hx. apply in_group in Hx. pose proof (index_unique _ _ _ _ Hnd Hx Hin). lia. }
          rewrite Hg in Hpg. rewrite in_app_iff in Hpg. simpl in Hpg.
          assert (E0 : w_st w0 p = w_st w p).
          { apply Fpre. intros i Hi. rewrite (index_unique _ _ _ _ Hnd Hi Hin); lia. }
          assert (Ea : w_st ca p = w_st w p).
          { rewrite (proj1 (fold_frame _ (check_local t) _ _ _ Hc1 p ltac:(tauto))). auto. }
          assert (E1 : w_st w1 p = w_st w p).
          { rewrite (proj1 (fold_frame _ (check_local t) _ _ _ Hc3 p ltac:(tauto))).
            rewrite (proj1 (check_local t _ _ _ Hc2 p ltac:(intros ->; tauto))). auto. }
          assert (Eb : w_st ta p = w_st w p).
          { rewrite (proj1 (fold_frame _ (trig_local t) _ _ _ Ht1 p ltac:(tauto))). auto. }
          assert (E2 : w_st w2 p = w_st w p).
          { rewrite (proj1 (fold_frame _ (trig_local t) _ _ _ Ht3 p ltac:(tauto))).
            rewrite (proj1 (trig_local t _ _ _ Ht2 p ltac:(intros ->; tauto))). auto. }
          assert (Ep : w_st pa p = w_st w p).
          { rewrite (proj1 (fold_frame _ (post_local t) _ _ _ Hp1 p ltac:(tauto))). auto. }
          split; [exact Ea|]. split; [rewrite Eb; auto|right; exact Ep].
      + assert (Hlt : (k < j)%nat) by (apply HA; lia).
        assert (Hpg : ~ In p (group ord j)).
        { intros Hx. apply in_group in Hx. pose proof (index_unique _ _ _ _ Hnd Hx Hin). lia. }
        assert (E9 : w_st w' p = w_st w0 p).
        { rewrite Fpost. - apply (group_frame _ _ _ _ Hgrp0); auto.
          - intros i Hi. rewrite (index_unique _ _ _ _ Hnd Hi Hin); lia. }
        rewrite Hg in Hpg. rewrite in_app_iff in Hpg. simpl in Hpg.
        assert (Ea : w_st ca p = w_st w0 p).
        { apply (fold_frame _ (check_local t) _ _ _ Hc1 p ltac:(tauto)). }
        assert (E1 : w_st w1 p = w_st w0 p).
        { rewrite (proj1 (fold_frame _ (check_local t) _ _ _ Hc3 p ltac:(tauto))).
          rewrite (proj1 (check_local t _ _ _ Hc2 p ltac:(intros ->; tauto))). auto. }
        assert (Eb : w_st ta p = w_st w0 p).
        { rewrite (proj1 (fold_frame _ (trig_local t) _ _ _ Ht1 p ltac:(tauto))). auto. }
        assert (E2 : w_st w2 p = w_st w0 p).
        { rewrite (proj1 (fold_frame _ (trig_local t) _ _ _ Ht3 p ltac:(tauto))).
          rewrite (proj1 (trig_local t _ _ _ Ht2 p ltac:(intros ->; tauto))). auto. }
        assert (Ep : w_st pa p = w_st w0 p).
        { rewrite (proj1 (fold_frame _ (post_local t) _ _ _ Hp1 p ltac:(tauto))). auto. }
        unfold sel. rewrite E9. split; [exact Ea|]. split; [rewrite Eb; auto|right; exact Ep].
    - (* producer not in the loop: constant *)
      assert (Hno : forall i, ~ In (p, i) ord).
      { intros i Hi. apply Hnin. change p with (fst (p, i)). apply in_map; auto. }
      assert (Hpg : ~ In p (group ord j)) by (rewrite in_group; auto).
      assert (E0 : w_st w0 p = w_st w p) by (apply Fpre; intros i Hi; destruct (Hno _ Hi)).
      assert (E9 : w_st w' p = w_st w0 p).
      { rewrite Fpost. - apply (group_frame _ _ _ _ Hgrp0); auto. - intros i Hi. destruct (Hno _ Hi). }
      assert (Es : sel = w_st w0 p) by (unfold sel; destruct (s_delay s <? 0)%Z; congruence).
      rewrite Es. rewrite Hg in Hpg. rewrite in_app_iff in Hpg. simpl in Hpg.
      assert (Ea : w_st ca p = w_st w0 p).
      { apply (fold_frame _ (check_local t) _ _ _ Hc1 p ltac:(tauto)). }
      assert (E1 : w_st w1 p = w_st w0 p).
      { rewrite (proj1 (fold_frame _ (check_local t) _ _ _ Hc3 p ltac:(tauto))).
        rewrite (proj1 (check_local t _ _ _ Hc2 p ltac:(intros ->; tauto))). auto. }
      assert (Eb : w_st ta p = w_st w0 p).
      { rewrite (proj1 (fold_frame _ (trig_local t) _ _ _ Ht1 p ltac:(tauto))). auto. }
      assert (E2 : w_st w2 p = w_st w0 p).
      { rewrite (proj1 (fold_frame _ (trig_local t) _ _ _ Ht3 p ltac:(tauto))).
        rewrite (proj1 (trig_local t _ _ _ Ht2 p ltac:(intros ->; tauto))). auto. }
      assert (Ep : w_st pa p = w_st w0 p).
      { rewrite (proj1 (fold_frame _ (post_local t) _ _ _ Hp1 p ltac:(tauto))). auto. }
      split; [exact Ea|]. split; [rewrite Eb; auto|right; exact Ep]. }
  set (insl := c_inputs St Dt (cod o)) in *.
  assert (Va : get_view (w_st ca) insl = sync_view St Dt outs (w_st w) (w_st w') insl).
  { apply view_ext. intros i s Hi Hs. destruct (Hsrc s) as (-> & _); auto. exists i; auto. }
  assert (Vt : get_view (w_st ta) insl = sync_view St Dt outs (w_st w) (w_st w') insl).
  { apply view_ext. intros i s Hi Hs. destruct (Hsrc s) as (_ & -> & _); auto. exists i; auto. }
  assert (Vp : (forall tt v v' x, c_post St Dt (cod o) tt v x = c_post St Dt (cod o) tt v' x) \/
               get_view (w_st pa) insl = sync_view St Dt outs (w_st w) (w_st w') insl).
  { assert (D : (forall tt v v' x, c_post St Dt (cod o) tt v x = c_post St Dt (cod o) tt v' x) \/
      forall i s, In i insl -> In s (i_src i) ->
        w_st pa (s_obj s) = if (s_delay s <? 0)%Z then w_st w (s_obj s) else w_st w' (s_obj s)).
    { clear Va Vt. assert (Hall : forall s, In s (flat_map i_src insl) -> has_src St Dt cod o s).
      { intros s Hs. apply in_flat_map in Hs as (i & Hi & Hs). exists i; auto. }
      assert (D : (forall tt v v' x, c_post St Dt (cod o) tt v x = c_post St Dt (cod o) tt v' x) \/
        forall s, In s (flat_map i_src insl) ->
          w_st pa (s_obj s) = if (s_delay s <? 0)%Z then w_st w (s_obj s) else w_st w' (s_obj s)).
      { revert Hall. generalize (flat_map i_src insl). induction l as [|s l IH]; intros Hall; [right; intros s []|].
        destruct IH as [IH|IH]; [intros s' Hs'; apply Hall; simpl; auto|left; exact IH|].
        destruct (Hsrc s) as (_ & _ & [D|D]); [apply Hall; simpl; auto|left; exact D|].
        right. intros s' [<-|Hs']; auto. }
      destruct D as [D|D]; [left; exact D|right]. intros i s Hi Hs. apply D. apply in_flat_map; eauto. }
    destruct D as [D|D]; [left; exact D|right]. apply view_ext. intros i s Hi Hs. rewrite (D i s); auto. }
  (* o itself *)
  assert (Eo0 : w_st ca o = w_st w o).
  { rewrite (proj1 (fold_frame _ (check_local t) _ _ _ Hc1 o Ho1)). apply Fpre. intros i Hi. rewrite (index_unique _ _ _ _ Hnd Hi Ho); lia. }
  apply check_one_inv in Hc2 as (v & s1 & b & Hv & Hb & Hs1 & Hcb). fold insl in Hv, Hb.
  exists v. fold insl. rewrite <- Va, Hv. split; auto.
  assert (Hlen : length v = length insl) by (eapply get_view_length; eauto).
  assert (Hcb1 : w_st cb o = s1 /\ w_chg cb o = b) by (rewrite Hcb; simpl; rewrite !fupd_same; auto).
  assert (H1 : w_st w1 o = s1 /\ w_chg w1 o = b).
  { destruct (fold_frame _ (check_local t) _ _ _ Hc3 o Ho2). destruct Hcb1. split; congruence. }
  assert (Hta : w_st ta o = s1 /\ w_chg ta o = b).
  { destruct (fold_frame _ (trig_local t) _ _ _ Ht1 o Ho1). destruct H1. split; congruence. }
  assert (Hw' : w_st w' o = w_st w9 o).
  { apply Fpost. intros i Hi. rewrite (index_unique _ _ _ _ Hnd Hi Ho); lia. }
  apply trig_one_inv in Ht2. apply post_one_inv in Hp2.
  assert (Hpa : w_st pa o = w_st tb o /\ w_chg pa o = w_chg tb o).
  { destruct (fold_frame _ (trig_local t) _ _ _ Ht3 o Ho2). destruct (fold_frame _ (post_local t) _ _ _ Hp1 o Ho1). split; congruence. }
  assert (H9 : w_st w9 o = w_st pb o) by apply (fold_frame _ (post_local t) _ _ _ Hp3 o Ho2).
  destruct b.
  - right. split; [apply triggers_iff; auto|].
    destruct Ht2 as [[Hx _]|(_ & v2 & s2 & Hv2 & Hs2 & Htb)]; [destruct Hta; congruence|].
    fold insl in Hv2. rewrite Vt, <- Va, Hv in Hv2. injection Hv2 as <-.
    destruct Hta as [Hta1 Hta2]. rewrite Hta1 in Hs2. rewrite Eo0 in Hs1.
    assert (Htb1 : w_st tb o = s2 /\ w_chg tb o = true) by (rewrite Htb; simpl; rewrite fupd_same; auto).
    destruct Hp2 as [[Hx _]|(_ & v3 & s3 & Hv3 & Hs3 & Hpb)].
    { destruct Hpa, Htb1. congruence. }
    exists s1, s2. split; auto. split; auto.
    rewrite Hw', H9, Hpb. simpl. rewrite fupd_same.
    replace (w_st pa o) with s2 in Hs3 by (destruct Hpa, Htb1; congruence).
    destruct Vp as [Vp|Vp]; [rewrite (Vp _ _ v3); auto|].
    fold insl in Hv3. rewrite Vp, <- Va, Hv in Hv3. injection Hv3 as <-. auto.
  - left. split.
    { intros Hm. apply triggers_iff in Hm; auto. congruence. }
    destruct Ht2 as [[_ ->]|(Hx & _)]; [|destruct Hta; congruence].
    destruct Hp2 as [[_ ->]|(Hx & _)]; [|destruct Hpa, Hta; congruence].
    rewrite Hw', H9. destruct Hpa, Hta. congruence.
Qed.

(* ---- uniqueness (C07) ---- *)

Lemma sync_view_ext old new1 new2 insl :
  (forall i s, In i insl -> In s (i_src i) -> (0 <= s_delay s)%Z -> new1 (s_obj s) = new2 (s_obj s)) ->
  sync_view St Dt outs old new1 insl = sync_view St Dt outs old new2 insl.
Proof.
  intros H. unfold sync_view.
  assert (Hi : forall i, In i insl -> sync_input St Dt outs old new1 i = sync_input St Dt outs old new2 i).
  { intros i Hi. unfold sync_input.
    assert (E : flat_map (fun s => outs (if (s_delay s <? 0)%Z then old (s_obj s) else new1 (s_obj s)) (s_key s)) (i_src i) =
                flat_map (fun s => outs (if (s_delay s <? 0)%Z then old (s_obj s) else new2 (s_obj s)) (s_key s)) (i_src i)).
    { specialize (H i). revert H. generalize (i_src i). induction l as [|s l IH]; simpl; auto.
      intros H. rewrite IH by (intros s' ? ?; apply H; auto). f_equal.
      destruct (Z.ltb_spec (s_delay s) 0); auto. rewrite (H s); auto. }
    rewrite E; auto. }
  clear H. induction insl as [|i l IH]; simpl; auto.
  rewrite Hi by (simpl; auto). rewrite IH by (intros; apply Hi; simpl; auto). auto.
Qed.

Lemma sync_step_fun o t old new1 new2 s1 s2 :
  sync_view St Dt outs old new1 (c_inputs St Dt (cod o)) = sync_view St Dt outs old new2 (c_inputs St Dt (cod o)) ->
  sync_step St Dt outs gtime cod o t old new1 s1 -> sync_step St Dt outs gtime cod o t old new2 s2 -> s1 = s2.
Proof.
  intros E (v1 & V1 & H1) (v2 & V2 & H2). rewrite E, V2 in V1. injection V1 as ->.
  destruct H1 as [[N1 ->]|[M1 (a & b & A & B & C)]], H2 as [[N2 ->]|[M2 (a' & b' & A' & B' & C')]]; try tauto.
  rewrite A in A'. injection A' as <-. rewrite B in B'. injection B' as <-. congruence.
Qed.

Lemma sync_unique ord t old new1 new2 :
  NoDup (map fst ord) -> respects St Dt cod ord ->
  (forall o j, In (o, j) ord -> sync_step St Dt outs gtime cod o t old new1 (new1 o)) ->
  (forall o j, In (o, j) ord -> sync_step St Dt outs gtime cod o t old new2 (new2 o)) ->
  (forall o, ~ In o (map fst ord) -> new1 o = new2 o) ->
  forall o, new1 o = new2 o.
Proof.
  intros Hnd Hresp H1 H2 Hout.
  assert (H : forall j o, In (o, j) ord -> new1 o = new2 o).
  { induction j as [j IH] using lt_wf_ind. intros o Ho.
    eapply sync_step_fun; [|eapply H1; eauto|eapply H2; eauto].
    apply sync_view_ext. intros i s Hi Hs Hd.
    destruct (in_dec string_dec (s_obj s) (map fst ord)) as [Hin|Hnin]; [|auto].
    apply in_map_iff in Hin as ([p k] & Hp & Hin). simpl in Hp; subst p.
    apply (IH k); auto. apply (Hresp o j s k Ho); auto. exists i; auto. }
  intros o. destruct (in_dec string_dec o (map fst ord)) as [Hin|Hnin]; auto.
  apply in_map_iff in Hin as ([p k] & Hp & Hin). simpl in Hp; subst p. eauto.
Qed.

Lemma sync_step_old_ext o t old old' new s :
  (forall x, old x = old' x) -> sync_step St Dt outs gtime cod o t old new s -> sync_step St Dt outs gtime cod o t old' new s.
Proof.
  intros He (v & V & H). exists v. rewrite <- He. split; auto. rewrite <- V. clear - He.
  unfold sync_view. induction (c_inputs St Dt (cod o)) as [|i l IH]; simpl; auto. rewrite IH.
  assert (E : sync_input St Dt outs old' new i = sync_input St Dt outs old new i); [|rewrite E; auto].
  unfold sync_input.
  assert (E : flat_map (fun s => outs (if (s_delay s <? 0)%Z then old' (s_obj s) else new (s_obj s)) (s_key s)) (i_src i) =
              flat_map (fun s => outs (if (s_delay s <? 0)%Z then old (s_obj s) else new (s_obj s)) (s_key s)) (i_src i)).
  { generalize (i_src i). induction l0 as [|s0 l0 IH0]; simpl; auto. rewrite IH0, He; auto. }
  rewrite E; auto.
Qed.

Definition good_order (ord : order) : Prop :=
  NoDup (map fst ord) /\ respects St Dt cod ord /\ tame St Dt outs cod ord.

Theorem iter_order_independent ord1 ord2 t w1 w2 w1' w2' :
  good_order ord1 -> good_order ord2 -> (forall o, In o (map fst ord1) <-> In o (map fst ord2)) ->
  (forall o, w_st w1 o = w_st w2 o) ->
  iter_step ord1 t w1 = Ok w1' -> iter_step ord2 t w2 = Ok w2' -> forall o, w_st w1' o = w_st w2' o.
Proof.
  intros (A1 & B1 & C1) (A2 & B2 & C2) Hn Hw H1 H2.
  destruct (iter_sync _ _ _ _ A1 B1 C1 H1) as [S1 F1]. destruct (iter_sync _ _ _ _ A2 B2 C2 H2) as [S2 F2].
  apply (sync_unique ord1 t (w_st w1)); auto.
  - intros o j Ho. assert (Ho2 : In o (map fst ord2)).
    { apply Hn. change o with (fst (o, j)). apply in_map; auto. }
    apply in_map_iff in Ho2 as ([p k] & Hp & Hin). simpl in Hp; subst p.
    eapply sync_step_old_ext; [|eapply S2; eauto]. auto.
  - intros o Ho. rewrite F1, F2; auto. rewrite <- Hn; auto.
Qed.

Notation loop_iter := (loop_iter St Dt outs gtime cod).
Notation loop_while := (loop_while St Dt outs gtime cod).
Notation loop_run := (loop_run St Dt outs gtime cod).
Notation loop := (loop St).

Notation same_clock := (same_clock St).

Theorem while_order_independent ord1 ord2 :
  good_order ord1 -> good_order ord2 -> (forall o, In o (map fst ord1) <-> In o (map fst ord2)) ->
  forall f1 f2 l1 l2 l1' l2', same_clock l1 l2 ->
  (forall o, w_st (l_w _ l1) o = w_st (l_w _ l2) o) ->
  loop_while f1 ord1 l1 = Ok l1' -> loop_while f2 ord2 l2 = Ok l2' ->
  same_clock l1' l2' /\ forall o, w_st (l_w _ l1') o = w_st (l_w _ l2') o.
Proof.
  intros G1 G2 Hn. induction f1 as [|f1 IH]; intros f2 l1 l2 l1' l2' (Ca & Cb & Cc & Cd) Hw H1 H2.
  - cbn [LoopModel.loop_while] in H1. destruct f2; cbn [LoopModel.loop_while] in H2;
    rewrite <- Ca, <- Cc, <- Cd in H2;
    destruct (_ || _); try discriminate; injection H1 as <-; injection H2 as <-; split; auto; repeat split; auto.
  - cbn [LoopModel.loop_while] in H1. destruct f2 as [|f2]; cbn [LoopModel.loop_while] in H2;
    rewrite <- Ca, <- Cc, <- Cd in H2;
    destruct (_ || _); try discriminate.
    + injection H1 as <-; injection H2 as <-; split; auto; repeat split; auto.
    + inv_bind H1. inv_bind H2. eapply IH; [| |exact H1|exact H2].
      * unfold LoopModel.loop_iter in E, E0. inv_bind E. inv_bind E0. injection E as <-. injection E0 as <-.
        repeat split; simpl; congruence.
      * unfold LoopModel.loop_iter in E, E0. inv_bind E. inv_bind E0. injection E as <-. injection E0 as <-. simpl.
        rewrite <- Cd in E2. eapply iter_order_independent; [exact G1|exact G2|auto| |exact E1|exact E2]. auto.
    + injection H1 as <-; injection H2 as <-; split; auto; repeat split; auto.
Qed.

(* ---- the trace (C14) ---- *)

Lemma check_log t g : NoDup g -> forall w w', fold_res (check_one t) w g = Ok w' ->
  w_log w' = w_log w ++ map (fun o => ECheck o t (w_chg w' o)) g.
Proof.
  induction 1 as [|o g Ho Hnd IH]; simpl; intros w w' H; [injection H as <-; rewrite app_nil_r; auto|].
  inv_bind H. pose proof (proj2 (fold_frame _ (check_local t) _ _ _ H o Ho)) as Hc. rewrite (IH _ _ H).
  apply check_one_inv in E as (v & s & b & _ & _ & _ & ->). simpl in *. rewrite fupd_same in Hc.
  rewrite <- app_assoc. simpl. rewrite Hc. auto.
Qed.

Lemma trig_log t g : forall w w', fold_res (trig_one t) w g = Ok w' ->
  w_log w' = w_log w ++ map (fun o => ETrig o t) (filter (w_chg w) g) /\ forall o, w_chg w' o = w_chg w o.
Proof.
  induction g as [|o g IH]; simpl; intros w w' H; [injection H as <-; rewrite app_nil_r; auto|].
  inv_bind H. apply IH in H as [H1 H2]. apply trig_one_inv in E as [[Hc ->]|(Hc & v & s & _ & _ & ->)]; rewrite Hc.
  - auto.
  - simpl in *. rewrite H1, <- app_assoc. auto.
Qed.

Lemma post_log t g : NoDup g -> forall w w', fold_res (post_one t) w g = Ok w' ->
  w_log w' = w_log w ++ map (fun o => EPost o t) (filter (w_chg w) g).
Proof.
  induction 1 as [|o g Ho Hnd IH]; simpl; intros w w' H; [injection H as <-; rewrite app_nil_r; auto|].
  inv_bind H. apply IH in H. rewrite H.
  assert (Hf : filter (w_chg a) g = filter (w_chg w) g).
  { apply filter_ext_in. intros x Hx. apply (post_local t _ _ _ E x). intros ->; auto. }
  rewrite Hf. apply post_one_inv in E as [[Hc ->]|(Hc & v & s & _ & _ & ->)]; rewrite Hc; simpl; auto.
  rewrite <- app_assoc. auto.
Qed.

Lemma group_log t g w w' : NoDup g -> group_step t w g = Ok w' ->
  exists ready, w_log w' = w_log w ++ group_calls t ready g.
Proof.
  intros Hnd H. unfold LoopModel.group_step in H. inv_bind H. inv_bind H.
  exists (w_chg a). apply (check_log t g Hnd) in E. apply trig_log in E0 as [E1 E2]. apply (post_log t g Hnd) in H.
  rewrite H, E1, E. unfold group_calls. rewrite (filter_ext _ _ E2). rewrite <- !app_assoc. auto.
Qed.

Lemma group_calls_ext t f1 f2 g : (forall o, In o g -> f1 o = f2 o) -> group_calls t f1 g = group_calls t f2 g.
Proof.
  intros H. unfold group_calls. rewrite (filter_ext_in _ _ _ H). f_equal. apply map_ext_in. intros o Ho; rewrite H; auto.
Qed.

Lemma groups_log t gs : NoDup (concat gs) -> forall w w', fold_res (group_step t) w gs = Ok w' ->
  exists ready, w_log w' = w_log w ++ concat (map (group_calls t ready) gs).
Proof.
  induction gs as [|g gs IH]; simpl; intros Hnd w w' H.
  - injection H as <-. exists (fun _ => true). rewrite app_nil_r; auto.
  - inv_bind H. destruct (group_log t g _ _ (NoDup_app_l _ _ Hnd) E) as [r1 E1].
    destruct (IH (NoDup_app_r _ _ Hnd) _ _ H) as [r2 E2].
    exists (fun o => if in_dec string_dec o g then r1 o else r2 o).
    rewrite E2, E1, <- app_assoc. f_equal. f_equal.
    + apply group_calls_ext. intros o Ho. destruct (in_dec string_dec o g); tauto.
    + f_equal. apply map_ext_in. intros g' Hg'. apply group_calls_ext. intros o Ho.
      destruct (in_dec string_dec o g) as [Hi|]; auto. exfalso.
      assert (Ho' : In o (concat gs)) by (apply in_concat; eauto).
      clear - Hi Ho' Hnd. induction g as [|x g IHg]; simpl in *; [tauto|].
      inversion Hnd; subst. destruct Hi as [->|Hi]; auto. apply H1, in_app_iff; auto.
Qed.

Lemma concat_groups_nodup ord a n : NoDup (map fst ord) -> NoDup (concat (map (group ord) (seq a n))).
Proof.
  intros Hnd. revert a; induction n as [|n IH]; intros a; simpl; [constructor|].
  assert (Hd : forall o, In o (group ord a) -> ~ In o (concat (map (group ord) (seq (S a) n)))).
  { intros o Ho Hi. apply in_group in Ho. apply in_concat_groups in Hi as (i & Hr & Hi).
    pose proof (index_unique _ _ _ _ Hnd Ho Hi). lia. }
  pose proof (group_nodup ord a Hnd) as Hg. specialize (IH (S a)).
  induction (group ord a) as [|o g IHg]; simpl; auto. inversion Hg; subst. constructor.
  - rewrite in_app_iff. intros [Hi|Hi]; [auto|]. apply (Hd o); simpl; auto.
  - apply IHg; auto. intros o' Ho'. apply Hd; simpl; auto.
Qed.

Definition guard (l : loop) : bool := ((l_run _ l <? 0) || (l_t _ l <? l_t0 _ l + l_run _ l))%Z%bool.

(* the k-th iteration of the while loop *)
Lemma while_trace ord : NoDup (map fst ord) -> forall fuel l l', loop_while fuel ord l = Ok l' ->
  exists ready last, length ready = length last /\ length last <= fuel /\
    w_log (l_w _ l') = w_log (l_w _ l) ++ iters_calls (groups ord) (l_t _ l) (l_dt _ l) ready last /\
    l_run _ l' = l_run _ l /\ l_dt _ l' = l_dt _ l /\ l_t0 _ l' = l_t0 _ l /\
    (l_t _ l' = l_t _ l + Z.of_nat (length last) * l_dt _ l)%Z /\
    (l_iter _ l' = l_iter _ l + Z.of_nat (length last))%Z /\
    guard l' = false /\
    forall k, (k < length last)%nat ->
      ((l_run _ l <? 0) || (l_t _ l + Z.of_nat k * l_dt _ l <? l_t0 _ l + l_run _ l))%Z%bool = true /\
      nth_error last k = Some (l_iter _ l + Z.of_nat k =? niters (l_run _ l) (l_dt _ l) (l_t0 _ l) - 1)%Z.
Proof.
  intros Hnd. induction fuel as [|fuel IH]; intros l l' H; cbn [LoopModel.loop_while] in H; fold (guard l) in H;
  destruct (guard l) eqn:Hg; try discriminate.
  - injection H as <-. exists [], []. simpl. rewrite app_nil_r. repeat split; auto; try lia.
  - inv_bind H. destruct (IH _ _ H) as (ready & last & Hl & Hf & Hlog & R1 & R2 & R3 & R4 & R5 & R6 & R7).
    unfold LoopModel.loop_iter in E. inv_bind E. injection E as <-. simpl in *.
    destruct (groups_log _ _ (concat_groups_nodup _ _ _ Hnd) _ _ E0) as [r Er]. simpl in Er.
    exists (r :: ready), ((l_iter _ l =? niters (l_run _ l) (l_dt _ l) (l_t0 _ l) - 1)%Z :: last). cbn [length].
    split; [lia|]. split; [lia|]. split.
    { rewrite Hlog, Er. cbn [iters_calls]. unfold iter_calls, groups. cbn [seq map concat]. rewrite <- !app_assoc. cbn [app]. rewrite <- ?app_assoc. reflexivity. }
    split; [auto|]. split; [auto|]. split; [auto|]. split; [rewrite R4; lia|]. split; [rewrite R5; lia|]. split; [auto|].
    intros [|k] Hk.
    + rewrite Z.mul_0_l, !Z.add_0_r. split; [exact Hg|reflexivity].
    + destruct (R7 k) as [G1 G2]; [lia|]. simpl nth_error.
      replace (l_t _ l + Z.of_nat (S k) * l_dt _ l)%Z with (l_t _ l + l_dt _ l + Z.of_nat k * l_dt _ l)%Z by lia.
      replace (l_iter _ l + Z.of_nat (S k))%Z with (l_iter _ l + 1 + Z.of_nat k)%Z by lia. auto.
  - injection H as <-. exists [], []. simpl. rewrite app_nil_r. repeat split; auto; try lia.
Qed.

Lemma setup_log l : forall w w', fold_res (setup_one St Dt outs cod) w l = Ok w' -> w_log w' = w_log w ++ map ESetup l.
Proof.
  induction l as [|o l IH]; simpl; intros w w' H; [injection H as <-; rewrite app_nil_r; auto|].
  inv_bind H. rewrite (IH _ _ H). unfold setup_one in E. inv_bind E. injection E as <-. simpl. rewrite <- app_assoc; auto.
Qed.

Lemma final_log l : forall w w', fold_res (final_one St Dt outs cod) w l = Ok w' -> w_log w' = w_log w ++ map EFinal l.
Proof.
  induction l as [|o l IH]; simpl; intros w w' H; [injection H as <-; rewrite app_nil_r; auto|].
  inv_bind H. rewrite (IH _ _ H). unfold final_one in E. inv_bind E. injection E as <-. simpl. rewrite <- app_assoc; auto.
Qed.

Theorem run_trace fuel ord run dt t0 cnt w l :
  NoDup (map fst ord) -> loop_run fuel ord run dt t0 cnt w = Ok l ->
  exists ready last, length ready = length last /\
    w_log (l_w _ l) = w_log w ++ map ESetup (concat (groups ord)) ++
        iters_calls (groups ord) t0 dt ready last ++ map EFinal (concat (groups ord)) /\
    (forall k, (k < length last)%nat -> (run < 0 \/ Z.of_nat k * dt < run)%Z /\
       nth_error last k = Some (cnt + Z.of_nat k =? niters run dt t0 - 1)%Z) /\
    (0 <= run /\ run <= Z.of_nat (length last) * dt)%Z.
Proof.
  intros Hnd H. unfold LoopModel.loop_run in H. inv_bind H. inv_bind H. inv_bind H. injection H as <-.
  apply setup_log in E. apply final_log in E1.
  destruct (while_trace ord Hnd _ _ _ E0) as (ready & last & Hl & Hf & Hlog & R1 & R2 & R3 & R4 & R5 & R6 & R7).
  simpl in *. exists ready, last. split; auto. split.
  { rewrite E1, Hlog, E. rewrite <- !app_assoc. auto. }
  split.
  - intros k Hk. destruct (R7 k Hk) as [G1 G2]. split; auto.
    apply orb_true_iff in G1 as [G1|G1]; [left; apply Z.ltb_lt; auto|right; apply Z.ltb_lt in G1; lia].
  - unfold guard in R6. rewrite R1, R3, R4 in R6. apply orb_false_iff in R6 as [R6 R6'].
    apply Z.ltb_ge in R6. apply Z.ltb_ge in R6'. split; lia.
Qed.

Lemma iter_times_app l1 l2 : iter_times (l1 ++ l2) = iter_times l1 ++ iter_times l2.
Proof. apply flat_map_app. Qed.

Lemma iter_times_none l : (forall e, In e l -> match e with EIter _ _ => False | _ => True end) -> iter_times l = [].
Proof.
  induction l as [|e l IH]; simpl; intros H; auto. pose proof (H e (or_introl eq_refl)).
  unfold iter_times in *. simpl. rewrite IH by (intros; apply H; auto). destruct e; tauto || auto.
Qed.

Lemma iter_times_group t r gs : iter_times (concat (map (group_calls t r) gs)) = [].
Proof.
  apply iter_times_none. intros e He. apply in_concat in He as (l & Hl & He). apply in_map_iff in Hl as (g & <- & _).
  unfold group_calls in He. rewrite !in_app_iff, !in_map_iff in He.
  destruct He as [(o & <- & _)|[(o & <- & _)|(o & <- & _)]]; auto.
Qed.

Lemma iter_times_iters gs dt : forall ready last t, length ready = length last ->
  iter_times (iters_calls gs t dt ready last) = combine (map (fun k => t + Z.of_nat k * dt)%Z (seq 0 (length last))) last.
Proof.
  induction ready as [|r ready IH]; intros [|b last] t Hl; simpl in *; try discriminate; auto.
  rewrite iter_times_app, iter_times_group. simpl.
  rewrite IH by lia. f_equal; [f_equal; lia|]. rewrite <- seq_shift, map_map. f_equal. apply map_ext. intros; lia.
Qed.

Theorem run_times fuel ord run dt t0 cnt w l :
  NoDup (map fst ord) -> w_log w = [] -> (0 < dt)%Z -> loop_run fuel ord run dt t0 cnt w = Ok l ->
  exists n, iter_times (w_log (l_w _ l)) =
     map (fun k => (t0 + Z.of_nat k * dt, cnt + Z.of_nat k =? niters run dt t0 - 1)%Z) (seq 0 n) /\
  (0 <= run)%Z /\ (Z.of_nat n = (run + dt - 1) / dt)%Z.
Proof.
  intros Hnd Hw Hdt H. destruct (run_trace _ _ _ _ _ _ _ _ Hnd H) as (ready & last & Hl & Hlog & HA & HB).
  exists (length last). rewrite Hlog, Hw. simpl. rewrite !iter_times_app.
  rewrite (iter_times_none (map ESetup _)), (iter_times_none (map EFinal _)).
  2,3: intros e He; apply in_map_iff in He as (o & <- & _); auto.
  rewrite iter_times_iters by auto. simpl. rewrite app_nil_r. split; [|split; [lia|]].
  - clear - HA. assert (HA' : forall k, (k < length last)%nat -> nth_error last k = Some (cnt + Z.of_nat k =? niters run dt t0 - 1)%Z).
    { intros k Hk; apply HA; auto. } clear HA.
    assert (E : last = map (fun k => cnt + Z.of_nat k =? niters run dt t0 - 1)%Z (seq 0 (length last))).
    { apply nth_ext with (d := true) (d' := true); [rewrite map_length, seq_length; auto|].
      intros k Hk. pose proof (HA' k Hk) as Hn. apply nth_error_nth with (d := true) in Hn. rewrite Hn.
      rewrite nth_indep with (d' := (fun k => (cnt + Z.of_nat k =? niters run dt t0 - 1)%Z) 0) by (rewrite map_length, seq_length; auto).
      rewrite map_nth with (f := fun k => (cnt + Z.of_nat k =? niters run dt t0 - 1)%Z), seq_nth by auto. auto. }
    rewrite E at 2. clear. generalize (seq 0 (length last)) as q. intros q. induction q; simpl; auto. f_equal; auto.
  - destruct HB as [HB1 HB2]. destruct (length last) as [|n] eqn:En.
    + assert (run = 0)%Z by lia. subst. rewrite Z.div_small; lia.
    + destruct (HA n) as [[HA1|HA1] _]; [lia|lia|].
      apply Z.div_unique with (r := (run + dt - 1 - dt * Z.of_nat (S n))%Z); nia.
Qed.

Theorem run_never_stops fuel ord run dt t0 cnt w l :
  NoDup (map fst ord) -> (run < 0 \/ (0 < run /\ dt <= 0))%Z -> loop_run fuel ord run dt t0 cnt w <> Ok l.
Proof.
  intros Hnd Hc H. destruct (run_trace _ _ _ _ _ _ _ _ Hnd H) as (ready & last & _ & _ & _ & HB). nia.
Qed.

(* no new exceptions: if the methods never raise [e], neither does the loop, unless
   it is the ValueError of a badly connected input or the fuel is exhausted *)
Theorem run_raises e fuel ord run dt t0 cnt w :
  e <> ValueError ->
  (e = OutOfFuel -> (0 < dt /\ 0 <= run /\ (run + dt - 1) / dt <= Z.of_nat fuel)%Z) ->
  (forall o v s, c_setup St Dt (cod o) v s <> Err e) ->
  (forall o t v s, c_prep St Dt (cod o) t v s <> Err e) ->
  (forall o t v s, c_trig St Dt (cod o) t v s <> Err e) ->
  (forall o t v s, c_post St Dt (cod o) t v s <> Err e) ->
  (forall o v s, c_final St Dt (cod o) v s <> Err e) ->
  loop_run fuel ord run dt t0 cnt w <> Err e.
Proof.
  intros Hve Hfuel N1 N2 N3 N4 N5.
  assert (Nb : forall A B (m : res A) (f : A -> res B), m <> Err e -> (forall a, m = Ok a -> f a <> Err e) -> bind m f <> Err e).
  { intros A B [a|e'] f H1 H2; simpl; [auto|]. intros E; apply H1; congruence. }
  assert (Nf : forall A B (f : B -> A -> res B) l, (forall s a, f s a <> Err e) -> forall s, fold_res f s l <> Err e).
  { intros A B f l Hf. induction l; simpl; intros s; [discriminate|]. apply Nb; auto. }
  assert (Nv : forall w0 insl, get_view w0 insl <> Err e).
  { intros w0 insl. induction insl as [|i insl IH]; simpl; [discriminate|]. apply Nb.
    - apply Nb; [|discriminate]. unfold get_input. destruct (i_list i); [discriminate|].
      destruct (flat_map _ _) as [|? [|]]; try discriminate; try congruence. destruct (i_opt i); [discriminate|congruence].
    - intros; apply Nb; auto; discriminate. }
  assert (Ni : forall l, loop_iter ord l <> Err e).
  { intros l. apply Nb; [|discriminate]. apply Nf. intros w0 g. apply Nb; [|intros; apply Nb].
    - apply Nf. intros w1 o. apply Nb; auto. intros v _. apply Nb; [|discriminate].
      destruct (triggers _ _ _ _ _); [auto|discriminate].
    - apply Nf. intros w1 o. unfold LoopModel.trig_one, obj_trigger. destruct (w_chg w1 o); cbn [negb]; [|discriminate].
      apply Nb; auto. intros v _. apply Nb; auto. discriminate.
    - intros. apply Nf. intros w1 o. unfold LoopModel.post_one, obj_post. destruct (w_chg w1 o); cbn [negb]; [|discriminate].
      apply Nb; auto. intros v _. apply Nb; auto. discriminate. }
  assert (Nw : forall fuel l, l_dt _ l = dt -> l_run _ l = run -> l_t0 _ l = t0 ->
     (e = OutOfFuel -> 0 < dt /\ 0 <= run /\ t0 + run - l_t _ l <= Z.of_nat fuel * dt)%Z -> loop_while fuel ord l <> Err e).
  { clear Hfuel fuel. induction fuel as [|fuel IH]; intros l H1 H2 H3 H4; cbn [LoopModel.loop_while];
    destruct (_ || _) eqn:G; try discriminate.
    - intros E. assert (Ee : e = OutOfFuel) by congruence. rewrite H2, H3 in G. apply orb_true_iff in G. rewrite !Z.ltb_lt in G. destruct (H4 Ee). lia.
    - apply Nb; auto. intros l' Hl'. unfold LoopModel.loop_iter in Hl'. inv_bind Hl'. injection Hl' as <-.
      apply IH; simpl; auto. intros Ee. destruct (H4 Ee) as (? & ? & ?). rewrite H1. lia. }
  apply Nb; [apply Nf; intros w0 o; apply Nb; [auto|discriminate]|]. intros w1 _.
  apply Nb; [apply Nw; simpl; auto|].
  - intros Ee. destruct (Hfuel Ee) as (Hdt & Hrun & Hf). split; auto. split; auto.
    assert (run <= (run + dt - 1) / dt * dt)%Z; [|nia].
    pose proof (Z.div_mod (run + dt - 1) dt ltac:(lia)). pose proof (Z.mod_pos_bound (run + dt - 1) dt ltac:(lia)). lia.
  - intros l _. apply Nb; [|discriminate]. apply Nf. intros w2 o. apply Nb; [auto|discriminate].
Qed.

(* flags are down after an iteration *)
Lemma post_flags t g : NoDup g -> forall w w', fold_res (post_one t) w g = Ok w' -> forall o, In o g -> w_chg w' o = false.
Proof.
  induction 1 as [|x g Hx Hnd IH]; simpl; intros w w' H o Ho; [tauto|]. inv_bind H.
  destruct Ho as [->|Ho]; [|eapply IH; eauto].
  rewrite (proj2 (fold_frame _ (post_local t) _ _ _ H o Hx)).
  apply post_one_inv in E as [[Hc ->]|(Hc & v & s & _ & _ & ->)]; auto. simpl. apply fupd_same.
Qed.

Lemma iter_flags ord t w w' : NoDup (map fst ord) -> iter_step ord t w = Ok w' ->
  forall o, In o (map fst ord) -> w_chg w' o = false.
Proof.
  intros Hnd H o Ho. apply in_map_iff in Ho as ([o' j] & Ho' & Ho). simpl in Ho'; subst o'.
  assert (Hj : (j <= list_max (map snd ord))%nat).
  { pose proof (proj1 (list_max_le (map snd ord) _) (le_n _)) as Hm. rewrite Forall_forall in Hm.
    apply Hm. change j with (snd (o, j)). apply in_map; auto. }
  unfold LoopModel.iter_step in H. rewrite (groups_split _ _ Hj) in H.
  apply fold_res_split in H as (wa & wb & Ha & Hb & Hc).
  destruct (groups_frame _ _ _ _ Hc o) as [_ ->].
  2:{ unfold LoopModel.group_step in Hb. inv_bind Hb. inv_bind Hb. refine (post_flags t (group ord j) _ _ _ Hb o _).
    + apply group_nodup; auto.
    + apply in_group; auto. }
  intros Hi. apply in_concat_groups in Hi as (i & Hr & Hi).
  pose proof (index_unique _ _ _ _ Hnd Ho Hi). lia.
Qed.

(* ---- freshness (C13) ---- *)

Notation times_le := (times_le St Dt outs gtime).
Notation stamps := (stamps St Dt outs gtime cod).

Lemma sync_step_times o t old new s' b : stamps o -> times_le b old o -> (b <= t)%Z ->
  sync_step St Dt outs gtime cod o t old new s' ->
  forall k d g, In d (outs s' k) -> gtime d = Some g -> (g <= t)%Z.
Proof.
  intros Hs Hb Hbt (v & _ & [[_ ->]|(_ & s1 & s2 & H1 & H2 & H3)]) k d g Hd Hg.
  - pose proof (Hb _ _ _ Hd Hg). lia.
  - destruct (Hs _ (or_intror (or_intror eq_refl)) _ _ _ _ _ _ _ H3 Hd Hg) as [->|(k0 & d0 & Hd0 & Hg0)]; [lia|].
    destruct (Hs _ (or_intror (or_introl eq_refl)) _ _ _ _ _ _ _ H2 Hd0 Hg0) as [->|(k1 & d1 & Hd1 & Hg1)]; [lia|].
    destruct (Hs _ (or_introl eq_refl) _ _ _ _ _ _ _ H1 Hd1 Hg1) as [->|(k2 & d2 & Hd2 & Hg2)]; [lia|].
    pose proof (Hb _ _ _ Hd2 Hg2). lia.
Qed.

Lemma sync_view_data old new insl v n iv d : sync_view St Dt outs old new insl = Ok v ->
  In (n, iv) v -> In d (ival_data Dt iv) ->
  exists i s, In i insl /\ In s (i_src i) /\
    In d (outs (if (s_delay s <? 0)%Z then old (s_obj s) else new (s_obj s)) (s_key s)).
Proof.
  revert v; induction insl as [|i insl IH]; simpl; intros v H Hv Hd; [injection H as <-; destruct Hv|].
  inv_bind H. inv_bind H. injection H as <-. destruct Hv as [Hv|Hv].
  - inv_bind E. injection E as <-. injection Hv as <- <-. unfold sync_input in E1.
    assert (Hin : In d (flat_map (fun s => outs (if (s_delay s <? 0)%Z then old (s_obj s) else new (s_obj s)) (s_key s)) (i_src i))).
    { destruct (i_list i); [injection E1 as <-; auto|].
      destruct (flat_map _ _) as [|? [|]]; [destruct (i_opt i); [injection E1 as <-; auto|discriminate]|injection E1 as <-; auto|discriminate]. }
    apply in_flat_map in Hin as (s & Hs & Hin). eauto 6.
  - destruct (IH _ E0 Hv Hd) as (i' & s & ? & ? & ?). eauto 6.
Qed.

Lemma sync_view_in old new insl v i s d : sync_view St Dt outs old new insl = Ok v ->
  In i insl -> In s (i_src i) ->
  In d (outs (if (s_delay s <? 0)%Z then old (s_obj s) else new (s_obj s)) (s_key s)) ->
  exists iv, In (i_name i, iv) v /\ In d (ival_data Dt iv).
Proof.
  revert v; induction insl as [|i0 insl IH]; simpl; intros v H Hi Hs Hd; [tauto|].
  inv_bind H. inv_bind H. injection H as <-. destruct Hi as [->|Hi].
  - inv_bind E. injection E as <-. exists a1; split; [simpl; auto|]. unfold sync_input in E1.
    assert (Hin : In d (flat_map (fun s => outs (if (s_delay s <? 0)%Z then old (s_obj s) else new (s_obj s)) (s_key s)) (i_src i)))
      by (apply in_flat_map; eauto).
    destruct (i_list i); [injection E1 as <-; auto|].
    destruct (flat_map _ _) as [|? [|]]; [destruct Hin|injection E1 as <-; auto|discriminate].
  - destruct (IH _ E0 Hi Hs Hd) as (iv & ? & ?). exists iv; simpl; auto.
Qed.

(* At time t, with all generation times before t when the iteration starts, an object
   is fresh exactly when an undelayed producer stamped an output in this iteration. *)
Theorem fresh_iff ord t w w' o j v :
  NoDup (map fst ord) -> respects St Dt cod ord -> tame St Dt outs cod ord ->
  (forall p, stamps p) -> (forall p, times_le (t - 1) (w_st w) p) ->
  iter_step ord t w = Ok w' -> In (o, j) ord ->
  sync_view St Dt outs (w_st w) (w_st w') (c_inputs St Dt (cod o)) = Ok v ->
  (fresh Dt gtime t v <->
   exists s d, has_src St Dt cod o s /\ (0 <= s_delay s)%Z /\ In (s_obj s) (map fst ord) /\
     In d (outs (w_st w' (s_obj s)) (s_key s)) /\ gtime d = Some t) /\
  (forall p, times_le t (w_st w') p).
Proof.
  intros Hnd Hr Ht Hst Hb Hi Ho Hv.
  destruct (iter_sync _ _ _ _ Hnd Hr Ht Hi) as [HS HF].
  assert (Hle : forall p, times_le t (w_st w') p).
  { intros p k d g Hd Hg. destruct (in_dec string_dec p (map fst ord)) as [Hin|Hn].
    - apply in_map_iff in Hin as ([p' i] & Hp & Hin). simpl in Hp; subst p'.
      eapply (sync_step_times p t (w_st w) (w_st w') (w_st w' p) (t - 1)); eauto; lia.
    - rewrite HF in Hd by auto. pose proof (Hb _ _ _ _ Hd Hg). lia. }
  split; auto. split.
  - intros (n & iv & d & g & Hin & Hd & Hg & Hge).
    destruct (sync_view_data _ _ _ _ _ _ _ Hv Hin Hd) as (i & s & Hii & Hs & Hds).
    destruct (Z.ltb_spec (s_delay s) 0) as [Hneg|Hpos].
    + pose proof (Hb _ _ _ _ Hds Hg). lia.
    + exists s, d. pose proof (Hle _ _ _ _ Hds Hg). assert (g = t) by lia. subst g.
      repeat split; auto; [exists i; auto|].
      destruct (in_dec string_dec (s_obj s) (map fst ord)) as [|Hn]; auto.
      rewrite HF in Hds by auto. pose proof (Hb _ _ _ _ Hds Hg). lia.
  - intros (s & d & (i & Hii & Hs) & Hpos & _ & Hd & Hg).
    destruct (sync_view_in _ _ _ _ i s d Hv Hii Hs) as (iv & H1 & H2).
    { destruct (Z.ltb_spec (s_delay s) 0); [lia|auto]. }
    exists (i_name i), iv, d, t. repeat split; auto; lia.
Qed.

(* an object that reads only with delays never runs *)
Theorem delayed_only_never ord t w w' o j i0 :
  NoDup (map fst ord) -> respects St Dt cod ord -> tame St Dt outs cod ord ->
  (forall p, stamps p) -> (forall p, times_le (t - 1) (w_st w) p) ->
  iter_step ord t w = Ok w' -> In (o, j) ord ->
  In i0 (c_inputs St Dt (cod o)) -> i_opt i0 = false ->
  (forall s, has_src St Dt cod o s -> (s_delay s < 0)%Z) ->
  w_st w' o = w_st w o.
Proof.
  intros Hnd Hr Ht Hst Hb Hi Ho Hi0 Hopt Hdel.
  destruct (iter_sync _ _ _ _ Hnd Hr Ht Hi) as [HS _]. destruct (HS _ _ Ho) as (v & Hv & [[_ E]|[Hm _]]); auto.
  exfalso. destruct Hm as [E|[[E _]|E]].
  - rewrite E in Hi0; destruct Hi0.
  - rewrite (E _ Hi0) in Hopt; discriminate.
  - apply (fresh_iff ord t w w' o j v Hnd Hr Ht Hst Hb Hi Ho Hv) in E as (s & d & Hs & Hp & _).
    apply Hdel in Hs. lia.
Qed.

End P.
