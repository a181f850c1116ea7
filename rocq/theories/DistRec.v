(* Recording the states of the objects does not change a simulation. *)
From Coq Require Import String List ZArith Bool PeanoNat Lia.
From Verif Require Import PyBase PyLemmas LoopModel LoopSpec LoopProofs DistModel DistSpec.
Import ListNotations.

Section Rec.
Variables St Dt : Type.
Variable outs : St -> option string -> list Dt.
Variable gtime : Dt -> option Z.
Variable cod : string -> code St Dt.
Variable rank : string -> option nat.
Definition cod' (o : string) := recorded St Dt (cod o).
Definition outs' (x : St * list St) (k : option string) := outs (fst x) k.
Notation RS := (St * list St)%type.

Definition rel (w : world St) (w' : world RS) : Prop :=
  (forall o, w_st St w o = fst (w_st RS w' o)) /\ (forall o, w_chg St w o = w_chg RS w' o).

Lemma rec_input (w : string -> St) (w' : string -> RS) i : (forall o, w o = fst (w' o)) ->
  get_input RS Dt outs' w' i = get_input St Dt outs w i.
Proof.
  intros H. unfold get_input.
  replace (flat_map (fun s => outs' (w' (s_obj s)) (s_key s)) (i_src i)) with (flat_map (fun s => outs (w (s_obj s)) (s_key s)) (i_src i)); auto.
  apply flat_map_ext. intros s. unfold outs'. rewrite H. reflexivity.
Qed.
Lemma rec_view (w : string -> St) (w' : string -> RS) l : (forall o, w o = fst (w' o)) ->
  get_view RS Dt outs' w' l = get_view St Dt outs w l.
Proof.
  intros H. unfold get_view. induction l as [|i l IH]; auto. cbn [map_res]. rewrite (rec_input w w' i H), IH. reflexivity.
Qed.

Definition follows (f : world St -> string -> res (world St)) (f' : world RS -> string -> res (world RS)) : Prop :=
  forall w w' o w1, rel w w' -> f w o = Ok w1 -> exists w1', f' w' o = Ok w1' /\ rel w1 w1'.

Lemma rel_upd w w' o s h b1 b1' l l' : rel w w' -> (forall q, b1 q = b1' q) ->
  rel (mkWorld St (fupd (w_st St w) o s) b1 l) (mkWorld RS (fupd (w_st RS w') o (s, h)) b1' l').
Proof.
  intros [H1 H2] Hb. split; cbn; auto. intros q. unfold fupd. destruct (String.eqb o q); auto.
Qed.

Lemma setup_follows : follows (setup_one St Dt outs cod) (setup_one RS Dt outs' cod').
Proof.
  intros w w' o w1 [R1 R2] H. unfold setup_one in *. cbn [cod' recorded c_inputs c_setup].
  rewrite (rec_view (w_st St w) (w_st RS w')) by auto. rewrite <- R1.
  destruct (c_setup _ _ _ _ _) as [s|]; [|discriminate]. cbn [bind] in *. injection H as <-.
  eexists. split; [reflexivity|]. apply rel_upd; [split|]; auto.
Qed.

Lemma check_follows t : follows (check_one St Dt outs gtime cod t) (check_one RS Dt outs' gtime cod' t).
Proof.
  intros w w' o w1 [R1 R2] H. apply check_one_inv in H as (v & s & b & Hv & Hb & Hs & ->).
  unfold check_one. cbn [cod' recorded c_inputs c_prep]. rewrite (rec_view (w_st St w) (w_st RS w')) by auto. rewrite Hv. cbn [bind].
  rewrite <- Hb. destruct b.
  - rewrite <- R1, Hs. cbn [bind]. eexists. split; [reflexivity|]. apply rel_upd; [split; auto|].
    intros q. unfold fupd. rewrite R2. reflexivity.
  - subst s. cbn [bind]. eexists. split; [reflexivity|]. split; cbn.
    + intros q. unfold fupd. destruct (String.eqb_spec o q); subst; auto.
    + intros q. unfold fupd. rewrite R2. reflexivity.
Qed.

Lemma trig_follows t : follows (trig_one St Dt outs cod t) (trig_one RS Dt outs' cod' t).
Proof.
  intros w w' o w1 [R1 R2] H. unfold trig_one, obj_trigger in *. rewrite <- R2. destruct (w_chg St w o) eqn:E; cbn [negb] in *.
  - cbn [cod' recorded c_inputs c_trig]. rewrite (rec_view (w_st St w) (w_st RS w')) by auto.
    destruct (get_view St Dt outs (w_st St w) _) as [v|]; [|discriminate]. cbn [bind] in *. rewrite <- R1.
    destruct (c_trig _ _ _ _ _ _) as [s|]; [|discriminate]. cbn [bind] in *. injection H as <-.
    eexists. split; [reflexivity|]. apply rel_upd; [split|]; auto.
  - injection H as <-. exists w'. split; auto. split; auto.
Qed.

Lemma post_follows t : follows (post_one St Dt outs cod t) (post_one RS Dt outs' cod' t).
Proof.
  intros w w' o w1 [R1 R2] H. unfold post_one, obj_post in *. rewrite <- R2. destruct (w_chg St w o) eqn:E; cbn [negb] in *.
  - cbn [cod' recorded c_inputs c_post]. rewrite (rec_view (w_st St w) (w_st RS w')) by auto.
    destruct (get_view St Dt outs (w_st St w) _) as [v|]; [|discriminate]. cbn [bind] in *. rewrite <- R1.
    destruct (c_post _ _ _ _ _ _) as [s|]; [|discriminate]. cbn [bind] in *. injection H as <-.
    eexists. split; [reflexivity|]. apply rel_upd; [split|]; auto. intros q. unfold fupd. rewrite R2. reflexivity.
  - injection H as <-. exists w'. split; auto. split; auto.
Qed.

Lemma fold_follows f f' : follows f f' -> forall l w w' w1, rel w w' -> fold_res f w l = Ok w1 ->
  exists w1', fold_res f' w' l = Ok w1' /\ rel w1 w1'.
Proof.
  intros Hf. induction l as [|o l IH]; cbn [fold_res]; intros w w' w1 R H; [injection H as <-; eauto|].
  destruct (f w o) as [w2|] eqn:E; [|discriminate]. destruct (Hf w w' o w2 R E) as (w2' & -> & R2). cbn [bind] in *. eauto.
Qed.

Lemma groups_follow t gs : forall w w' w1, rel w w' -> fold_res (group_step St Dt outs gtime cod t) w gs = Ok w1 ->
  exists w1', fold_res (group_step RS Dt outs' gtime cod' t) w' gs = Ok w1' /\ rel w1 w1'.
Proof.
  induction gs as [|g gs IH]; cbn [fold_res]; intros w w' w1 R H; [injection H as <-; eauto|].
  destruct (group_step St Dt outs gtime cod t w g) as [w2|] eqn:E; [|discriminate]. cbn [bind] in H.
  unfold group_step in E.
  destruct (fold_res (check_one St Dt outs gtime cod t) w g) as [a|] eqn:E1; [|discriminate]. cbn [bind] in E.
  destruct (fold_res (trig_one St Dt outs cod t) a g) as [b|] eqn:E2; [|discriminate]. cbn [bind] in E.
  destruct (fold_follows _ _ (check_follows t) g w w' a R E1) as (a' & F1 & Ra).
  destruct (fold_follows _ _ (trig_follows t) g a a' b Ra E2) as (b' & F2 & Rb).
  destruct (fold_follows _ _ (post_follows t) g b b' w2 Rb E) as (w2' & F3 & Rc).
  unfold group_step at 1. rewrite F1. cbn [bind]. rewrite F2. cbn [bind]. rewrite F3. cbn [bind]. eauto.
Qed.

Lemma recorded_run ord its w w1 w' : rel w w' -> one_process St Dt outs gtime cod ord its w = Ok w1 ->
  exists w1', one_process RS Dt outs' gtime cod' ord its w' = Ok w1' /\ rel w1 w1'.
Proof.
  intros R H. unfold one_process in *.
  destruct (fold_res (setup_one St Dt outs cod) w _) as [a|] eqn:E; [|discriminate]. cbn [bind] in H.
  destruct (fold_follows _ _ setup_follows _ w w' a R E) as (a' & -> & Ra). cbn [bind]. clear E R w w'.
  revert a a' Ra H. induction its as [|[t b] its IH]; cbn [fold_res]; intros w w' R H; [injection H as <-; eauto|].
  destruct (iteration St Dt outs gtime cod ord w (t, b)) as [w2|] eqn:E; [|discriminate]. cbn [bind] in H.
  unfold iteration, iter_step in E. cbn [fst snd] in E.
  assert (R0 : rel (mkWorld St (w_st St w) (w_chg St w) (w_log St w ++ [EIter t b])) (mkWorld RS (w_st RS w') (w_chg RS w') (w_log RS w' ++ [EIter t b]))).
  { destruct R as [R1 R2]. split; auto. }
  destruct (groups_follow t (groups ord) _ _ w2 R0 E) as (w2' & F & R2).
  unfold iteration at 1, iter_step. cbn [fst snd]. rewrite F. cbn [bind]. eauto.
Qed.

Lemma recorded_distributable n ord (st : string -> RS) :
  distributable St Dt outs cod rank n ord (fun o => fst (st o)) -> distributable RS Dt outs' cod' rank n ord st.
Proof.
  intros (H1 & H2 & H3 & H4 & H5 & H6 & H7).
  split; [exact H1|]. split; [exact H2|]. split; [|split; [exact H4|split; [exact H5|split]]].
  - intros o j s Ho Hs Hd Hp. destruct (H3 o j s Ho Hs Hd Hp) as [A B]. split.
    + intros t v v' x. cbn. rewrite (A t v v'). reflexivity.
    + intros t v x x' k E. cbn in E. destruct (c_prep _ _ _ _ _ _) as [y|] eqn:Ey; [|discriminate]. cbn in E. injection E as <-.
      unfold outs'. cbn. eapply B; eauto.
  - intros c Hv. destruct (H6 c Hv) as (A & B & C). split; [exact A|]. split.
    + intros v x x' E. cbn in E. destruct (c_setup _ _ _ _ _) as [y|] eqn:Ey; [|discriminate]. cbn in E. injection E as <-.
      unfold outs'. cbn. eapply B; eauto.
    + intros f Hf t v x x' E. cbn in Hf.
      destruct Hf as [-> | [-> | ->]]; cbn in E.
      * destruct (c_prep _ _ _ _ _ _) as [y|] eqn:Ey; [|discriminate]. cbn in E. injection E as <-. unfold outs'. cbn. eapply (C (c_prep St Dt (cod (s_obj (cn_src c))))); eauto.
      * destruct (c_trig _ _ _ _ _ _) as [y|] eqn:Ey; [|discriminate]. cbn in E. injection E as <-. unfold outs'. cbn. eapply (C (c_trig St Dt (cod (s_obj (cn_src c))))); eauto.
      * destruct (c_post _ _ _ _ _ _) as [y|] eqn:Ey; [|discriminate]. cbn in E. injection E as <-. unfold outs'. cbn. eapply (C (c_post St Dt (cod (s_obj (cn_src c))))); eauto.
  - intros c Hv Hd v x x' E. cbn in E. destruct (c_setup _ _ _ _ _) as [y|] eqn:Ey; [|discriminate]. cbn in E. injection E as <-.
    unfold outs'. cbn. eapply H7; eauto.
Qed.
End Rec.
