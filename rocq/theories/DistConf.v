(* Interleavings of the processes: operations of different processes commute, so that one
   complete execution determines all of them. *)
From Coq Require Import String List ZArith Bool PeanoNat Lia.
From Verif Require Import PyBase PyLemmas LoopModel LoopProofs DistModel.
Import ListNotations.

Lemma cupd_same {A} (f : conn -> A) c v : cupd f c v c = v.
Proof. unfold cupd. destruct (conn_eq_dec c c); congruence. Qed.
Lemma cupd_other {A} (f : conn -> A) c v c' : c <> c' -> cupd f c v c' = f c'.
Proof. unfold cupd. destruct (conn_eq_dec c c'); congruence. Qed.
Lemma pupd_same p r l : pupd p r l r = l.
Proof. unfold pupd. rewrite Nat.eqb_refl. reflexivity. Qed.
Lemma pupd_other p r l r' : r <> r' -> pupd p r l r' = p r'.
Proof. unfold pupd. intros H. apply Nat.eqb_neq in H. rewrite H. reflexivity. Qed.

Section Conf.
Variables St Dt : Type.
Variable outs : St -> option string -> list Dt.
Variable gtime : Dt -> option Z.
Variable cod : string -> code St Dt.
Variable rank : string -> option nat.
Notation core := (core St Dt).
Notation conf := (conf St Dt).
Notation exec := (exec St Dt outs gtime cod rank).
Notation step := (step St Dt outs gtime cod rank).
Notation steps := (steps St Dt outs gtime cod rank).
Notation dview := (dget_view St Dt outs rank).
Notation core_eq := (core_eq St Dt).
Notation conf_eq := (conf_eq St Dt).
Notation set_st := (set_st St Dt).

Lemma core_eq_refl k : core_eq k k.
Proof. split; [|split; [|split]]; reflexivity. Qed.
Lemma core_eq_sym a b : core_eq a b -> core_eq b a.
Proof. intros (H1 & H2 & H3 & H4). split; [|split; [|split]]; intros; symmetry; auto. Qed.
Lemma core_eq_trans a b c : core_eq a b -> core_eq b c -> core_eq a c.
Proof.
  intros (A1 & A2 & A3 & A4) (B1 & B2 & B3 & B4).
  split; [|split; [|split]]; intros; etransitivity; eauto.
Qed.
Lemma conf_eq_refl s : conf_eq s s.
Proof. split; [apply core_eq_refl|reflexivity]. Qed.
Lemma conf_eq_sym a b : conf_eq a b -> conf_eq b a.
Proof. intros [H1 H2]. split; [apply core_eq_sym; auto|intros; symmetry; auto]. Qed.
Lemma conf_eq_trans a b c : conf_eq a b -> conf_eq b c -> conf_eq a c.
Proof. intros [A1 A2] [B1 B2]. split; [eapply core_eq_trans; eauto|intros; etransitivity; eauto]. Qed.

(* what an operation of object [o] can see of other objects *)
Definition sees (o q : string) : Prop := rank q = None \/ rank q = rank o.

Lemma remote_false o s : remote rank o s = false -> sees o (s_obj s).
Proof.
  unfold remote, sees. destruct (rank (s_obj s)) as [r|]; auto. intros H. right.
  destruct (rank o) as [r'|]; cbn in H; [|discriminate]. destruct (Nat.eqb_spec r' r); subst; auto; discriminate.
Qed.

Lemma dinput_agree k k' o i :
  (forall c, cn_dst c = o -> k_box k c = k_box k' c) ->
  (forall q, sees o q -> k_st k q = k_st k' q) ->
  dget_input St Dt outs rank k o i = dget_input St Dt outs rank k' o i.
Proof.
  intros Hb Hs. unfold dget_input.
  replace (flat_map (fun s => if remote rank o s then k_box k (mkConn o (i_name i) s) else outs (k_st k (s_obj s)) (s_key s)) (i_src i))
     with (flat_map (fun s => if remote rank o s then k_box k' (mkConn o (i_name i) s) else outs (k_st k' (s_obj s)) (s_key s)) (i_src i)); auto.
  induction (i_src i) as [|s r IH]; auto. cbn [flat_map]. rewrite IH. f_equal.
  destruct (remote rank o s) eqn:E; [rewrite Hb; auto|]. rewrite Hs; auto. apply remote_false; auto.
Qed.

Lemma dview_agree k k' o ins :
  (forall c, cn_dst c = o -> k_box k c = k_box k' c) ->
  (forall q, sees o q -> k_st k q = k_st k' q) -> dview k o ins = dview k' o ins.
Proof.
  intros Hb Hs. unfold dget_view. induction ins as [|i r IH]; auto. cbn [map_res].
  rewrite (dinput_agree k k' o i Hb Hs), IH. reflexivity.
Qed.

(* the effect of a method call *)
Definition act_fun (a : act) (o : string) (v : res (view Dt)) (x : St) (b : bool) : res (St * bool) :=
  match a with
  | ASetup => s <- c_setup St Dt (cod o) v x ;; Ok (s, b)
  | ACheck t => v <- v ;; let b := triggers Dt gtime t (c_inputs St Dt (cod o)) v in
                s <- (if b then c_prep St Dt (cod o) t v x else Ok x) ;; Ok (s, b)
  | ATrig t => if b then v <- v ;; s <- c_trig St Dt (cod o) t v x ;; Ok (s, b) else Ok (x, b)
  | APost t => if b then v <- v ;; s <- c_post St Dt (cod o) t v x ;; Ok (s, false) else Ok (x, b)
  end.

Lemma set_st_id k o : core_eq (set_st k o (k_st k o) (k_chg k o)) k.
Proof.
  split; [|split; [|split]]; try reflexivity; intros q; cbn; unfold fupd; destruct (String.eqb_spec o q); subst; auto.
Qed.

Lemma do_act_fun a o k :
  match act_fun a o (dview k o (c_inputs St Dt (cod o))) (k_st k o) (k_chg k o) with
  | Ok (s, b) => exists k', do_act St Dt outs gtime cod rank a o k = Ok k' /\ core_eq (set_st k o s b) k'
  | Err e => do_act St Dt outs gtime cod rank a o k = Err e
  end.
Proof.
  unfold do_act, act_fun. destruct a as [|t|t|t].
  - destruct (c_setup _ _ _ _ _); cbn [bind]; auto. eexists. split; [reflexivity|apply core_eq_refl].
  - destruct (dview _ _ _) as [v|]; cbn [bind]; auto. destruct (if triggers _ _ _ _ _ then _ else _); cbn [bind]; auto.
    eexists. split; [reflexivity|apply core_eq_refl].
  - destruct (k_chg k o) eqn:E.
    + destruct (dview _ _ _) as [v|]; cbn [bind]; auto. destruct (c_trig _ _ _ _ _ _); cbn [bind]; auto.
      eexists. split; [reflexivity|apply core_eq_refl].
    + exists k. split; auto. rewrite <- E. apply set_st_id.
  - destruct (k_chg k o) eqn:E.
    + destruct (dview _ _ _) as [v|]; cbn [bind]; auto. destruct (c_post _ _ _ _ _ _); cbn [bind]; auto.
      eexists. split; [reflexivity|apply core_eq_refl].
    + exists k. split; auto. rewrite <- E. apply set_st_id.
Qed.

Lemma do_act_ok a o k k' : do_act St Dt outs gtime cod rank a o k = Ok k' ->
  exists s b, act_fun a o (dview k o (c_inputs St Dt (cod o))) (k_st k o) (k_chg k o) = Ok (s, b) /\ core_eq (set_st k o s b) k'.
Proof.
  intros E. pose proof (do_act_fun a o k) as H. destruct (act_fun _ _ _ _ _) as [[s b]|e].
  - destruct H as (k1 & H1 & H2). rewrite E in H1. injection H1 as <-. eauto.
  - congruence.
Qed.

Lemma do_act_make a o k s b : act_fun a o (dview k o (c_inputs St Dt (cod o))) (k_st k o) (k_chg k o) = Ok (s, b) ->
  exists k', do_act St Dt outs gtime cod rank a o k = Ok k' /\ core_eq (set_st k o s b) k'.
Proof. intros E. pose proof (do_act_fun a o k) as H. rewrite E in H. exact H. Qed.

(* owner of an operation *)
Definition own (x : op) : option nat :=
  match x with
  | Push c => rank (s_obj (cn_src c))
  | Pop c => rank (cn_dst c)
  | Do _ o => rank o
  | Barrier => None
  end.

(* executing an operation on equal states *)
Lemma exec_eq x k k0 : core_eq k k0 ->
  match exec x k with
  | Some (Ok k') => exists k0', exec x k0 = Some (Ok k0') /\ core_eq k' k0'
  | r => exec x k0 = r
  end.
Proof.
  intros (H1 & H2 & H3 & H4). destruct x as [c|c|a o|]; cbn [DistModel.exec].
  - eexists. split; [reflexivity|]. split; [|split; [|split]]; cbn; auto. intros c'. unfold cupd. rewrite H1, H4.
    destruct (conn_eq_dec c c'); auto.
  - rewrite <- H4. destruct (k_ch k c) as [|d r] eqn:E; auto. eexists. split; [reflexivity|].
    split; [|split; [|split]]; cbn; auto; intros c'; unfold cupd; destruct (conn_eq_dec c c'); auto.
  - pose proof (do_act_fun a o k) as HF. pose proof (do_act_fun a o k0) as HF0.
    rewrite <- (dview_agree k k0 o) in HF0 by auto. rewrite <- H1, <- H2 in HF0.
    destruct (act_fun _ _ _ _ _) as [[s b]|e].
    + destruct HF as (k' & -> & E'). destruct HF0 as (k0' & -> & E0'). exists k0'. split; auto.
      eapply core_eq_trans; [apply core_eq_sym; exact E'|]. eapply core_eq_trans; [|exact E0'].
      split; [|split; [|split]]; cbn; auto; intros q; unfold fupd; destruct (String.eqb o q); auto.
    + rewrite HF, HF0. reflexivity.
  - reflexivity.
Qed.

(* executing an operation does not change what operations of other processes see *)
Lemma exec_frame x k k' : exec x k = Some (Ok k') ->
  (forall q, rank q <> own x \/ rank q = None -> own x <> None -> k_st k' q = k_st k q /\ k_chg k' q = k_chg k q) /\
  (forall c, rank (cn_dst c) <> own x -> own x <> None -> k_box k' c = k_box k c).
Proof.
  destruct x as [c|c|a o|]; cbn [DistModel.exec own]; intros E; [| | |discriminate].
  - injection E as <-. cbn. auto.
  - destruct (k_ch k c) as [|d r]; [discriminate|]. injection E as <-. cbn. split; auto. intros c' Hc _.
    rewrite cupd_other; auto. congruence.
  - assert (E' : do_act St Dt outs gtime cod rank a o k = Ok k') by congruence.
    destruct (do_act_ok _ _ _ _ E') as (s & b & _ & (H1 & H2 & H3 & H4)). split.
    + intros q Hq Ho. rewrite <- H1, <- H2. cbn. assert (o <> q) by (destruct Hq; congruence).
      rewrite !fupd_other; auto.
    + intros c _ _. rewrite <- H3. reflexivity.
Qed.

Lemma exec_comm x y k k1 k2 : own x <> None -> own y <> None -> own x <> own y ->
  exec x k = Some (Ok k1) -> exec y k = Some (Ok k2) ->
  exists k3 k4, exec y k1 = Some (Ok k3) /\ exec x k2 = Some (Ok k4) /\ core_eq k3 k4.
Proof.
  (* a method call against a send or a receive *)
  assert (Act : forall a o z k k1 k2, own z <> None -> rank o <> None -> rank o <> own z ->
            (forall c, z = Push c \/ z = Pop c -> True) -> (match z with Do _ _ => False | _ => True end) ->
            do_act St Dt outs gtime cod rank a o k = Ok k1 -> exec z k = Some (Ok k2) ->
            exists k3 k4, exec z k1 = Some (Ok k3) /\ do_act St Dt outs gtime cod rank a o k2 = Ok k4 /\ core_eq k3 k4).
  { clear. intros a o z k k1 k2 Hz Ho Hne _ Hd E1 E2.
    destruct (do_act_ok _ _ _ _ E1) as (s & b & Hf & HE).
    destruct (exec_frame _ _ _ E2) as [F1 F2].
    assert (Hf2 : act_fun a o (dview k2 o (c_inputs St Dt (cod o))) (k_st k2 o) (k_chg k2 o) = Ok (s, b)).
    { destruct (F1 o) as [-> ->]; auto. rewrite (dview_agree k2 k o); auto.
      - intros c Hc. apply F2; auto. rewrite Hc. auto.
      - intros q [Hq|Hq]; apply F1; auto. left. congruence. }
    destruct (do_act_make _ _ _ _ _ Hf2) as (k4 & E4 & HE4).
    pose proof (exec_eq z _ _ HE) as HX.
    destruct z as [c|c|? ?|]; [| |destruct Hd|cbn in Hz; congruence]; cbn [DistModel.exec] in *.
    - destruct HX as (k3 & E3 & HE3). exists k3, k4. split; auto. split; auto.
      eapply core_eq_trans; [apply core_eq_sym; exact HE3|]. eapply core_eq_trans; [|exact HE4].
      injection E2 as <-. split; [|split; [|split]]; cbn; auto. intros c'. rewrite fupd_other; auto. cbn [own] in Hne. congruence.
    - destruct (k_ch k c) as [|d r] eqn:Ec; [discriminate|]. injection E2 as <-. cbn [k_ch set_st] in HX.
      change (k_ch (set_st k o s b) c) with (k_ch k c) in HX. rewrite Ec in HX.
      destruct HX as (k3 & E3 & HE3). exists k3, k4. split; auto. split; auto.
      eapply core_eq_trans; [apply core_eq_sym; exact HE3|]. eapply core_eq_trans; [|exact HE4].
      apply core_eq_refl. }
  intros Hx Hy Hne Ex Ey. destruct x as [c|c|a o|]; [| | |cbn in Hx; congruence]; destruct y as [c'|c'|a' o'|]; try (cbn in Hy; congruence).
  - (* send, send *)
    assert (c <> c') by (intros ->; auto). cbn [DistModel.exec] in *. injection Ex as <-. injection Ey as <-.
    eexists. eexists. split; [reflexivity|]. split; [reflexivity|]. split; [|split; [|split]]; cbn; auto.
    intros c0. unfold cupd. destruct (conn_eq_dec c' c0), (conn_eq_dec c c0); subst; try congruence; auto.
    + destruct (conn_eq_dec c c0); congruence.
    + destruct (conn_eq_dec c' c0); congruence.
  - (* send, receive *)
    cbn [DistModel.exec] in *. injection Ex as <-. destruct (k_ch k c') as [|d r] eqn:E; [discriminate|]. injection Ey as <-. cbn [k_ch k_st k_chg k_box].
    destruct (conn_eq_dec c c') as [->|N].
    + rewrite cupd_same, E. cbn [app]. eexists. eexists. split; [reflexivity|]. split; [reflexivity|]. split; [|split; [|split]]; cbn; auto.
      intros c0. rewrite cupd_same. unfold cupd. destruct (conn_eq_dec c' c0); auto.
    + rewrite cupd_other, E by auto. eexists. eexists. split; [reflexivity|]. split; [reflexivity|]. split; [|split; [|split]]; cbn; auto.
      intros c0. unfold cupd. destruct (conn_eq_dec c' c0), (conn_eq_dec c c0); subst; try congruence; auto.
      * destruct (conn_eq_dec c' c0); congruence.
  - (* send, call *)
    cbn [own] in *. assert (Ey' : do_act St Dt outs gtime cod rank a' o' k = Ok k2) by (cbn in Ey; congruence).
    destruct (Act a' o' (Push c) k k2 k1) as (k3 & k4 & H1 & H2 & H3); auto.
    exists k4, k3. cbn [DistModel.exec]. rewrite H2. split; auto. split; auto. apply core_eq_sym; auto.
  - (* receive, send *)
    cbn [DistModel.exec] in *. injection Ey as <-. destruct (k_ch k c) as [|d r] eqn:E; [discriminate|]. injection Ex as <-. cbn [k_ch k_st k_chg k_box].
    destruct (conn_eq_dec c' c) as [->|N].
    + rewrite !cupd_same, E. cbn [app]. eexists. eexists. split; [reflexivity|]. split; [reflexivity|]. split; [|split; [|split]]; cbn; auto.
      intros c0. unfold cupd. destruct (conn_eq_dec c c0); auto.
    + rewrite (cupd_other _ c'), E by auto. eexists. eexists. split; [reflexivity|]. split; [reflexivity|]. split; [|split; [|split]]; cbn; auto.
      intros c0. unfold cupd. destruct (conn_eq_dec c' c0), (conn_eq_dec c c0); subst; try congruence; auto.
      * destruct (conn_eq_dec c c0); congruence.
  - (* receive, receive *)
    assert (N : c <> c') by (intros ->; auto). cbn [DistModel.exec] in *.
    destruct (k_ch k c) as [|d r] eqn:E; [discriminate|]. injection Ex as <-.
    destruct (k_ch k c') as [|d' r'] eqn:E'; [discriminate|]. injection Ey as <-. cbn.
    rewrite cupd_other, E' by auto. rewrite cupd_other, E by auto.
    eexists. eexists. split; [reflexivity|]. split; [reflexivity|].
    split; [|split; [|split]]; cbn; auto; intros c0; unfold cupd; destruct (conn_eq_dec c' c0), (conn_eq_dec c c0); subst; congruence.
  - (* receive, call *)
    cbn [own] in *. assert (Ey' : do_act St Dt outs gtime cod rank a' o' k = Ok k2) by (cbn in Ey; congruence).
    destruct (Act a' o' (Pop c) k k2 k1) as (k3 & k4 & H1 & H2 & H3); auto.
    exists k4, k3. change (exec (Do a' o') k1) with (Some (do_act St Dt outs gtime cod rank a' o' k1)).
    rewrite H2. split; auto. split; auto. apply core_eq_sym; auto.
  - (* call, send *)
    cbn [own] in *. assert (Ex' : do_act St Dt outs gtime cod rank a o k = Ok k1) by (cbn in Ex; congruence).
    destruct (Act a o (Push c') k k1 k2) as (k3 & k4 & H1 & H2 & H3); auto.
    exists k3, k4. split; auto. cbn [DistModel.exec]. rewrite H2. auto.
  - cbn [own] in *. assert (Ex' : do_act St Dt outs gtime cod rank a o k = Ok k1) by (cbn in Ex; congruence).
    destruct (Act a o (Pop c') k k1 k2) as (k3 & k4 & H1 & H2 & H3); auto.
    exists k3, k4. split; auto. change (exec (Do a o) k2) with (Some (do_act St Dt outs gtime cod rank a o k2)). rewrite H2. auto.
  - (* call, call *)
    cbn [own] in *. assert (N : o <> o') by (intros ->; auto).
    destruct (exec_frame _ _ _ Ex) as [F1 F2]. destruct (exec_frame _ _ _ Ey) as [G1 G2]. cbn [own] in *.
    assert (Ex' : do_act St Dt outs gtime cod rank a o k = Ok k1) by (cbn in Ex; congruence).
    assert (Ey' : do_act St Dt outs gtime cod rank a' o' k = Ok k2) by (cbn in Ey; congruence).
    destruct (do_act_ok _ _ _ _ Ex') as (s & b & Hf & HE). destruct (do_act_ok _ _ _ _ Ey') as (s' & b' & Hf' & HE').
    assert (A1 : act_fun a' o' (dview k1 o' (c_inputs St Dt (cod o'))) (k_st k1 o') (k_chg k1 o') = Ok (s', b')).
    { destruct (F1 o') as [-> ->]; auto. rewrite (dview_agree k1 k o'); auto.
      - intros c Hc. apply F2; auto. rewrite Hc. auto.
      - intros q [Hq|Hq]; apply F1; auto. left. congruence. }
    assert (A2 : act_fun a o (dview k2 o (c_inputs St Dt (cod o))) (k_st k2 o) (k_chg k2 o) = Ok (s, b)).
    { destruct (G1 o) as [-> ->]; auto. rewrite (dview_agree k2 k o); auto.
      - intros c Hc. apply G2; auto. rewrite Hc. auto.
      - intros q [Hq|Hq]; apply G1; auto. left. congruence. }
    destruct (do_act_make _ _ _ _ _ A1) as (k3 & E3 & H3). destruct (do_act_make _ _ _ _ _ A2) as (k4 & E4 & H4).
    exists k3, k4. cbn [DistModel.exec]. rewrite E3, E4. split; auto. split; auto.
    eapply core_eq_trans; [apply core_eq_sym; exact H3|]. eapply core_eq_trans; [|exact H4].
    destruct HE as (P1 & P2 & P3 & P4). destruct HE' as (Q1 & Q2 & Q3 & Q4). cbn in *.
    split; [|split; [|split]]; cbn.
    + intros q. unfold fupd at 1 2. rewrite <- P1, <- Q1. unfold fupd.
      destruct (String.eqb_spec o' q), (String.eqb_spec o q); subst; congruence.
    + intros q. unfold fupd at 1 2. rewrite <- P2, <- Q2. unfold fupd.
      destruct (String.eqb_spec o' q), (String.eqb_spec o q); subst; congruence.
    + intros c. rewrite <- P3, <- Q3. reflexivity.
    + intros c. rewrite <- P4, <- Q4. reflexivity.
Qed.

(* every operation of a program belongs to the process *)
Definition owned (n : nat) (s : conf) : Prop :=
  forall r x, r < n -> In x (snd s r) -> x = Barrier \/ own x = Some r.

Lemma exec_barrier k : exec Barrier k = None.
Proof. reflexivity. Qed.

Lemma step_owned n s s' : owned n s -> step n s s' -> owned n s'.
Proof.
  intros H Hs. destruct Hs as [r x rest k p k' s' Hr Hp E [_ HE]|k p p' s' Hn Hp Hp' [_ HE]]; intros r' y Hr' Hy.
  - rewrite <- HE in Hy. cbn in Hy. unfold pupd in Hy. destruct (Nat.eqb_spec r r') as [<-|].
    + apply (H r y); auto. cbn. rewrite Hp. simpl. auto.
    + apply (H r' y); auto.
  - rewrite <- HE in Hy. cbn in Hy. apply (H r' y); auto. cbn. rewrite Hp by auto. simpl. auto.
Qed.

Lemma step_eq_l n s s0 a : conf_eq s s0 -> step n s a -> step n s0 a.
Proof.
  intros [HE HP] Hs. destruct s0 as [k0 p0]. cbn in HE, HP.
  destruct Hs as [r x rest k p k' s' Hr Hp E HE'|k p p' s' Hn Hp Hp' HE']; cbn in HE, HP.
  - pose proof (exec_eq x k k0 HE) as HX. rewrite E in HX. destruct HX as (k0' & E0 & HE0).
    apply (step_op St Dt outs gtime cod rank n r x rest k0 p0 k0' s'); auto.
    + rewrite <- HP. auto.
    + eapply conf_eq_trans; [|exact HE']. split; [apply core_eq_sym; auto|]. cbn. intros r'. unfold pupd.
      destruct (Nat.eqb r r'); auto.
  - apply (step_barrier St Dt outs gtime cod rank n k0 p0 p' s'); auto.
    + intros r Hr. rewrite <- HP. auto.
    + intros r Hr. rewrite <- HP. auto.
    + eapply conf_eq_trans; [|exact HE']. split; [apply core_eq_sym; auto|reflexivity].
Qed.

Lemma step_eq_r n s a b : step n s a -> conf_eq a b -> step n s b.
Proof.
  intros Hs H. destruct Hs as [r x rest k p k' s' Hr Hp E HE'|k p p' s' Hn Hp Hp' HE'].
  - eapply step_op; eauto. eapply conf_eq_trans; eauto.
  - eapply step_barrier; eauto. eapply conf_eq_trans; eauto.
Qed.

Lemma diamond n s a b : owned n s -> step n s a -> step n s b -> conf_eq a b \/ exists c, step n a c /\ step n b c.
Proof.
  intros HO Ha Hb. destruct Ha as [r x rest k p k' a Hr Hp E HE|k p p' a Hn Hp Hp' HE].
  - inversion Hb as [r2 x2 rest2 k2 p2 k2' b' Hr2 Hp2 E2 HE2|k2 p2 p2' b' Hn2 Hp2 Hp2' HE2]; subst.
    + destruct (Nat.eq_dec r r2) as [<-|N].
      * left. rewrite Hp in Hp2. injection Hp2 as <- <-. rewrite E in E2. injection E2 as <-.
        eapply conf_eq_trans; [apply conf_eq_sym; exact HE|exact HE2].
      * right.
        assert (O1 : own x = Some r).
        { destruct (HO r x Hr) as [->|]; auto; [cbn; rewrite Hp; simpl; auto|]. rewrite exec_barrier in E. discriminate. }
        assert (O2 : own x2 = Some r2).
        { destruct (HO r2 x2 Hr2) as [->|]; auto; [cbn; rewrite Hp2; simpl; auto|]. rewrite exec_barrier in E2. discriminate. }
        destruct (exec_comm x x2 k k' k2') as (k3 & k4 & E3 & E4 & HE34); try congruence.
        assert (S1 : step n (k', pupd p r rest) (k3, pupd (pupd p r rest) r2 rest2)).
        { apply (step_op St Dt outs gtime cod rank n r2 x2 rest2 k' (pupd p r rest) k3); auto; [|apply conf_eq_refl].
          rewrite pupd_other by auto. auto. }
        assert (S2 : step n (k2', pupd p r2 rest2) (k3, pupd (pupd p r rest) r2 rest2)).
        { apply (step_op St Dt outs gtime cod rank n r x rest k2' (pupd p r2 rest2) k4); auto.
          - rewrite pupd_other by auto. auto.
          - split; [apply core_eq_sym; auto|]. cbn. intros q. unfold pupd.
            destruct (Nat.eqb_spec r q), (Nat.eqb_spec r2 q); subst; congruence. }
        exists (k3, pupd (pupd p r rest) r2 rest2). split; eapply step_eq_l; eauto.
    + exfalso. rewrite Hp2 in Hp by auto. injection Hp as <- <-. rewrite exec_barrier in E. discriminate.
  - inversion Hb as [r2 x2 rest2 k2 p2 k2' b' Hr2 Hp2 E2 HE2|k2 p2 p2' b' Hn2 Hp2 Hp2' HE2]; subst.
    + exfalso. rewrite Hp in Hp2 by auto. injection Hp2 as <- <-. rewrite exec_barrier in E2. discriminate.
    + left. eapply conf_eq_trans; [apply conf_eq_sym; exact HE|]. eapply conf_eq_trans; [|exact HE2].
      split; [apply core_eq_refl|]. cbn. intros r. destruct (Nat.lt_ge_cases r n) as [Hr|Hr].
      * specialize (Hp r Hr). rewrite (Hp2 r Hr) in Hp. congruence.
      * rewrite Hp', Hp2' by auto. reflexivity.
Qed.

Lemma steps_eq_l n m s s0 a : conf_eq s s0 -> steps n m s a -> steps n m s0 a.
Proof.
  intros HE Hs. inversion Hs; subst.
  - constructor. eapply conf_eq_trans; [apply conf_eq_sym|]; eauto.
  - econstructor; eauto. eapply step_eq_l; eauto.
Qed.

Lemma steps_app n m1 m2 s a b : steps n m1 s a -> steps n m2 a b -> steps n (m1 + m2) s b.
Proof.
  intros H. revert m2 b. induction H as [s s' HE|m s s1 s2 Hs _ IH]; intros m2 b H2; cbn [Nat.add].
  - eapply steps_eq_l; [apply conf_eq_sym|]; eauto.
  - econstructor; eauto.
Qed.

Lemma steps_owned n m s s' : owned n s -> steps n m s s' -> owned n s'.
Proof.
  intros HO H. induction H as [s s' [_ HE]|m s s1 s2 Hs _ IH].
  - intros r x Hr Hx. rewrite <- HE in Hx. auto.
  - apply IH. eapply step_owned; eauto.
Qed.

Lemma finished_normal n f a : finished St Dt n f -> ~ step n f a.
Proof.
  intros Hf Hs. destruct Hs as [r x rest k p k' s' Hr Hp E HE'|k p p' s' Hn Hp Hp' HE'].
  - specialize (Hf r Hr). cbn in Hf. congruence.
  - specialize (Hf 0 Hn). cbn in Hf. rewrite (Hp 0 Hn) in Hf. discriminate.
Qed.

Lemma steps_finished n m s f : steps n m s f -> finished St Dt n s -> m = 0 /\ conf_eq s f.
Proof.
  intros H Hf. destruct H as [s s' HE|m s s1 s2 Hs _]; auto. exfalso. exact (finished_normal n s s1 Hf Hs).
Qed.

(* one complete execution: every execution can be completed to the same final state, and
   they all have the same length *)
Lemma one_step_less n : forall m s f s', owned n s -> finished St Dt n f -> steps n m s f -> step n s s' ->
  exists m', m = S m' /\ steps n m' s' f.
Proof.
  induction m as [|m IH]; intros s f s' HO Hf Hs Hst.
  - inversion Hs; subst. exfalso. apply (finished_normal n f s' Hf). eapply step_eq_l; eauto.
  - inversion Hs as [|m' s0 s1 s2 H1 H2]; subst. exists m. split; auto.
    destruct (diamond n s s1 s' HO H1 Hst) as [HE|(c & Hc1 & Hc2)].
    + eapply steps_eq_l; eauto.
    + destruct (IH s1 f c) as (m'' & -> & Hm); auto.
      * eapply step_owned; eauto.
      * econstructor; eauto.
Qed.

Theorem complete_unique n m s f : owned n s -> finished St Dt n f -> steps n m s f ->
  forall m' s', steps n m' s s' -> m' <= m /\ steps n (m - m') s' f.
Proof.
  intros HO Hf Hs m' s' H'. revert m HO Hs. induction H' as [s s' HE|m' s s1 s2 H1 _ IH]; intros m HO Hs.
  - split; [lia|]. rewrite Nat.sub_0_r. eapply steps_eq_l; eauto.
  - destruct (one_step_less n m s f s1 HO Hf Hs H1) as (m1 & -> & Hm1).
    destruct (IH m1) as [L R]; auto. { eapply step_owned; eauto. }
    split; [lia|]. exact R.
Qed.

(* an exception can never occur in a state from which the end can be reached *)
Lemma raises_stays n s s' r : owned n s -> r < n -> raises St Dt outs gtime cod rank s r -> step n s s' ->
  raises St Dt outs gtime cod rank s' r.
Proof.
  intros HO Hr (x & rest & e & Hp & Hx) Hs.
  destruct x as [c|c|a o|]; cbn [DistModel.exec] in Hx; try discriminate.
  { destruct (k_ch (fst s) c); discriminate. }
  destruct Hs as [r2 x2 rest2 k p k' s' Hr2 Hp2 E [HE HP]|k p p' s' Hn Hp2 Hp' HE']; cbn [fst snd] in *.
  - assert (N : r <> r2).
    { intros <-. rewrite Hp in Hp2. injection Hp2 as <- <-. cbn in E. congruence. }
    assert (O2 : own x2 = Some r2).
    { destruct (HO r2 x2 Hr2) as [->|]; auto; [cbn; rewrite Hp2; simpl; auto|]. rewrite exec_barrier in E. discriminate. }
    assert (O1 : rank o = Some r).
    { destruct (HO r (Do a o) Hr) as [|]; auto; [cbn; rewrite Hp; simpl; auto|discriminate]. }
    exists (Do a o), rest, e. split.
    { rewrite <- HP. rewrite pupd_other by auto. auto. }
    destruct (exec_frame _ _ _ E) as [F1 F2].
    assert (A1 : do_act St Dt outs gtime cod rank a o k' = Err e).
    { pose proof (do_act_fun a o k) as H1. pose proof (do_act_fun a o k') as H2.
      rewrite (dview_agree k' k o) in H2.
      - destruct (F1 o) as [S1 S2]; [left; congruence|congruence|]. rewrite S1, S2 in H2.
        destruct (act_fun _ _ _ _ _) as [[s b]|e']; [destruct H1 as (? & H1 & _); congruence|congruence].
      - intros c Hc. apply F2; [rewrite Hc|]; congruence.
      - intros q [Hq|Hq]; apply F1; try congruence; auto. left. congruence. }
    pose proof (exec_eq (Do a o) k' (fst s') HE) as HX. cbn [DistModel.exec] in HX. rewrite A1 in HX. cbn. exact HX.
  - exfalso. rewrite Hp2 in Hp by auto. discriminate.
Qed.

Lemma raises_steps n m s s' r : owned n s -> r < n -> raises St Dt outs gtime cod rank s r -> steps n m s s' ->
  ~ finished St Dt n s'.
Proof.
  intros HO Hr HR H. induction H as [s s' [HE HP]|m s s1 s2 Hs _ IH].
  - intros Hf. specialize (Hf r Hr). destruct HR as (x & rest & e & Hp & _). rewrite <- HP, Hp in Hf. discriminate.
  - apply IH; [eapply step_owned; eauto|]. eapply raises_stays; eauto.
Qed.
End Conf.
