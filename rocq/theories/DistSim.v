(* The distributed execution in the order of the single-process loop. *)
From Coq Require Import String List ZArith Bool PeanoNat Lia.
From Verif Require Import PyBase PyLemmas LoopModel LoopSpec LoopProofs DistModel DistSpec DistConf.
Import ListNotations.

(* ------------------------------------------------------------------ list lemmas *)
Lemma before_cross {A} (x y : A) l1 l2 : In x l1 -> In y l2 -> before x y (l1 ++ l2).
Proof.
  intros Hx Hy. apply in_split in Hx as (a & b & ->). apply in_split in Hy as (c & d & ->).
  exists a, (b ++ c), d. rewrite <- !app_assoc. reflexivity.
Qed.
Lemma before_app_l {A} (x y : A) l1 l2 : before x y l1 -> before x y (l1 ++ l2).
Proof.
  intros (a & b & c & ->). exists a, b, (c ++ l2). rewrite <- !app_assoc. cbn. rewrite <- !app_assoc. reflexivity.
Qed.
Lemma before_app_r {A} (x y : A) l1 l2 : before x y l2 -> before x y (l1 ++ l2).
Proof. intros (a & b & c & ->). exists (l1 ++ a), b, c. rewrite <- !app_assoc. reflexivity. Qed.
Lemma before_map {A B} (f : A -> B) x y l : before x y l -> before (f x) (f y) (map f l).
Proof.
  intros (a & b & c & ->). exists (map f a), (map f b), (map f c). rewrite map_app. cbn. rewrite map_app. reflexivity.
Qed.

(* x comes before y: if y has been reached, x has been passed *)
Lemma before_passed {A} (x y : A) L pre post : NoDup L -> before x y L -> L = pre ++ post -> In y pre -> In x pre.
Proof.
  intros Hn (a & b & c & E) EL Hy.
  destruct (in_split y pre Hy) as (p1 & p2 & ->). rewrite <- app_assoc in EL. cbn in EL.
  assert (Q : a ++ x :: b = p1).
  { rewrite E in EL, Hn. clear E Hy. change (a ++ x :: b ++ y :: c) with (a ++ (x :: b) ++ y :: c) in *.
    rewrite app_assoc in EL, Hn. set (m := a ++ x :: b) in *. clearbody m. clear - EL Hn.
    revert p1 EL. induction m as [|u m IH]; intros [|v p1] EL; auto; cbn in *.
    - injection EL as -> EL. exfalso. inversion Hn; subst. apply H1. apply in_app_iff. simpl. auto.
    - injection EL as -> EL. exfalso. inversion Hn; subst. apply H1. apply in_app_iff. simpl. auto.
    - injection EL as -> EL. f_equal. inversion Hn; subst. apply IH; auto. }
  rewrite <- Q. rewrite !in_app_iff. simpl. auto.
Qed.

Lemma before_next {A} (x y : A) L pre post : NoDup L -> before x y L -> L = pre ++ y :: post -> In x pre.
Proof.
  intros Hn Hb E.
  assert (H : In x (pre ++ [y])).
  { apply (before_passed x y L (pre ++ [y]) post); auto; [rewrite <- app_assoc; auto|apply in_app_iff; simpl; auto]. }
  apply in_app_iff in H as [H|[H|[]]]; auto. subst x.
  exfalso. destruct Hb as (a & b & c & EL). rewrite EL in Hn. clear - Hn.
  apply NoDup_remove_2 in Hn. apply Hn. rewrite !in_app_iff. simpl. auto.
Qed.

Lemma before_later {A} (x y : A) L pre post : NoDup L -> before x y L -> L = pre ++ x :: post -> ~ In y pre.
Proof.
  intros Hn Hb E Hy. pose proof (before_passed x y L pre (x :: post) Hn Hb E Hy) as Hx.
  rewrite E in Hn. apply NoDup_remove_2 in Hn. apply Hn, in_app_iff; auto.
Qed.

Lemma NoDup_app_intro {A} (l1 l2 : list A) : NoDup l1 -> NoDup l2 -> (forall x, In x l1 -> ~ In x l2) -> NoDup (l1 ++ l2).
Proof.
  intros H1 H2 H. induction l1 as [|x l1 IH]; cbn; auto. inversion H1; subst. constructor.
  - rewrite in_app_iff. intros [Hi|Hi]; auto. apply (H x); simpl; auto.
  - apply IH; auto. intros y Hy. apply H. simpl; auto.
Qed.
Lemma NoDup_flat_map {A B} (f : A -> list B) l : NoDup l -> (forall x, In x l -> NoDup (f x)) ->
  (forall x y b, In x l -> In y l -> In b (f x) -> In b (f y) -> x = y) -> NoDup (flat_map f l).
Proof.
  intros Hn H1 H2. induction l as [|x l IH]; cbn; [constructor|]. inversion Hn; subst. apply NoDup_app_intro.
  - apply H1; simpl; auto.
  - apply IH; auto; [intros; apply H1; simpl; auto|]. intros y z b Hy Hz. apply H2; simpl; auto.
  - intros b Hb Hb'. apply in_flat_map in Hb' as (y & Hy & Hb'). assert (x = y) by (apply (H2 x y b); simpl; auto). congruence.
Qed.
Lemma NoDup_map_inj {A B} (f : A -> B) l : (forall x y, f x = f y -> x = y) -> NoDup l -> NoDup (map f l).
Proof.
  intros Hi Hn. induction Hn as [|x l Hx _ IH]; cbn; constructor; auto.
  rewrite in_map_iff. intros (y & Hy & Hin). apply Hi in Hy. congruence.
Qed.
Lemma all_or_ex {A} (P Q : A -> Prop) l : (forall x, In x l -> P x \/ Q x) -> (forall x, In x l -> P x) \/ exists x, In x l /\ Q x.
Proof.
  induction l as [|a l IH]; intros H; [left; intros ? []|].
  destruct (H a) as [Ha|Ha]; [simpl; auto| |right; exists a; simpl; auto].
  destruct IH as [Hl|(x & Hx & Hq)]; [intros; apply H; simpl; auto| |right; exists x; simpl; auto].
  left. intros x [<-|Hx]; auto.
Qed.

Section Sim.
Variables St Dt : Type.
Variable outs : St -> option string -> list Dt.
Variable gtime : Dt -> option Z.
Variable cod : string -> code St Dt.
Variable rank : string -> option nat.
Variable n : nat.
Variable ord : order.
Variable st0 : string -> St.
Notation core := (core St Dt).
Notation exec := (exec St Dt outs gtime cod rank).
Notation dview := (dget_view St Dt outs rank).
Notation get_view := (get_view St Dt outs).
Notation set_st := (set_st St Dt).
Notation do_act := (do_act St Dt outs gtime cod rank).
Notation rconns := (rconns St Dt cod rank).
Notation sconns := (sconns St Dt cod rank).
Notation valid := (valid_conn St Dt cod rank ord).
Notation w_st := (w_st St).
Notation w_chg := (w_chg St).
Notation objs := (map fst ord).

Hypothesis Hnd : NoDup (map fst ord).
Hypothesis Hresp : respects St Dt cod ord.
Hypothesis Htame : tame St Dt outs cod ord.
Hypothesis Hplaced : placed rank n ord.
Hypothesis Hdist : distinct_inputs St Dt cod ord.
Hypothesis Hone : one_message St Dt outs cod rank ord st0.
Hypothesis Hquiet : quiet_setup St Dt outs cod rank ord.

Definition prod (c : conn) : string := s_obj (cn_src c).
Definition ovals (w : string -> St) (c : conn) : list Dt := outs (w (prod c)) (s_key (cn_src c)).

(* executing operations one after the other; barriers have no effect *)
Fixpoint grun (l : list op) (k : core) : option (res core) :=
  match l with
  | [] => Some (Ok k)
  | Barrier :: r => grun r k
  | x :: r => match exec x k with Some (Ok k') => grun r k' | e => e end
  end.

Lemma grun_app l1 l2 k k1 : grun l1 k = Some (Ok k1) -> grun (l1 ++ l2) k = grun l2 k1.
Proof.
  revert k. induction l1 as [|x l IH]; cbn [grun app]; intros k H; [congruence|].
  destruct x; try (destruct (exec _ k) as [[k'|]|]; try discriminate); auto.
Qed.

(* ------------------------------------------------------------------- connections *)
Lemma in_rconns o c : In c (rconns o) <->
  cn_dst c = o /\ exists i, In i (c_inputs St Dt (cod o)) /\ i_name i = cn_in c /\ In (cn_src c) (i_src i) /\ remote rank o (cn_src c) = true.
Proof.
  unfold DistModel.rconns. rewrite in_flat_map. split.
  - intros (i & Hi & Hc). apply in_map_iff in Hc as (s & <- & Hs). apply filter_In in Hs as [H1 H2]. cbn. split; auto. exists i; auto.
  - intros (<- & i & Hi & Hn & Hs & Hr). exists i. split; auto. apply in_map_iff. exists (cn_src c). split.
    + destruct c; cbn in *. congruence.
    + apply filter_In; auto.
Qed.

Lemma remote_iff o s : remote rank o s = true <-> exists r, rank (s_obj s) = Some r /\ rank o <> Some r.
Proof.
  unfold remote. destruct (rank (s_obj s)) as [r|].
  - rewrite negb_true_iff. split.
    + intros H. exists r. split; auto. intros E. rewrite E in H. cbn in H. rewrite Nat.eqb_refl in H. discriminate.
    + intros (r' & E & H). injection E as <-. destruct (rank o) as [r2|]; cbn; auto.
      apply Nat.eqb_neq. congruence.
  - split; [discriminate|]. intros (r & E & _). discriminate.
Qed.

Lemma valid_rconns c : valid c <-> In (cn_dst c) objs /\ In c (rconns (cn_dst c)).
Proof.
  unfold valid_conn. rewrite in_rconns. split.
  - intros (H1 & i & Hi & Hn & Hs & Hr). split; auto. split; auto. exists i. rewrite remote_iff. auto.
  - intros (H1 & _ & i & Hi & Hn & Hs & Hr). apply remote_iff in Hr. split; auto. exists i. auto.
Qed.

Lemma valid_has_src c : valid c -> has_src St Dt cod (cn_dst c) (cn_src c).
Proof. intros (_ & i & Hi & _ & Hs & _). exists i; auto. Qed.

Lemma valid_prod c : valid c -> In (prod c) objs.
Proof.
  intros (Hd & i & _ & _ & _ & r & Hr & _). apply (proj1 Hplaced). unfold prod. congruence.
Qed.

Lemma in_index o : In o objs -> exists j, In (o, j) ord.
Proof. intros H. apply in_map_iff in H as ([o' j] & <- & H). exists j; auto. Qed.

Lemma index_in o j : In (o, j) ord -> In o objs.
Proof. intros H. change o with (fst (o, j)). apply in_map; auto. Qed.

Lemma valid_of o c : In o objs -> In c (rconns o) -> valid c /\ cn_dst c = o.
Proof. intros Ho Hc. assert (cn_dst c = o) by (apply in_rconns in Hc; tauto). split; auto. apply valid_rconns. subst o; auto. Qed.

Lemma rconns_nodup o : In o objs -> NoDup (rconns o).
Proof.
  intros Ho. destruct (Hdist o Ho) as [H1 H2]. unfold DistModel.rconns. apply NoDup_flat_map.
  - clear - H1. induction (c_inputs St Dt (cod o)) as [|i l IH]; [constructor|]. cbn in H1. inversion H1; subst.
    constructor; auto. intros Hi. apply H2. apply in_map; auto.
  - intros i Hi. apply NoDup_map_inj; [congruence|]. apply NoDup_filter; auto.
  - intros i i' c Hi Hi' Hc Hc'. apply in_map_iff in Hc as (s & <- & _). apply in_map_iff in Hc' as (s' & E & _).
    injection E as En _. clear - H1 Hi Hi' En. induction (c_inputs St Dt (cod o)) as [|a l IH]; [destruct Hi|]. cbn in *.
    inversion H1; subst. destruct Hi as [<-|Hi], Hi' as [<-|Hi']; auto.
    + exfalso. apply H2. rewrite <- En. apply in_map; auto.
    + exfalso. apply H2. rewrite En. apply in_map; auto.
Qed.

Lemma in_sconns p c : In c (sconns objs p) <-> valid c /\ prod c = p.
Proof.
  unfold DistModel.sconns. rewrite filter_In, in_flat_map, String.eqb_eq. unfold prod. split.
  - intros [(o & Ho & Hc) E]. destruct (valid_of o c Ho Hc). auto.
  - intros [Hv E]. split; auto. apply valid_rconns in Hv as [H1 H2]. eauto.
Qed.

Lemma sconns_nodup p : NoDup (sconns objs p).
Proof.
  apply NoDup_filter. apply NoDup_flat_map; auto.
  - intros o Ho. apply rconns_nodup; auto.
  - intros o o' c _ _ Hc Hc'. apply in_rconns in Hc as [<- _]. apply in_rconns in Hc' as [<- _]. reflexivity.
Qed.

(* indexes of the two ends of a connection *)
Lemma conn_order c j k : valid c -> In (cn_dst c, j) ord -> In (prod c, k) ord ->
  if delayed c then (j <= k)%nat /\ before (cn_dst c, j) (prod c, k) ord else (k < j)%nat.
Proof.
  intros Hv Hj Hk. destruct (Hresp (cn_dst c) j (cn_src c) k Hj (valid_has_src c Hv) Hk) as [H1 H2].
  unfold delayed. destruct (s_delay (cn_src c) <? 0)%Z eqn:E.
  - apply Z.ltb_lt in E. auto.
  - apply Z.ltb_ge in E. auto.
Qed.

Lemma conn_neq c : valid c -> prod c <> cn_dst c.
Proof.
  intros (_ & i & _ & _ & _ & r & Hr & Hr') E. unfold prod in E. congruence.
Qed.

(* -------------------------------------------------- several receives, several sends *)
Lemma grun_pops l : NoDup l -> forall k, (forall c, In c l -> exists d, k_ch k c = [d]) ->
  exists k', grun (map Pop l) k = Some (Ok k') /\
    (forall o, k_st k' o = k_st k o) /\ (forall o, k_chg k' o = k_chg k o) /\
    (forall c, In c l -> k_box k' c = k_ch k c /\ k_ch k' c = []) /\
    (forall c, ~ In c l -> k_box k' c = k_box k c /\ k_ch k' c = k_ch k c).
Proof.
  induction l as [|c0 l IH]; intros Hn k H.
  - exists k. cbn. split; auto. split; auto. split; auto. split; [intros c []|auto].
  - inversion Hn as [|? ? Hc0 Hn']; subst. destruct (H c0) as (d & Hd); [simpl; auto|].
    cbn [map grun DistModel.exec]. rewrite Hd.
    destruct (IH Hn' (mkCore (k_st k) (k_chg k) (cupd (k_box k) c0 [d]) (cupd (k_ch k) c0 []))) as (k' & E & S1 & S2 & S3 & S4).
    { intros c Hc. cbn. rewrite cupd_other by congruence. apply H. simpl; auto. }
    exists k'. rewrite E. split; auto. split; [auto|]. split; [auto|]. split.
    + intros c [<-|Hc].
      * destruct (S4 c0 Hc0) as [-> ->]. cbn. rewrite !cupd_same. auto.
      * destruct (S3 c Hc) as [-> ->]. cbn. rewrite cupd_other by congruence. auto.
    + intros c Hc. destruct (S4 c) as [-> ->]; [simpl in Hc; tauto|]. cbn. rewrite !cupd_other by (simpl in Hc; tauto). auto.
Qed.

Lemma grun_pushes l : NoDup l -> forall k,
  exists k', grun (map Push l) k = Some (Ok k') /\
    (forall o, k_st k' o = k_st k o) /\ (forall o, k_chg k' o = k_chg k o) /\ (forall c, k_box k' c = k_box k c) /\
    (forall c, In c l -> k_ch k' c = k_ch k c ++ ovals (k_st k) c) /\
    (forall c, ~ In c l -> k_ch k' c = k_ch k c).
Proof.
  induction l as [|c0 l IH]; intros Hn k.
  - exists k. cbn. split; auto. split; auto. split; auto. split; auto. split; [intros c []|auto].
  - inversion Hn as [|? ? Hc0 Hn']; subst.
    cbn [map grun DistModel.exec].
    destruct (IH Hn' (mkCore (k_st k) (k_chg k) (k_box k) (cupd (k_ch k) c0 (k_ch k c0 ++ ovals (k_st k) c0)))) as (k' & E & S1 & S2 & S3 & S4 & S5).
    exists k'. unfold ovals, prod in E. rewrite E. split; auto. split; [auto|]. split; [auto|]. split; [auto|]. split.
    + intros c [<-|Hc].
      * rewrite S5 by auto. cbn. rewrite cupd_same. auto.
      * rewrite S4 by auto. cbn. rewrite cupd_other by congruence. auto.
    + intros c Hc. rewrite S5; [|simpl in Hc; tauto]. cbn. rewrite cupd_other by (simpl in Hc; tauto). auto.
Qed.

(* ------------------------------------------------------------------------- views *)
Lemma dview_eq k (w : string -> St) o :
  (forall q, k_st k q = w q) -> (forall c, In c (rconns o) -> k_box k c = ovals w c) ->
  dview k o (c_inputs St Dt (cod o)) = get_view w (c_inputs St Dt (cod o)).
Proof.
  intros Hs Hb. unfold dget_view, LoopModel.get_view.
  assert (Hc : forall i s, In i (c_inputs St Dt (cod o)) -> In s (i_src i) -> remote rank o s = true ->
                 k_box k (mkConn o (i_name i) s) = outs (w (s_obj s)) (s_key s)).
  { intros i s Hi Hsr Hr. rewrite Hb; auto. apply in_rconns. cbn. split; auto. exists i; auto. }
  clear Hb. induction (c_inputs St Dt (cod o)) as [|i l IH]; auto. cbn [map_res].
  rewrite IH by (intros; apply Hc; simpl; auto).
  replace (dget_input St Dt outs rank k o i) with (get_input St Dt outs w i); auto.
  unfold dget_input, get_input.
  replace (flat_map (fun s => if remote rank o s then k_box k (mkConn o (i_name i) s) else outs (k_st k (s_obj s)) (s_key s)) (i_src i))
     with (flat_map (fun s => outs (w (s_obj s)) (s_key s)) (i_src i)); auto.
  assert (Hc' : forall s, In s (i_src i) -> remote rank o s = true -> k_box k (mkConn o (i_name i) s) = outs (w (s_obj s)) (s_key s)).
  { intros s Hs1 Hr. apply Hc; simpl; auto. }
  clear - Hc' Hs. induction (i_src i) as [|s l IH]; auto. cbn [flat_map]. rewrite IH by (intros; apply Hc'; simpl; auto).
  f_equal. destruct (remote rank o s) eqn:E; [rewrite Hc'; simpl; auto|rewrite Hs; auto].
Qed.

(* the number of objects found decides whether the inputs can be read *)
Lemma dview_len k (w : string -> St) o v :
  (forall q, k_st k q = w q) -> (forall c, In c (rconns o) -> length (k_box k c) = length (ovals w c)) ->
  get_view w (c_inputs St Dt (cod o)) = Ok v -> exists v', dview k o (c_inputs St Dt (cod o)) = Ok v'.
Proof.
  intros Hs Hb. unfold dget_view, LoopModel.get_view.
  assert (Hc : forall i s, In i (c_inputs St Dt (cod o)) -> In s (i_src i) -> remote rank o s = true ->
                 length (k_box k (mkConn o (i_name i) s)) = length (outs (w (s_obj s)) (s_key s))).
  { intros i s Hi Hsr Hr. rewrite Hb; auto. apply in_rconns. cbn. split; auto. exists i; auto. }
  clear Hb. revert v. induction (c_inputs St Dt (cod o)) as [|i l IH]; cbn [map_res]; intros v H; [eauto|].
  destruct (get_input St Dt outs w i) as [a|] eqn:Ea; [|discriminate]. cbn [bind] in H.
  destruct (map_res _ l) as [v0|] eqn:Ev; [|discriminate].
  assert (Hc' : forall s, In s (i_src i) -> remote rank o s = true -> length (k_box k (mkConn o (i_name i) s)) = length (outs (w (s_obj s)) (s_key s))).
  { intros s Hs1 Hr. apply Hc; simpl; auto. }
  destruct (IH (fun i0 s H0 => Hc i0 s (or_intror H0)) v0 eq_refl) as (v' & Ev').
  assert (G : exists a', dget_input St Dt outs rank k o i = Ok a').
  { unfold dget_input. unfold get_input in Ea.
    assert (L : length (flat_map (fun s => if remote rank o s then k_box k (mkConn o (i_name i) s) else outs (k_st k (s_obj s)) (s_key s)) (i_src i))
              = length (flat_map (fun s => outs (w (s_obj s)) (s_key s)) (i_src i))).
    { clear - Hc' Hs. induction (i_src i) as [|s l IH]; auto. cbn [flat_map]. rewrite !app_length.
      rewrite IH by (intros; apply Hc'; simpl; auto). f_equal.
      destruct (remote rank o s) eqn:E; [rewrite Hc'; simpl; auto|rewrite Hs; auto]. }
    destruct (i_list i); [eauto|].
    revert L Ea. generalize (flat_map (fun s => outs (w (s_obj s)) (s_key s)) (i_src i)).
    generalize (flat_map (fun s => if remote rank o s then k_box k (mkConn o (i_name i) s) else outs (k_st k (s_obj s)) (s_key s)) (i_src i)).
    intros [|d1 [|d2 l1]] [|e1 [|e2 l2]] L Ea; cbn in L; try discriminate; eauto. }
  destruct G as (a' & ->). cbn [bind]. rewrite Ev'. cbn. eauto.
Qed.
(* ------------------------------------------------------------- acts of an iteration *)
Inductive ph := PC | PT | PP.
Definition ph_dec (a b : ph * string) : {a = b} + {a <> b}.
Proof. decide equality; [apply string_dec|decide equality]. Defined.

Definition acts (gs : list (list string)) : list (ph * string) :=
  flat_map (fun g => map (pair PC) g ++ map (pair PT) g ++ map (pair PP) g) gs.

Definition ops (t : Z) (last : bool) (a : ph * string) : list op :=
  match a with
  | (PC, o) => map Pop (rconns o) ++ [Do (ACheck t) o]
  | (PT, o) => [Do (ATrig t) o]
  | (PP, o) => Do (APost t) o :: map Push (filter (fun c => negb (delayed c && last)) (sconns objs o))
  end.

Definition one (t : Z) (w : world St) (a : ph * string) : res (world St) :=
  match a with
  | (PC, o) => check_one St Dt outs gtime cod t w o
  | (PT, o) => trig_one St Dt outs cod t w o
  | (PP, o) => post_one St Dt outs cod t w o
  end.

Lemma flat_map_map {A B C} (f : B -> list C) (g : A -> B) l : flat_map f (map g l) = flat_map (fun x => f (g x)) l.
Proof. induction l; cbn; congruence. Qed.

Lemma flat_map_sing {A B} (f : A -> B) l : flat_map (fun x => [f x]) l = map f l.
Proof. induction l; cbn; congruence. Qed.

Lemma iter_ops_acts gs t last : iter_ops St Dt cod rank objs gs (t, last) = flat_map (ops t last) (acts gs).
Proof.
  unfold iter_ops, acts. cbn [fst snd]. induction gs as [|g gs IH]; cbn [flat_map]; auto.
  rewrite IH, !flat_map_app, !flat_map_map. unfold group_ops. cbn [ops]. rewrite flat_map_sing, <- !app_assoc. reflexivity.
Qed.

Lemma fold_res_map {A B S} (f : S -> B -> res S) (g : A -> B) l s :
  fold_res f s (map g l) = fold_res (fun s x => f s (g x)) s l.
Proof. revert s; induction l; cbn; intros s; auto. destruct (f s (g a)); cbn; auto. Qed.

Lemma iter_step_acts t w : iter_step St Dt outs gtime cod ord t w = fold_res (one t) w (acts (groups ord)).
Proof.
  unfold iter_step, acts. generalize (groups ord). intros gs. revert w. induction gs as [|g gs IH]; intros w; auto.
  cbn [flat_map fold_res]. rewrite fold_res_app.
  assert (Hg : fold_res (one t) w (map (pair PC) g ++ map (pair PT) g ++ map (pair PP) g) = group_step St Dt outs gtime cod t w g).
  { unfold group_step. rewrite fold_res_app, fold_res_map. cbn [one].
    change (fold_res (fun s x => check_one St Dt outs gtime cod t s x) w g) with (fold_res (check_one St Dt outs gtime cod t) w g).
    destruct (fold_res (check_one St Dt outs gtime cod t) w g) as [w1|]; cbn [bind]; auto.
    rewrite fold_res_app, fold_res_map. cbn [one].
    change (fold_res (fun s x => trig_one St Dt outs cod t s x) w1 g) with (fold_res (trig_one St Dt outs cod t) w1 g).
    destruct (fold_res (trig_one St Dt outs cod t) w1 g) as [w2|]; cbn [bind]; auto.
    rewrite fold_res_map. reflexivity. }
  rewrite Hg. destruct (group_step St Dt outs gtime cod t w g); cbn [bind]; auto.
Qed.

Lemma in_acts gs a o : In (a, o) (acts gs) <-> In o (concat gs).
Proof.
  unfold acts. rewrite in_flat_map, in_concat. split; intros (g & Hg & H); exists g; split; auto.
  - rewrite !in_app_iff, !in_map_iff in H. destruct H as [(x & E & Hx)|[(x & E & Hx)|(x & E & Hx)]]; injection E as _ ->; auto.
  - rewrite !in_app_iff, !in_map_iff. destruct a; eauto 6.
Qed.

Lemma acts_app g1 g2 : acts (g1 ++ g2) = acts g1 ++ acts g2.
Proof. apply flat_map_app. Qed.

Lemma acts_nodup gs : NoDup (concat gs) -> NoDup (acts gs).
Proof.
  induction gs as [|g gs IH]; cbn [concat]; intros H; [constructor|].
  change (acts (g :: gs)) with ((map (pair PC) g ++ map (pair PT) g ++ map (pair PP) g) ++ acts gs).
  assert (H1 : NoDup g) by (clear - H; induction g; cbn in *; [constructor|inversion H; subst; constructor; auto; intros Hi; apply H2, in_app_iff; auto]).
  assert (H2 : NoDup (concat gs)) by (clear - H; induction g; cbn in *; auto; inversion H; auto).
  assert (H3 : forall o, In o g -> ~ In o (concat gs)).
  { clear - H. induction g as [|x g IH]; cbn in *; [tauto|]. inversion H; subst. intros o [<-|Ho] Hi; [apply H2, in_app_iff; auto|].
    apply (IH H3 o); auto. }
  apply NoDup_app_intro; auto.
  - apply NoDup_app_intro; [apply NoDup_map_inj; auto; congruence| |].
    + apply NoDup_app_intro; [apply NoDup_map_inj; auto; congruence|apply NoDup_map_inj; auto; congruence|].
      intros x Hx Hy. apply in_map_iff in Hx as (y & <- & _). apply in_map_iff in Hy as (z & E & _). discriminate.
    + intros x Hx Hy. apply in_map_iff in Hx as (y & <- & _). apply in_app_iff in Hy as [Hy|Hy]; apply in_map_iff in Hy as (z & E & _); discriminate.
  - intros [a o] Ho Ho'. apply in_acts in Ho'. apply (H3 o); auto.
    rewrite !in_app_iff, !in_map_iff in Ho. destruct Ho as [(x & E & Hx)|[(x & E & Hx)|(x & E & Hx)]]; injection E as _ ->; auto.
Qed.

Notation L := (acts (groups ord)).

Lemma L_nodup : NoDup L.
Proof. apply acts_nodup. apply (concat_groups_nodup St Dt cod). auto. Qed.

Lemma in_groups o : In o (concat (groups ord)) <-> In o objs.
Proof.
  unfold groups. rewrite in_concat_groups. split.
  - intros (i & _ & Hi). eapply index_in; eauto.
  - intros Ho. destruct (in_index o Ho) as (j & Hj). exists j. split; auto. pose proof (index_le_max ord o j Hj). lia.
Qed.

Lemma L_lt a b p o i j : In (p, i) ord -> In (o, j) ord -> (i < j)%nat -> before (a, p) (b, o) L.
Proof.
  intros Hp Ho Hij. rewrite (groups_split ord j) by (eapply index_le_max; eauto). rewrite acts_app. apply before_cross.
  - apply in_acts. apply in_concat_groups. exists i. split; auto. lia.
  - apply in_acts. cbn [concat]. apply in_app_iff. left. apply in_group. auto.
Qed.

Lemma L_block m x y j : (j <= list_max (map snd ord))%nat -> m = group ord j ->
  before x y (map (pair PC) m ++ map (pair PT) m ++ map (pair PP) m) -> before x y L.
Proof.
  intros Hj -> H. rewrite (groups_split ord j) by auto. rewrite acts_app. apply before_app_r.
  change (acts (group ord j :: map (group ord) (seq (S j) (list_max (map snd ord) - j)))) with
    ((map (pair PC) (group ord j) ++ map (pair PT) (group ord j) ++ map (pair PP) (group ord j)) ++ acts (map (group ord) (seq (S j) (list_max (map snd ord) - j)))).
  apply before_app_l. auto.
Qed.

Lemma in_pair (a : ph) o j : In (o, j) ord -> In (a, o) (map (pair a) (group ord j)).
Proof. intros H. apply in_map. apply in_group. auto. Qed.

Lemma L_CT o p j : In (o, j) ord -> In (p, j) ord -> before (PC, o) (PT, p) L.
Proof.
  intros Ho Hp. eapply L_block; [eapply index_le_max; eauto|reflexivity|].
  apply before_cross; [apply in_pair; auto|]. apply in_app_iff. left. apply in_pair; auto.
Qed.
Lemma L_CP o p j : In (o, j) ord -> In (p, j) ord -> before (PC, o) (PP, p) L.
Proof.
  intros Ho Hp. eapply L_block; [eapply index_le_max; eauto|reflexivity|].
  apply before_cross; [apply in_pair; auto|]. apply in_app_iff. right. apply in_pair; auto.
Qed.
Lemma L_TP o p j : In (o, j) ord -> In (p, j) ord -> before (PT, o) (PP, p) L.
Proof.
  intros Ho Hp. eapply L_block; [eapply index_le_max; eauto|reflexivity|].
  apply before_app_r. apply before_cross; apply in_pair; auto.
Qed.
Lemma L_same a o p j : before (o, j) (p, j) ord -> In (o, j) ord -> before (a, o) (a, p) L.
Proof.
  intros Hb Ho. eapply L_block; [eapply index_le_max; eauto|reflexivity|].
  apply before_group in Hb; auto. destruct a.
  - apply before_app_l. apply before_map. auto.
  - apply before_app_r, before_app_l. apply before_map. auto.
  - apply before_app_r, before_app_r. apply before_map. auto.
Qed.

(* consequences for connections *)
Lemma L_und c a : valid c -> delayed c = false -> before (a, prod c) (PC, cn_dst c) L.
Proof.
  intros Hv Hd. destruct (in_index _ (valid_prod c Hv)) as (k & Hk). destruct (in_index (cn_dst c)) as (j & Hj); [apply Hv|].
  pose proof (conn_order c j k Hv Hj Hk) as H. rewrite Hd in H. eapply L_lt; eauto.
Qed.

Lemma L_del_post c : valid c -> delayed c = true -> before (PC, cn_dst c) (PP, prod c) L.
Proof.
  intros Hv Hd. destruct (in_index _ (valid_prod c Hv)) as (k & Hk). destruct (in_index (cn_dst c)) as (j & Hj); [apply Hv|].
  pose proof (conn_order c j k Hv Hj Hk) as H. rewrite Hd in H. destruct H as [H _].
  destruct (Nat.eq_dec j k) as [->|]; [eapply L_CP; eauto|]. eapply L_lt; eauto. lia.
Qed.

(* delayed connections: either the producer comes in a later list, or both are tame and
   the reader is triggered first *)
Lemma L_del c : valid c -> delayed c = true ->
  (forall a b, before (a, cn_dst c) (b, prod c) L) \/
  (before (PC, cn_dst c) (PT, prod c) L /\ before (PT, cn_dst c) (PT, prod c) L /\
   (forall t v v' x, c_post St Dt (cod (cn_dst c)) t v x = c_post St Dt (cod (cn_dst c)) t v' x) /\
   (forall t v x x' k, c_prep St Dt (cod (prod c)) t v x = Ok x' -> outs x' k = outs x k)).
Proof.
  intros Hv Hd. destruct (in_index _ (valid_prod c Hv)) as (k & Hk). destruct (in_index (cn_dst c)) as (j & Hj); [apply Hv|].
  pose proof (conn_order c j k Hv Hj Hk) as H. rewrite Hd in H. destruct H as [H Hb].
  destruct (Nat.eq_dec j k) as [->|N].
  - right. split; [eapply L_CT; eauto|]. split; [eapply L_same; eauto|].
    apply (Htame (cn_dst c) k (cn_src c)); auto; [apply valid_has_src; auto|]. unfold delayed in Hd. apply Z.ltb_lt; auto.
  - left. intros a b. eapply L_lt; eauto. lia.
Qed.

(* -------------------------------------------------------------- channels in an iteration *)
Definition mem (a : ph * string) (pre : list (ph * string)) : bool := if in_dec ph_dec a pre then true else false.
Lemma mem_in a pre : mem a pre = true <-> In a pre.
Proof. unfold mem. destruct (in_dec ph_dec a pre); split; auto; discriminate. Qed.
Lemma mem_out a pre : mem a pre = false <-> ~ In a pre.
Proof. unfold mem. destruct (in_dec ph_dec a pre); split; auto; [discriminate|tauto]. Qed.
Lemma mem_snoc a b pre : a <> b -> mem a (pre ++ [b]) = mem a pre.
Proof.
  intros N. destruct (mem a pre) eqn:E.
  - apply mem_in. apply mem_in in E. apply in_app_iff; auto.
  - apply mem_out. apply mem_out in E. rewrite in_app_iff. simpl. intros [H|[H|[]]]; congruence.
Qed.
Lemma mem_last a pre : mem a (pre ++ [a]) = true.
Proof. apply mem_in, in_app_iff. simpl; auto. Qed.

Section Iter.
Variable w0 : string -> St.
Variable t : Z.
Variable last : bool.

(* content of the channels and copies when the acts [pre] have been carried out and the
   producers are in states [W] *)
Definition chans (pre : list (ph * string)) (W : string -> St) (k : core) : Prop :=
  (forall c, ~ valid c -> k_ch k c = []) /\
  (forall c, valid c -> delayed c = false ->
     k_ch k c = (if mem (PP, prod c) pre && negb (mem (PC, cn_dst c) pre) then ovals W c else []) /\
     (mem (PC, cn_dst c) pre = true -> k_box k c = ovals W c)) /\
  (forall c, valid c -> delayed c = true ->
     k_ch k c = (if mem (PC, cn_dst c) pre then if mem (PP, prod c) pre && negb last then ovals W c else [] else ovals w0 c) /\
     (mem (PC, cn_dst c) pre = true -> k_box k c = ovals w0 c)).

Lemma chans_ext pre W W' k : (exists post, L = pre ++ post) ->
  (forall p, mem (PP, p) pre = true -> W' p = W p) -> chans pre W k -> chans pre W' k.
Proof.
  intros (post & EL) HW (C1 & C2 & C3). split; [auto|]. split.
  - intros c Hv Hd. destruct (C2 c Hv Hd) as [A B]. split.
    + rewrite A. destruct (mem (PP, prod c) pre) eqn:E; cbn; auto. unfold ovals. rewrite HW; auto.
    + intros Hc. rewrite (B Hc). unfold ovals. rewrite HW; auto. apply mem_in. apply mem_in in Hc.
      apply (before_passed (PP, prod c) (PC, cn_dst c) L pre post L_nodup); auto. apply L_und; auto.
  - intros c Hv Hd. destruct (C3 c Hv Hd) as [A B]. split; [|exact B].
    rewrite A. destruct (mem (PC, cn_dst c) pre); auto. destruct (mem (PP, prod c) pre) eqn:E; cbn; auto.
    unfold ovals. rewrite HW; auto.
Qed.

Lemma chans_core pre W k k' : (forall c, k_box k' c = k_box k c) -> (forall c, k_ch k' c = k_ch k c) ->
  chans pre W k -> chans pre W k'.
Proof.
  intros Hb Hc (C1 & C2 & C3). split; [intros; rewrite Hc; auto|]. split.
  - intros c Hv Hd. rewrite Hb, Hc. auto.
  - intros c Hv Hd. rewrite Hb, Hc. auto.
Qed.

Record Inv (pre : list (ph * string)) (w : world St) (k : core) : Prop := mkInv {
  i_st : forall o, k_st k o = w_st w o;
  i_chg : forall o, k_chg k o = w_chg w o;
  i_chk : forall q, ~ In (PC, q) pre -> w_st w q = w0 q;
  i_trg : forall q, ~ In (PT, q) pre -> ~ In (PP, q) pre ->
          (forall t v x x' key, c_prep St Dt (cod q) t v x = Ok x' -> outs x' key = outs x key) ->
          forall key, outs (w_st w q) key = outs (w0 q) key;
  i_one : forall c, valid c -> length (ovals (w_st w) c) = 1;
  i_one0 : forall c, valid c -> length (ovals w0 c) = 1;
  i_chans : chans pre (w_st w) k
}.

(* the state of [o] is replaced by the result of one of its methods *)
Lemma one_update w o s x : (forall c, valid c -> length (ovals w c) = 1) ->
  (exists f v, (f = c_prep St Dt (cod o) \/ f = c_trig St Dt (cod o) \/ f = c_post St Dt (cod o)) /\ f t v (w o) = Ok s) \/ s = w o ->
  x = fupd w o s -> forall c, valid c -> length (ovals x c) = 1.
Proof.
  intros H1 Hs -> c Hv. unfold ovals, fupd. destruct (String.eqb_spec o (prod c)) as [E|]; [|apply H1; auto].
  specialize (H1 c Hv). unfold ovals in H1. rewrite <- E in H1.
  destruct Hs as [(f & v & Hf & Hs)| ->]; auto.
  destruct (Hone c Hv) as (_ & _ & H3). unfold prod in E. rewrite E in Hf.
  apply (H3 f Hf t v _ _ Hs). auto.
Qed.

Lemma sing {A} (l : list A) : length l = 1 -> exists d, l = [d].
Proof. destruct l as [|d [|]]; try discriminate. eauto. Qed.

(* what a ready object reads *)
Lemma step_check pre o post w w' k : L = pre ++ (PC, o) :: post -> Inv pre w k ->
  one t w (PC, o) = Ok w' -> exists k', grun (ops t last (PC, o)) k = Some (Ok k') /\ Inv (pre ++ [(PC, o)]) w' k'.
Proof.
  intros EL I Hw. pose proof L_nodup as HN.
  assert (Ho : In o objs). { apply in_groups. apply (in_acts _ PC). rewrite EL. apply in_app_iff. simpl; auto. }
  assert (Hout : ~ In (PC, o) pre). { rewrite EL in HN. apply NoDup_remove_2 in HN. intros H; apply HN, in_app_iff; auto. }
  assert (HPPo : ~ In (PP, o) pre).
  { destruct (in_index o Ho) as (j & Hj). eapply before_later; [exact HN|apply (L_CP o o j); auto|exact EL]. }
  destruct I as [I1 I2 I3 I4 I5 I6 (C1 & C2 & C3)].
  assert (Hch : forall c, In c (rconns o) -> k_ch k c = ovals (w_st w) c).
  { intros c Hc. destruct (valid_of o c Ho Hc) as [Hv Hdst]. destruct (delayed c) eqn:Hd.
    - destruct (C3 c Hv Hd) as [-> _]. rewrite Hdst, (proj2 (mem_out (PC, o) pre) Hout).
      unfold ovals. destruct (L_del c Hv Hd) as [Hb|(Hb & _ & _ & Hp)].
      + rewrite I3; auto. specialize (Hb PC PC). rewrite Hdst in Hb. eapply before_later; [exact HN|exact Hb|exact EL].
      + rewrite Hdst in Hb. symmetry. apply I4; auto; [eapply before_later; [exact HN|exact Hb|exact EL]|].
        pose proof (L_del_post c Hv Hd) as Hb2. rewrite Hdst in Hb2. eapply before_later; [exact HN|exact Hb2|exact EL].
    - destruct (C2 c Hv Hd) as [-> _]. rewrite Hdst, (proj2 (mem_out (PC, o) pre) Hout).
      assert (Hpp : mem (PP, prod c) pre = true).
      { apply mem_in. pose proof (L_und c PP Hv Hd) as Hb. rewrite Hdst in Hb. eapply before_next; eauto. }
      rewrite Hpp. reflexivity. }
  destruct (grun_pops (rconns o) (rconns_nodup o Ho) k) as (k1 & E1 & S1 & S2 & S3 & S4).
  { intros c Hc. rewrite Hch by auto. apply sing. apply I5. apply valid_of with o; auto. }
  (* the copies are up to date *)
  assert (C1' : chans (pre ++ [(PC, o)]) (w_st w) k1).
  { split; [|split].
    - intros c Hc. destruct (S4 c) as [_ ->]; auto. intros Hi. apply Hc. apply (valid_of o c Ho Hi).
    - intros c Hv Hd. destruct (C2 c Hv Hd) as [A B]. rewrite (mem_snoc (PP, prod c)) by discriminate.
      destruct (string_dec (cn_dst c) o) as [E|N].
      + assert (Hin : In c (rconns o)) by (rewrite <- E; apply valid_rconns; auto).
        destruct (S3 c Hin) as [-> ->]. rewrite E, mem_last, andb_false_r. auto.
      + destruct (S4 c) as [-> ->]. { intros Hi. apply N. apply in_rconns in Hi. tauto. }
        rewrite mem_snoc by congruence. auto.
    - intros c Hv Hd. destruct (C3 c Hv Hd) as [A B]. rewrite (mem_snoc (PP, prod c)) by discriminate.
      destruct (string_dec (cn_dst c) o) as [E|N].
      + assert (Hin : In c (rconns o)) by (rewrite <- E; apply valid_rconns; auto).
        destruct (S3 c Hin) as [-> ->]. rewrite E, mem_last. rewrite E in A.
        pose proof (proj2 (mem_out (PC, o) pre) Hout) as Hm. rewrite Hm in A. split; auto.
        pose proof (L_del_post c Hv Hd) as Hb. rewrite E in Hb.
        assert (Hp : mem (PP, prod c) pre = false). { apply mem_out. eapply before_later; [exact HN|exact Hb|exact EL]. }
        rewrite Hp. reflexivity.
      + destruct (S4 c) as [-> ->]. { intros Hi. apply N. apply in_rconns in Hi. tauto. }
        rewrite mem_snoc by congruence. auto. }
  assert (Hview : dview k1 o (c_inputs St Dt (cod o)) = get_view (w_st w) (c_inputs St Dt (cod o))).
  { apply dview_eq; [intros q; rewrite S1; auto|]. intros c Hc. destruct (S3 c Hc) as [-> _]. auto. }
  cbn [one] in Hw. apply check_one_inv in Hw as (v & s & b & Hv & Hb & Hs & ->).
  exists (set_st k1 o s b). split.
  { cbn [ops]. rewrite (grun_app _ _ _ _ E1). cbn [grun DistModel.exec DistModel.do_act]. rewrite Hview, Hv. cbn [bind]. rewrite S1, I1, <- Hb.
    destruct b; rewrite Hs; cbn [bind]; auto. }
  assert (Hst : forall q, q <> o -> fupd (w_st w) o s q = w_st w q) by (intros; apply fupd_other; auto).
  constructor; cbn.
  - intros q. unfold fupd. destruct (String.eqb o q); auto. rewrite S1; auto.
  - intros q. unfold fupd. destruct (String.eqb o q); auto. rewrite S2; auto.
  - intros q Hq. rewrite in_app_iff in Hq. simpl in Hq. rewrite Hst; [apply I3; tauto|intros ->; tauto].
  - intros q Hq1 Hq2 Hp key. rewrite in_app_iff in Hq1, Hq2. simpl in Hq1, Hq2. destruct (string_dec q o) as [->|N].
    + rewrite fupd_same. rewrite <- (I3 o Hout). destruct b; [eapply Hp; eauto|subst s; auto].
    + rewrite Hst by auto. apply I4; auto.
  - apply (one_update (w_st w) o s); auto. destruct b; [|right; auto]. left. exists (c_prep St Dt (cod o)), v. auto.
  - exact I6.
  - apply (chans_core _ _ k1); auto. apply (chans_ext _ (w_st w)); auto.
    + exists post. rewrite EL, <- app_assoc. reflexivity.
    + intros p Hp. apply Hst. intros ->. rewrite mem_snoc in Hp by discriminate. apply mem_in in Hp. auto.
Qed.

Lemma step_trig pre o post w w' k : L = pre ++ (PT, o) :: post -> Inv pre w k ->
  one t w (PT, o) = Ok w' -> exists k', grun (ops t last (PT, o)) k = Some (Ok k') /\ Inv (pre ++ [(PT, o)]) w' k'.
Proof.
  intros EL I Hw. pose proof L_nodup as HN.
  assert (Ho : In o objs). { apply in_groups. apply (in_acts _ PT). rewrite EL. apply in_app_iff. simpl; auto. }
  destruct (in_index o Ho) as (j & Hj).
  assert (HPPo : ~ In (PP, o) pre). { eapply before_later; [exact HN|apply (L_TP o o j); auto|exact EL]. }
  assert (HPCo : In (PC, o) pre). { eapply before_next; [exact HN|apply (L_CT o o j); auto|exact EL]. }
  destruct I as [I1 I2 I3 I4 I5 I6 (C1 & C2 & C3)].
  assert (Hview : dview k o (c_inputs St Dt (cod o)) = get_view (w_st w) (c_inputs St Dt (cod o))).
  { apply dview_eq; auto. intros c Hc. destruct (valid_of o c Ho Hc) as [Hv Hdst]. destruct (delayed c) eqn:Hd.
    - destruct (C3 c Hv Hd) as [_ B]. rewrite Hdst in B. rewrite B by (apply mem_in; auto).
      unfold ovals. destruct (L_del c Hv Hd) as [Hb|(_ & Hb & _ & Hp)].
      + rewrite I3; auto. specialize (Hb PT PC). rewrite Hdst in Hb. eapply before_later; [exact HN|exact Hb|exact EL].
      + rewrite Hdst in Hb. symmetry. apply I4; auto; [eapply before_later; [exact HN|exact Hb|exact EL]|].
        intros Hpp.
        assert (before (PT, prod c) (PP, prod c) L).
        { destruct (in_index _ (valid_prod c Hv)) as (kk & Hk). apply (L_TP _ _ kk); auto. }
        assert (In (PT, prod c) pre) by (eapply before_passed; eauto).
        apply (before_later _ _ _ _ _ HN Hb EL); auto.
    - destruct (C2 c Hv Hd) as [_ B]. rewrite Hdst in B. apply B, mem_in; auto. }
  assert (HC : forall W, chans pre W k -> chans (pre ++ [(PT, o)]) W k).
  { intros W (D1 & D2 & D3). split; auto. split; intros c Hv Hd; [destruct (D2 c Hv Hd)|destruct (D3 c Hv Hd)];
      rewrite !mem_snoc by discriminate; auto. }
  assert (EL' : exists post, L = (pre ++ [(PT, o)]) ++ post) by (exists post; rewrite EL, <- app_assoc; reflexivity).
  cbn [one] in Hw. apply trig_one_inv in Hw as [[Hf ->]|(Hf & v & s & Hv & Hs & ->)].
  - exists k. split. { cbn [ops grun DistModel.exec DistModel.do_act]. rewrite I2, Hf. reflexivity. }
    constructor; auto.
    + intros q Hq. apply I3. rewrite in_app_iff in Hq. tauto.
    + intros q Hq1 Hq2. apply I4; rewrite in_app_iff in *; tauto.
    + apply HC. split; auto.
  - exists (set_st k o s (k_chg k o)). split.
    { cbn [ops grun DistModel.exec DistModel.do_act]. rewrite I2, Hf, Hview, Hv. cbn [bind]. rewrite I1, Hs. reflexivity. }
    assert (Hst : forall q, q <> o -> fupd (w_st w) o s q = w_st w q) by (intros; apply fupd_other; auto).
    constructor; cbn.
    + intros q. unfold fupd. destruct (String.eqb o q); auto.
    + intros q. unfold fupd. destruct (String.eqb_spec o q); subst; auto.
    + intros q Hq. rewrite in_app_iff in Hq. rewrite Hst; [apply I3; tauto|intros ->; tauto].
    + intros q Hq1 Hq2 Hp key. rewrite in_app_iff in Hq1, Hq2. simpl in Hq1, Hq2.
      rewrite Hst by (intros ->; tauto). apply I4; auto.
    + apply (one_update (w_st w) o s); auto. left. exists (c_trig St Dt (cod o)), v. auto.
    + exact I6.
    + apply (chans_core _ _ k); auto. apply (chans_ext _ (w_st w)); auto; [|apply HC; split; auto].
      intros p Hp. apply Hst. intros ->. rewrite mem_snoc in Hp by discriminate. apply mem_in in Hp. auto.
Qed.

Lemma step_post pre o post w w' k : L = pre ++ (PP, o) :: post -> Inv pre w k ->
  one t w (PP, o) = Ok w' -> exists k', grun (ops t last (PP, o)) k = Some (Ok k') /\ Inv (pre ++ [(PP, o)]) w' k'.
Proof.
  intros EL I Hw. pose proof L_nodup as HN.
  assert (Ho : In o objs). { apply in_groups. apply (in_acts _ PP). rewrite EL. apply in_app_iff. simpl; auto. }
  destruct (in_index o Ho) as (j & Hj).
  assert (HPPo : ~ In (PP, o) pre). { rewrite EL in HN. apply NoDup_remove_2 in HN. intros H; apply HN, in_app_iff; auto. }
  assert (HPCo : In (PC, o) pre). { eapply before_next; [exact HN|apply (L_CP o o j); auto|exact EL]. }
  destruct I as [I1 I2 I3 I4 I5 I6 HC].
  pose proof HC as (C1 & C2 & C3).
  (* the method call *)
  assert (G : exists k1, do_act (APost t) o k = Ok k1 /\ (forall q, k_st k1 q = w_st w' q) /\ (forall q, k_chg k1 q = w_chg w' q) /\
              (forall c, k_box k1 c = k_box k c) /\ (forall c, k_ch k1 c = k_ch k c) /\
              (forall q, q <> o -> w_st w' q = w_st w q) /\ (forall c, valid c -> length (ovals (w_st w') c) = 1)).
  { cbn [one] in Hw. apply post_one_inv in Hw as [[Hf ->]|(Hf & v & s & Hv & Hs & ->)].
    - exists k. cbn [DistModel.do_act]. rewrite I2, Hf. split; auto. split; auto.
    - assert (GV : exists v', dview k o (c_inputs St Dt (cod o)) = Ok v' /\ c_post St Dt (cod o) t v' (w_st w o) = Ok s).
      { destruct (all_or_ex (fun c => k_box k c = ovals (w_st w) c)
                            (fun c => forall t v v' x, c_post St Dt (cod o) t v x = c_post St Dt (cod o) t v' x) (rconns o)) as [Hall|(c & Hc & Hq)].
        - intros c Hc. destruct (valid_of o c Ho Hc) as [Hvc Hdst]. destruct (delayed c) eqn:Hd.
          + destruct (L_del c Hvc Hd) as [Hb|(_ & _ & Hp & _)].
            * left. destruct (C3 c Hvc Hd) as [_ B]. rewrite Hdst in B. rewrite B by (apply mem_in; auto).
              unfold ovals. rewrite I3; auto. specialize (Hb PP PC). rewrite Hdst in Hb. eapply before_later; [exact HN|exact Hb|exact EL].
            * right. rewrite Hdst in Hp. exact Hp.
          + left. destruct (C2 c Hvc Hd) as [_ B]. rewrite Hdst in B. apply B, mem_in; auto.
        - exists v. split; auto. rewrite <- Hv. apply dview_eq; auto.
        - destruct (dview_len k (w_st w) o v) as (v' & Hv'); auto.
          + intros c' Hc'. destruct (valid_of o c' Ho Hc') as [Hvc Hdst]. rewrite I5 by auto. destruct (delayed c') eqn:Hd.
            * destruct (C3 c' Hvc Hd) as [_ B]. rewrite Hdst in B. rewrite B by (apply mem_in; auto). apply I6; auto.
            * destruct (C2 c' Hvc Hd) as [_ B]. rewrite Hdst in B. rewrite B by (apply mem_in; auto). apply I5; auto.
          + exists v'. split; auto. rewrite (Hq t v' v). auto. }
      destruct GV as (v' & Hv' & Hs'). exists (set_st k o s false). cbn [DistModel.do_act]. rewrite I2, Hf, Hv'. cbn [bind]. rewrite I1, Hs'. cbn [bind].
      split; auto. cbn. split; [intros q; unfold fupd; destruct (String.eqb o q); auto|].
      split; [intros q; unfold fupd; destruct (String.eqb o q); auto|]. split; auto. split; auto. split; [intros; apply fupd_other; auto|].
      apply (one_update (w_st w) o s); auto. left. exists (c_post St Dt (cod o)), v. auto. }
  destruct G as (k1 & E1 & T1 & T2 & T3 & T4 & T5 & T6).
  assert (HC1 : chans pre (w_st w') k1).
  { apply (chans_core _ _ k); auto. apply (chans_ext _ (w_st w)); auto.
    - exists ((PP, o) :: post). auto.
    - intros p Hp. apply T5. intros ->. apply mem_in in Hp. auto. }
  destruct HC1 as (D1 & D2 & D3).
  (* the sends *)
  set (l := filter (fun c => negb (delayed c && last)) (sconns objs o)).
  assert (Hl : forall c, In c l <-> valid c /\ prod c = o /\ negb (delayed c && last) = true).
  { intros c. unfold l. rewrite filter_In, in_sconns. tauto. }
  destruct (grun_pushes l (NoDup_filter _ (sconns_nodup o)) k1) as (k2 & E2 & S1 & S2 & S3 & S4 & S5).
  exists k2. split. { cbn [ops grun DistModel.exec]. rewrite E1. exact E2. }
  assert (Hov : forall c, ovals (k_st k1) c = ovals (w_st w') c) by (intros c; unfold ovals; rewrite T1; reflexivity).
  constructor.
  - intros q. rewrite S1. auto.
  - intros q. rewrite S2. auto.
  - intros q Hq. rewrite in_app_iff in Hq. rewrite T5; [apply I3; tauto|intros ->; tauto].
  - intros q Hq1 Hq2 Hp key. rewrite in_app_iff in Hq1, Hq2. simpl in Hq2. rewrite T5 by (intros ->; tauto). apply I4; auto.
  - exact T6.
  - exact I6.
  - split; [|split].
    + intros c Hc. rewrite S5; auto. intros Hi. apply Hl in Hi. tauto.
    + intros c Hv Hd. destruct (D2 c Hv Hd) as [A B]. rewrite S3, (mem_snoc (PC, cn_dst c)) by discriminate. split; [|exact B].
      destruct (string_dec (prod c) o) as [E|N].
      * rewrite S4 by (apply Hl; rewrite Hd; auto). rewrite A, E, mem_last, Hov.
        assert (Hm : mem (PP, o) pre = false) by (apply mem_out; auto). rewrite Hm. cbn.
        assert (Hn : mem (PC, cn_dst c) pre = false).
        { apply mem_out. pose proof (L_und c PP Hv Hd) as Hb. rewrite E in Hb. eapply before_later; [exact HN|exact Hb|exact EL]. }
        rewrite Hn. reflexivity.
      * rewrite S5 by (rewrite Hl; tauto). rewrite A, mem_snoc by congruence. reflexivity.
    + intros c Hv Hd. destruct (D3 c Hv Hd) as [A B]. rewrite S3, (mem_snoc (PC, cn_dst c)) by discriminate. split; [|exact B].
      destruct (string_dec (prod c) o) as [E|N].
      * assert (Hm : mem (PP, o) pre = false) by (apply mem_out; auto).
        assert (Hn : mem (PC, cn_dst c) pre = true).
        { apply mem_in. pose proof (L_del_post c Hv Hd) as Hb. rewrite E in Hb. eapply before_next; [exact HN|exact Hb|exact EL]. }
        rewrite E, Hm, Hn in A. cbn in A. rewrite E, mem_last, Hn. cbn [andb].
        destruct last eqn:El; cbn [negb].
        -- rewrite S5; [exact A|]. rewrite Hl, Hd. cbn. intros (_ & _ & X). discriminate.
        -- rewrite S4 by (apply Hl; rewrite Hd; auto). rewrite A, Hov. reflexivity.
      * rewrite S5 by (rewrite Hl; tauto). rewrite A, mem_snoc by congruence. reflexivity.
Qed.

Lemma iter_sim : forall post pre w w' k, L = pre ++ post -> Inv pre w k -> fold_res (one t) w post = Ok w' ->
  exists k', grun (flat_map (ops t last) post) k = Some (Ok k') /\ Inv L w' k'.
Proof.
  induction post as [|[a o] post IH]; intros pre w w' k EL I H.
  - cbn in H. injection H as <-. exists k. split; auto. rewrite app_nil_r in EL. rewrite EL. auto.
  - cbn [fold_res] in H. destruct (one t w (a, o)) as [w1|] eqn:E1; [|discriminate]. cbn [bind] in H.
    assert (G : exists k1, grun (ops t last (a, o)) k = Some (Ok k1) /\ Inv (pre ++ [(a, o)]) w1 k1).
    { destruct a; [eapply step_check|eapply step_trig|eapply step_post]; eauto. }
    destruct G as (k1 & Ek & I1).
    destruct (IH (pre ++ [(a, o)]) w1 w' k1) as (k2 & E2 & I2); auto. { rewrite EL, <- app_assoc. reflexivity. }
    exists k2. split; auto. cbn [flat_map]. rewrite (grun_app _ _ _ _ Ek). exact E2.
Qed.
End Iter.

(* ------------------------------------------------------------------ setup phase *)
Notation M := (concat (groups ord)).

Lemma M_nodup : NoDup M.
Proof. apply (concat_groups_nodup St Dt cod). auto. Qed.

Lemma M_lt p o i j : In (p, i) ord -> In (o, j) ord -> (i < j)%nat -> before p o M.
Proof.
  intros Hp Ho Hij. rewrite (groups_split ord j) by (eapply index_le_max; eauto). rewrite concat_app. apply before_cross.
  - apply in_concat_groups. exists i. split; auto. lia.
  - cbn [concat]. apply in_app_iff. left. apply in_group. auto.
Qed.

Lemma M_order c : valid c -> if delayed c then before (cn_dst c) (prod c) M else before (prod c) (cn_dst c) M.
Proof.
  intros Hv. destruct (in_index _ (valid_prod c Hv)) as (k & Hk). destruct (in_index (cn_dst c)) as (j & Hj); [apply Hv|].
  pose proof (conn_order c j k Hv Hj Hk) as H. destruct (delayed c).
  - destruct H as [H Hb]. destruct (Nat.eq_dec j k) as [->|]; [|apply (M_lt _ _ j k); auto; lia].
    apply before_group in Hb; auto. rewrite (groups_split ord k) by (eapply index_le_max; eauto).
    rewrite concat_app. apply before_app_r. cbn [concat]. apply before_app_l. auto.
  - apply (M_lt _ _ k j); auto.
Qed.

Definition smem (o : string) (pre : list string) : bool := if in_dec string_dec o pre then true else false.
Lemma smem_in a pre : smem a pre = true <-> In a pre.
Proof. unfold smem. destruct (in_dec string_dec a pre); split; auto; discriminate. Qed.
Lemma smem_out a pre : smem a pre = false <-> ~ In a pre.
Proof. unfold smem. destruct (in_dec string_dec a pre); split; auto; [discriminate|tauto]. Qed.
Lemma smem_snoc a b pre : a <> b -> smem a (pre ++ [b]) = smem a pre.
Proof.
  intros N. destruct (smem a pre) eqn:E.
  - apply smem_in. apply smem_in in E. apply in_app_iff; auto.
  - apply smem_out. apply smem_out in E. rewrite in_app_iff. simpl. intros [H|[H|[]]]; congruence.
Qed.
Lemma smem_last a pre : smem a (pre ++ [a]) = true.
Proof. apply smem_in, in_app_iff. simpl; auto. Qed.

Record SInv (pre : list string) (w : world St) (k : core) : Prop := mkSInv {
  s_st : forall o, k_st k o = w_st w o;
  s_chg : forall o, k_chg k o = w_chg w o;
  s_not : forall q, ~ In q pre -> w_st w q = st0 q;
  s_quiet : forall c, valid c -> delayed c = false -> ovals (w_st w) c = ovals st0 c;
  s_one : forall c, valid c -> length (ovals (w_st w) c) = 1;
  s_none : forall c, ~ valid c -> k_ch k c = [];
  s_ch : forall c, valid c -> k_ch k c = (if smem (cn_dst c) pre then [] else ovals st0 c) ++
                                         (if delayed c && smem (prod c) pre then ovals (w_st w) c else [])
}.

Definition s_ops (o : string) : list op :=
  map Pop (rconns o) ++ Do ASetup o :: map Push (filter delayed (sconns objs o)).

Lemma step_setup pre o post w w' k : M = pre ++ o :: post -> SInv pre w k ->
  setup_one St Dt outs cod w o = Ok w' -> exists k', grun (s_ops o) k = Some (Ok k') /\ SInv (pre ++ [o]) w' k'.
Proof.
  intros EM I Hw. pose proof M_nodup as HN.
  assert (Ho : In o objs). { apply in_groups. rewrite EM. apply in_app_iff. simpl; auto. }
  assert (Hout : ~ In o pre). { rewrite EM in HN. apply NoDup_remove_2 in HN. intros H; apply HN, in_app_iff; auto. }
  destruct I as [I1 I2 I3 I4 I5 I6 I7].
  assert (Hch : forall c, In c (rconns o) -> k_ch k c = ovals st0 c /\ ovals st0 c = ovals (w_st w) c).
  { intros c Hc. destruct (valid_of o c Ho Hc) as [Hv Hdst]. rewrite I7 by auto. rewrite Hdst, (proj2 (smem_out o pre) Hout).
    pose proof (M_order c Hv) as Hb. destruct (delayed c) eqn:Hd.
    - rewrite Hdst in Hb. assert (Hp : ~ In (prod c) pre) by (eapply before_later; [exact HN|exact Hb|exact EM]).
      rewrite (proj2 (smem_out _ _) Hp). cbn. rewrite app_nil_r. split; auto. unfold ovals. rewrite I3; auto.
    - cbn. rewrite app_nil_r. split; auto. symmetry. auto. }
  destruct (grun_pops (rconns o) (rconns_nodup o Ho) k) as (k1 & E1 & S1 & S2 & S3 & S4).
  { intros c Hc. destruct (Hch c Hc) as [-> ->]. apply sing. apply I5. apply valid_of with o; auto. }
  assert (Hview : dview k1 o (c_inputs St Dt (cod o)) = get_view (w_st w) (c_inputs St Dt (cod o))).
  { apply dview_eq; [intros q; rewrite S1; auto|]. intros c Hc. destruct (S3 c Hc) as [-> _]. destruct (Hch c Hc) as [-> ->]. auto. }
  unfold setup_one in Hw. destruct (c_setup _ _ _ _ _) as [s|] eqn:Es; [|discriminate]. cbn [bind] in Hw. injection Hw as <-.
  set (k2 := set_st k1 o s (k_chg k1 o)).
  set (l := filter delayed (sconns objs o)).
  assert (Hl : forall c, In c l <-> valid c /\ prod c = o /\ delayed c = true).
  { intros c. unfold l. rewrite filter_In, in_sconns. tauto. }
  destruct (grun_pushes l (NoDup_filter _ (sconns_nodup o)) k2) as (k3 & E3 & T1 & T2 & T3 & T4 & T5).
  exists k3. split.
  { unfold s_ops. rewrite (grun_app _ _ _ _ E1). cbn [grun DistModel.exec DistModel.do_act]. rewrite Hview, S1, I1, Es. cbn [bind]. exact E3. }
  assert (Hst : forall q, q <> o -> fupd (w_st w) o s q = w_st w q) by (intros; apply fupd_other; auto).
  assert (Hk2 : forall q, k_st k2 q = fupd (w_st w) o s q).
  { intros q. cbn. unfold fupd. destruct (String.eqb o q); auto. rewrite S1; auto. }
  constructor; cbn.
  - intros q. rewrite T1. auto.
  - intros q. rewrite T2. cbn. unfold fupd. destruct (String.eqb_spec o q); [subst|]; rewrite S2; auto.
  - intros q Hq. rewrite in_app_iff in Hq. simpl in Hq. rewrite Hst; [apply I3; tauto|intros ->; tauto].
  - intros c Hv Hd. rewrite <- (I4 c Hv Hd). unfold ovals. unfold fupd. destruct (String.eqb_spec o (prod c)) as [E|]; auto.
    rewrite <- E. unfold prod in E. subst o. apply (Hquiet c Hv) with (v := get_view (w_st w) (c_inputs St Dt (cod (s_obj (cn_src c))))); auto.
    unfold delayed in Hd. apply Z.ltb_ge; auto.
  - intros c Hv. specialize (I5 c Hv). unfold ovals in *. unfold fupd. destruct (String.eqb_spec o (prod c)) as [E|]; auto.
    rewrite <- E in I5. unfold prod in E. subst o. destruct (Hone c Hv) as (_ & H2 & _). eapply H2; eauto.
  - intros c Hc. rewrite T5 by (rewrite Hl; tauto). cbn. destruct (S4 c) as [_ ->]; auto.
    intros Hi. apply Hc. apply (valid_of o c Ho Hi).
  - intros c Hv.
    assert (Hk1 : k_ch k1 c = (if smem (cn_dst c) (pre ++ [o]) then [] else ovals st0 c) ++ (if delayed c && smem (prod c) pre then ovals (w_st w) c else [])).
    { destruct (string_dec (cn_dst c) o) as [E|N].
      - assert (Hin : In c (rconns o)) by (rewrite <- E; apply valid_rconns; auto).
        destruct (S3 c Hin) as [_ ->]. rewrite E, smem_last. cbn.
        pose proof (M_order c Hv) as Hb. destruct (delayed c) eqn:Hd; cbn; auto.
        rewrite E in Hb. rewrite (proj2 (smem_out (prod c) pre)); auto. eapply before_later; [exact HN|exact Hb|exact EM].
      - destruct (S4 c) as [_ ->]. { intros Hi. apply N. apply in_rconns in Hi. tauto. }
        rewrite smem_snoc by auto. auto. }
    destruct (string_dec (prod c) o) as [E|N].
    + assert (Hm : smem (prod c) pre = false) by (rewrite E; apply smem_out; auto).
      rewrite Hm, andb_false_r, app_nil_r in Hk1. destruct (delayed c) eqn:Hd; cbn [andb].
      * rewrite T4 by (apply Hl; auto). cbn [k_ch set_st k2]. change (k_ch k2 c) with (k_ch k1 c). rewrite Hk1, E, smem_last. f_equal.
        unfold ovals. rewrite Hk2. reflexivity.
      * rewrite T5. { change (k_ch k2 c) with (k_ch k1 c). rewrite Hk1, app_nil_r. reflexivity. }
        rewrite Hl. intros (_ & _ & X). congruence.
    + rewrite T5 by (rewrite Hl; tauto). change (k_ch k2 c) with (k_ch k1 c). rewrite Hk1. rewrite (smem_snoc (prod c)) by auto.
      f_equal. destruct (delayed c && smem (prod c) pre); auto. unfold ovals. rewrite Hst by auto. reflexivity.
Qed.

Lemma setup_sim : forall post pre w w' k, M = pre ++ post -> SInv pre w k -> fold_res (setup_one St Dt outs cod) w post = Ok w' ->
  exists k', grun (flat_map s_ops post) k = Some (Ok k') /\ SInv M w' k'.
Proof.
  induction post as [|o post IH]; intros pre w w' k EM I H.
  - cbn in H. injection H as <-. exists k. split; auto. rewrite app_nil_r in EM. rewrite EM. auto.
  - cbn [fold_res] in H. destruct (setup_one St Dt outs cod w o) as [w1|] eqn:E1; [|discriminate]. cbn [bind] in H.
    destruct (step_setup pre o post w w1 k EM I E1) as (k1 & Ek & I1).
    destruct (IH (pre ++ [o]) w1 w' k1) as (k2 & E2 & I2); auto. { rewrite EM, <- app_assoc. reflexivity. }
    exists k2. split; auto. cbn [flat_map]. rewrite (grun_app _ _ _ _ Ek). exact E2.
Qed.

Lemma map_flat_map {A B C} (f : B -> C) (g : A -> list B) l : flat_map (fun x => map f (g x)) l = map f (flat_map g l).
Proof. induction l; cbn; auto. rewrite map_app. congruence. Qed.

Lemma pre_sim w : (forall o, w_st w o = st0 o) ->
  exists k, grun (pre_ops St Dt cod rank objs (groups ord)) (mkCore st0 (w_chg w) (fun _ => []) (fun _ => [])) = Some (Ok k) /\ SInv [] w k.
Proof.
  intros Hw. unfold pre_ops. rewrite map_flat_map. set (l := flat_map (sconns objs) M).
  assert (Hl : forall c, In c l <-> valid c).
  { intros c. unfold l. rewrite in_flat_map. split.
    - intros (p & _ & Hc). apply in_sconns in Hc. tauto.
    - intros Hv. exists (prod c). split; [apply in_groups, valid_prod; auto|]. apply in_sconns; auto. }
  assert (Hn : NoDup l).
  { apply NoDup_flat_map; [apply M_nodup|intros; apply sconns_nodup|]. intros p q c _ _ H1 H2. apply in_sconns in H1, H2. destruct H1, H2. congruence. }
  destruct (grun_pushes l Hn (mkCore st0 (w_chg w) (fun _ => []) (fun _ => []))) as (k & E & S1 & S2 & S3 & S4 & S5).
  exists k. split; auto. constructor.
  - intros o. rewrite S1, Hw. reflexivity.
  - intros o. rewrite S2. reflexivity.
  - auto.
  - intros c Hv _. unfold ovals. rewrite Hw. reflexivity.
  - intros c Hv. unfold ovals. rewrite Hw. apply (Hone c Hv).
  - intros c Hc. rewrite S5; auto. rewrite Hl. auto.
  - intros c Hv. rewrite S4 by (apply Hl; auto). cbn. rewrite andb_false_r, app_nil_r. reflexivity.
Qed.

(* ------------------------------------------------------------------------ iterations *)
Definition Ready (w : world St) (k : core) : Prop := forall last, Inv (w_st w) last [] w k.

Lemma setup_ready w k : SInv M w k -> Ready w k.
Proof.
  intros [I1 I2 I3 I4 I5 I6 I7] last. constructor; auto.
  split; [auto|]. split.
  - intros c Hv Hd. rewrite I7 by auto. rewrite Hd. cbn [andb]. rewrite app_nil_r.
    rewrite (proj2 (smem_in (cn_dst c) M)) by (apply in_groups; apply Hv). split; auto. discriminate.
  - intros c Hv Hd. rewrite I7 by auto. rewrite Hd.
    rewrite (proj2 (smem_in (cn_dst c) M)) by (apply in_groups; apply Hv).
    rewrite (proj2 (smem_in (prod c) M)) by (apply in_groups, valid_prod; auto). cbn. split; auto. discriminate.
Qed.

Lemma iter_ready w0 w k : Inv w0 false L w k -> Ready w k.
Proof.
  intros [I1 I2 I3 I4 I5 I6 (C1 & C2 & C3)] last. constructor; auto.
  assert (Hm : forall a o, In o objs -> mem (a, o) L = true).
  { intros a o Ho. apply mem_in. apply in_acts, in_groups. auto. }
  split; [auto|]. split.
  - intros c Hv Hd. destruct (C2 c Hv Hd) as [A B]. rewrite A. rewrite !Hm by (apply Hv || apply valid_prod; auto). cbn. split; auto. discriminate.
  - intros c Hv Hd. destruct (C3 c Hv Hd) as [A B]. rewrite A. rewrite !Hm by (apply Hv || apply valid_prod; auto). cbn. split; auto. discriminate.
Qed.

Lemma Ready_log w k log : Ready w k -> Ready (mkWorld St (w_st w) (w_chg w) log) k.
Proof. intros H last. destruct (H last) as [I1 I2 I3 I4 I5 I6 I7]. constructor; auto. Qed.

Lemma iters_sim its : (forall ti, In ti its -> snd ti = false) -> forall w w' k, Ready w k ->
  fold_res (iteration St Dt outs gtime cod ord) w its = Ok w' ->
  exists k', grun (flat_map (iter_ops St Dt cod rank objs (groups ord)) its) k = Some (Ok k') /\ Ready w' k'.
Proof.
  induction its as [|[t b] its IH]; intros Hf w w' k HR H.
  - cbn in H. injection H as <-. exists k. auto.
  - cbn [fold_res] in H. destruct (iteration St Dt outs gtime cod ord w (t, b)) as [w1|] eqn:E; [|discriminate]. cbn [bind] in H.
    unfold iteration in E. cbn [fst snd] in E. rewrite iter_step_acts in E. assert (b = false) by (apply (Hf (t, b)); simpl; auto). subst b.
    destruct (iter_sim (w_st w) t false L [] _ w1 k eq_refl (Ready_log _ _ _ HR false) E) as (k1 & E1 & I1).
    destruct (IH (fun ti Hi => Hf ti (or_intror Hi)) w1 w' k1 (iter_ready _ _ _ I1) H) as (k2 & E2 & I2).
    exists k2. split; auto. cbn [flat_map]. rewrite iter_ops_acts, (grun_app _ _ _ _ E1). exact E2.
Qed.

Theorem run_sim its w w' : (forall o, w_st w o = st0 o) -> well_flagged its ->
  one_process St Dt outs gtime cod ord its w = Ok w' ->
  exists k, grun (run_ops St Dt cod rank objs (groups ord) its) (mkCore st0 (w_chg w) (fun _ => []) (fun _ => [])) = Some (Ok k) /\
    (forall o, k_st k o = w_st w' o) /\ (forall o, k_chg k o = w_chg w' o) /\ (forall c, k_ch k c = []).
Proof.
  intros Hw (its0 & t & -> & Hf) H. unfold one_process in H.
  destruct (fold_res (setup_one St Dt outs cod) w M) as [w1|] eqn:E1; [|discriminate]. cbn [bind] in H.
  destruct (pre_sim w Hw) as (k0 & E0 & I0).
  destruct (setup_sim M [] w w1 k0 eq_refl I0 E1) as (k1 & Ek1 & I1).
  rewrite fold_res_app in H. destruct (fold_res _ w1 its0) as [w2|] eqn:E2; [|discriminate]. cbn [bind fold_res] in H.
  destruct (iteration St Dt outs gtime cod ord w2 (t, true)) as [w3|] eqn:E3; [|discriminate]. cbn [bind] in H. injection H as <-.
  destruct (iters_sim its0 Hf w1 w2 k1 (setup_ready _ _ I1) E2) as (k2 & Ek2 & I2).
  unfold iteration in E3. cbn [fst snd] in E3. rewrite iter_step_acts in E3.
  destruct (iter_sim (w_st w2) t true L [] _ w3 k2 eq_refl (Ready_log _ _ _ I2 true) E3) as (k3 & Ek3 & I3).
  exists k3. split.
  { unfold run_ops. rewrite (grun_app _ _ _ _ E0). cbn [grun].
    change (setup_ops St Dt cod rank objs (groups ord)) with (flat_map s_ops M). rewrite (grun_app _ _ _ _ Ek1). cbn [grun].
    rewrite flat_map_app. rewrite (grun_app _ _ _ _ Ek2). cbn [flat_map]. rewrite app_nil_r, iter_ops_acts. exact Ek3. }
  destruct I3 as [J1 J2 _ _ _ _ (C1 & C2 & C3)]. split; auto. split; auto.
  assert (Hm : forall a o, In o objs -> mem (a, o) L = true).
  { intros a o Ho. apply mem_in. apply in_acts, in_groups. auto. }
  intros c. destruct (in_dec string_dec (cn_dst c) objs) as [Hd|Hd].
  - destruct (in_dec conn_eq_dec c (rconns (cn_dst c))) as [Hc|Hc].
    + assert (Hv : valid c) by (apply valid_rconns; auto). destruct (delayed c) eqn:E.
      * destruct (C3 c Hv E) as [-> _]. rewrite !Hm by (auto || apply valid_prod; auto). reflexivity.
      * destruct (C2 c Hv E) as [-> _]. rewrite !Hm by (auto || apply valid_prod; auto). reflexivity.
    + apply C1. rewrite valid_rconns. tauto.
  - apply C1. rewrite valid_rconns. tauto.
Qed.

(* ----------------------------------------------------------------- the programs *)
Definition mine (r : nat) (x : op) : bool :=
  match x with Barrier => true | _ => rank_eqb (own rank x) (Some r) end.
Definition here (r : nat) (o : string) : bool := rank_eqb (rank o) (Some r).

Lemma filter_flat_map {A B} (P : B -> bool) (f : A -> list B) l :
  filter P (flat_map f l) = flat_map (fun x => filter P (f x)) l.
Proof. induction l; cbn; auto. rewrite filter_app. congruence. Qed.

Lemma flat_map_if {A B} (Q : A -> bool) (f g : A -> list B) l :
  (forall x, In x l -> g x = if Q x then f x else []) -> flat_map g l = flat_map f (filter Q l).
Proof.
  induction l as [|a l IH]; intros H; cbn; auto. rewrite (H a) by (simpl; auto). rewrite IH by (intros; apply H; simpl; auto).
  destruct (Q a); cbn; auto.
Qed.

Lemma filter_all {A} (P : A -> bool) b l : (forall x, In x l -> P x = b) -> filter P l = if b then l else [].
Proof.
  induction l as [|a l IH]; intros H; cbn; [destruct b; auto|]. rewrite (H a) by (simpl; auto).
  rewrite IH by (intros; apply H; simpl; auto). destruct b; auto.
Qed.

Lemma mine_pops r o : filter (mine r) (map Pop (rconns o)) = if here r o then map Pop (rconns o) else [].
Proof.
  apply filter_all. intros x Hx. apply in_map_iff in Hx as (c & <- & Hc). cbn. apply in_rconns in Hc as [-> _]. reflexivity.
Qed.
Lemma mine_pushes r o (P : conn -> bool) : filter (mine r) (map Push (filter P (sconns objs o))) = if here r o then map Push (filter P (sconns objs o)) else [].
Proof.
  apply filter_all. intros x Hx. apply in_map_iff in Hx as (c & <- & Hc). apply filter_In in Hc as [Hc _]. cbn.
  unfold DistModel.sconns in Hc. apply filter_In in Hc as [_ Hc]. apply String.eqb_eq in Hc. rewrite Hc. reflexivity.
Qed.
Lemma filter_true {A} (l : list A) : filter (fun _ => true) l = l.
Proof. induction l; cbn; congruence. Qed.

Lemma mine_group r t last g : filter (mine r) (group_ops St Dt cod rank objs t last g) = group_ops St Dt cod rank objs t last (filter (here r) g).
Proof.
  unfold group_ops. rewrite !filter_app, !filter_flat_map. f_equal; [|f_equal].
  - apply flat_map_if. intros o _. rewrite filter_app, mine_pops. cbn [filter mine own]. fold (here r o). destruct (here r o); auto.
  - rewrite <- !flat_map_sing. rewrite filter_flat_map. apply flat_map_if. intros o _. cbn [filter mine own]. fold (here r o). destruct (here r o); auto.
  - apply flat_map_if. intros o _. cbn [filter mine own]. fold (here r o). rewrite mine_pushes. destruct (here r o); auto.
Qed.

Lemma filter_comm {A} (P Q : A -> bool) l : filter P (filter Q l) = filter Q (filter P l).
Proof. induction l as [|a l IH]; cbn; auto. destruct (P a) eqn:E1, (Q a) eqn:E2; cbn; rewrite ?E1, ?E2, IH; auto. Qed.
Lemma map_filter_fst (P : string -> bool) (l : order) : map fst (filter (fun oi => P (fst oi)) l) = filter P (map fst l).
Proof. induction l as [|a l IH]; cbn; auto. destruct (P (fst a)); cbn; congruence. Qed.

Lemma group_local r i : group (local_order rank ord r) i = filter (here r) (group ord i).
Proof. unfold group, local_order. rewrite filter_comm. exact (map_filter_fst (here r) _). Qed.

Lemma list_max_local r : (list_max (map snd (local_order rank ord r)) <= list_max (map snd ord))%nat.
Proof.
  apply list_max_le. apply Forall_forall. intros i Hi. apply in_map_iff in Hi as ([o j] & <- & Hi).
  apply filter_In in Hi as [Hi _]. cbn. eapply index_le_max; eauto.
Qed.

Lemma groups_local {B} (h : list string -> list B) r : h [] = [] ->
  flat_map h (groups (local_order rank ord r)) = flat_map (fun g => h (filter (here r) g)) (groups ord).
Proof.
  intros Hh. unfold groups. pose proof (list_max_local r) as Hle.
  set (m := list_max (map snd (local_order rank ord r))) in *.
  replace (S (list_max (map snd ord))) with (S m + (list_max (map snd ord) - m))%nat by lia.
  rewrite seq_app, map_app, flat_map_app. rewrite !flat_map_map.
  assert (Z : flat_map (fun x => h (filter (here r) (group ord x))) (seq (0 + S m) (list_max (map snd ord) - m)) = []).
  { assert (G : forall x, In x (seq (0 + S m) (list_max (map snd ord) - m)) -> group (local_order rank ord r) x = []).
    { intros x Hx. apply in_seq in Hx. destruct (group (local_order rank ord r) x) as [|q l] eqn:E; auto. exfalso.
      assert (Hq : In q (group (local_order rank ord r) x)) by (rewrite E; simpl; auto).
      apply in_group in Hq. apply index_le_max in Hq. fold m in Hq. lia. }
    revert G. generalize (seq (0 + S m) (list_max (map snd ord) - m)). intros l. induction l as [|x l IH]; intros G; cbn; auto.
    rewrite <- group_local, G, Hh by (simpl; auto). cbn. apply IH. intros; apply G; simpl; auto. }
  rewrite Z, app_nil_r. apply flat_map_ext. intros i. rewrite group_local. reflexivity.
Qed.

Lemma concat_local r : concat (groups (local_order rank ord r)) = filter (here r) M.
Proof.
  rewrite <- (map_id (groups (local_order rank ord r))), <- flat_map_concat_map, (groups_local (fun g => g) r) by auto.
  generalize (groups ord). intros gs. induction gs as [|g gs IH]; auto. cbn [flat_map concat]. rewrite filter_app, IH. reflexivity.
Qed.

Theorem program_projection its r : program St Dt cod rank ord its r = filter (mine r) (run_ops St Dt cod rank objs (groups ord) its).
Proof.
  unfold program, run_ops. rewrite filter_app. f_equal.
  - unfold pre_ops. rewrite concat_local, filter_flat_map. symmetry. apply flat_map_if. intros o _.
    pose proof (mine_pushes r o (fun _ => true)) as H. rewrite filter_true in H. exact H.
  - cbn [filter mine]. f_equal. rewrite filter_app. f_equal.
    + unfold setup_ops. rewrite concat_local, filter_flat_map. symmetry. apply flat_map_if. intros o _.
      rewrite filter_app, mine_pops. cbn [filter mine own]. fold (here r o). rewrite mine_pushes. destruct (here r o); auto.
    + cbn [filter mine]. f_equal. rewrite filter_flat_map. apply flat_map_ext. intros ti. unfold iter_ops.
      rewrite groups_local by reflexivity. rewrite filter_flat_map. apply flat_map_ext. intros g. rewrite mine_group. reflexivity.
Qed.

Lemma run_ops_mine its x : In x (run_ops St Dt cod rank objs (groups ord) its) ->
  x = Barrier \/ exists r, own rank x = Some r /\ (r < n)%nat.
Proof.
  assert (R : forall o, In o objs -> exists r, rank o = Some r /\ (r < n)%nat).
  { intros o Ho. apply (proj1 Hplaced) in Ho. destruct (rank o) as [r|] eqn:E; [|congruence]. exists r. split; auto. eapply (proj2 Hplaced); eauto. }
  assert (Rp : forall o c, In c (rconns o) -> In o objs -> exists r, own rank (Pop c) = Some r /\ (r < n)%nat).
  { intros o c Hc Ho. cbn. apply in_rconns in Hc as [-> _]. auto. }
  assert (Rs : forall o c, In c (sconns objs o) -> In o objs -> exists r, own rank (Push c) = Some r /\ (r < n)%nat).
  { intros o c Hc Ho. cbn. apply in_sconns in Hc as [_ E]. unfold prod in E. rewrite E. auto. }
  assert (GM : forall g o, In g (groups ord) -> In o g -> In o objs).
  { intros g o Hg Ho. apply in_groups. apply in_concat. eauto. }
  unfold run_ops. intros H. apply in_app_iff in H as [H|[H|H]]; [|auto|apply in_app_iff in H as [H|[H|H]]; [|auto|]].
  - right. unfold pre_ops in H. apply in_flat_map in H as (o & Ho & Hx). apply in_groups in Ho. apply in_map_iff in Hx as (c & <- & Hc). eauto.
  - right. unfold setup_ops in H. apply in_flat_map in H as (o & Ho & Hx). apply in_groups in Ho. apply in_app_iff in Hx as [Hx|[<-|Hx]].
    + apply in_map_iff in Hx as (c & <- & Hc). eauto.
    + cbn. auto.
    + apply in_map_iff in Hx as (c & <- & Hc). apply filter_In in Hc as [Hc _]. eauto.
  - right. apply in_flat_map in H as ([t b] & _ & H). unfold iter_ops in H. apply in_flat_map in H as (g & Hg & Hx). cbn [fst snd] in Hx.
    unfold group_ops in Hx. rewrite !in_app_iff in Hx. destruct Hx as [Hx|[Hx|Hx]].
    + apply in_flat_map in Hx as (o & Ho & Hx). apply in_app_iff in Hx as [Hx|[<-|[]]].
      * apply in_map_iff in Hx as (c & <- & Hc). eauto.
      * cbn. eauto.
    + apply in_map_iff in Hx as (o & <- & Ho). cbn. eauto.
    + apply in_flat_map in Hx as (o & Ho & [<-|Hx]); [cbn; eauto|].
      apply in_map_iff in Hx as (c & <- & Hc). apply filter_In in Hc as [Hc _]. eauto.
Qed.

(* the sequential execution is one of the interleavings *)
Lemma grun_steps (Hn : (0 < n)%nat) : forall l k k' p, (forall x, In x l -> x = Barrier \/ exists r, own rank x = Some r /\ (r < n)%nat) ->
  (forall r, (r < n)%nat -> p r = filter (mine r) l) -> grun l k = Some (Ok k') ->
  exists m p', steps St Dt outs gtime cod rank n m (k, p) (k', p') /\ forall r, (r < n)%nat -> p' r = [].
Proof.
  induction l as [|x l IH]; intros k k' p Ho Hp H.
  - cbn in H. injection H as <-. exists 0, p. split; [constructor; apply conf_eq_refl|]. intros r Hr. rewrite Hp; auto.
  - assert (Ho' : forall y, In y l -> y = Barrier \/ exists r, own rank y = Some r /\ (r < n)%nat) by (intros; apply Ho; simpl; auto).
    destruct (Ho x) as [->|(r & Er & Hr)]; [simpl; auto| |].
    + cbn [grun] in H. set (p1 := fun r => if Nat.ltb r n then filter (mine r) l else p r).
      assert (Hp1 : forall r, (r < n)%nat -> p1 r = filter (mine r) l).
      { intros r Hr. unfold p1. destruct (Nat.ltb_spec r n); auto; lia. }
      destruct (IH k k' p1 Ho' Hp1 H) as (m & p' & Hs & Hf). exists (S m), p'. split; auto.
      econstructor; [|exact Hs]. apply (step_barrier St Dt outs gtime cod rank n k p p1); auto; [| |apply conf_eq_refl].
      * intros r Hr. rewrite Hp, Hp1 by auto. reflexivity.
      * intros r Hr. unfold p1. destruct (Nat.ltb_spec r n); auto; lia.
    + assert (Hx : x <> Barrier) by (intros ->; discriminate).
      assert (H' : match exec x k with Some (Ok k1) => grun l k1 | e => e end = Some (Ok k')) by (destruct x; [exact H..|congruence]).
      destruct (exec x k) as [[k1|]|] eqn:Ex; try discriminate.
      assert (Hm : forall q, mine q x = Nat.eqb r q).
      { intros q. unfold mine. destruct x; [| | |congruence]; rewrite Er; reflexivity. }
      destruct (IH k1 k' (pupd p r (filter (mine r) l)) Ho') as (m & p' & Hs & Hf); auto.
      { intros q Hq. unfold pupd. destruct (Nat.eqb_spec r q); subst; auto. rewrite Hp by auto. cbn [filter]. rewrite Hm.
        destruct (Nat.eqb_spec r q); [congruence|auto]. }
      exists (S m), p'. split; auto. econstructor; [|exact Hs].
      apply (step_op St Dt outs gtime cod rank n r x (filter (mine r) l) k p k1); auto; [|apply conf_eq_refl].
      rewrite Hp by auto. cbn [filter]. rewrite Hm, Nat.eqb_refl. reflexivity.
Qed.
End Sim.

(* the while loop of a run that lasts [q] steps *)
Section While.
Variables St Dt : Type.
Variable outs : St -> option string -> list Dt.
Variable gtime : Dt -> option Z.
Variable cod : string -> code St Dt.

Lemma while_fold ord q dt : (0 < dt)%Z -> forall fuel k w l,
  (k <= q)%nat -> loop_while St Dt outs gtime cod fuel ord (mkLoop St w (Z.of_nat q * dt) dt 0 (Z.of_nat k * dt) (Z.of_nat k)) = Ok l ->
  fold_res (iteration St Dt outs gtime cod ord) w
    (map (fun k => (Z.of_nat k * dt, Z.of_nat k =? niters (Z.of_nat q * dt) dt 0 - 1)%Z) (seq k (q - k))) = Ok (l_w St l).
Proof.
  intros Hdt. induction fuel as [|fuel IH]; intros k w l Hk H; cbn [loop_while l_run l_t l_t0] in H.
  - destruct (_ || _)%bool eqn:E; [discriminate|]. injection H as <-. apply orb_false_iff in E as [_ E]. apply Z.ltb_ge in E.
    replace (q - k)%nat with 0%nat by nia. reflexivity.
  - destruct (_ || _)%bool eqn:E.
    + apply orb_true_iff in E. assert (Hlt : (k < q)%nat) by (destruct E as [E|E]; apply Z.ltb_lt in E; nia).
      unfold loop_iter in H. cbn [l_w l_run l_dt l_t0 l_t l_iter] in H.
      destruct (iter_step St Dt outs gtime cod ord _ _) as [w1|] eqn:E1; [|discriminate]. cbn [bind] in H.
      replace (q - k)%nat with (S (q - S k)) by lia. cbn [seq map fold_res]. unfold iteration at 1. cbn [fst snd]. rewrite E1. cbn [bind].
      apply (IH (S k) w1 l); [lia|]. replace (Z.of_nat (S k) * dt)%Z with (Z.of_nat k * dt + dt)%Z by lia.
      replace (Z.of_nat (S k)) with (Z.of_nat k + 1)%Z by lia. exact H.
    + injection H as <-. apply orb_false_iff in E as [_ E]. apply Z.ltb_ge in E.
      replace (q - k)%nat with 0%nat by nia. reflexivity.
Qed.

Lemma run_one_process fuel ord q dt w l : (0 < dt)%Z ->
  loop_run St Dt outs gtime cod fuel ord (Z.of_nat q * dt) dt 0 0 w = Ok l ->
  exists w2, one_process St Dt outs gtime cod ord (iterations q dt) w = Ok w2 /\
             fold_res (final_one St Dt outs cod) w2 (concat (groups ord)) = Ok (l_w St l).
Proof.
  intros Hdt H. unfold loop_run in H. unfold one_process.
  destruct (fold_res (setup_one St Dt outs cod) w (concat (groups ord))) as [w1|]; [|discriminate]. cbn [bind] in *.
  destruct (loop_while _ _ _ _ _ fuel ord _) as [l1|] eqn:E; [|discriminate]. cbn [bind] in H.
  destruct (fold_res (final_one St Dt outs cod) (l_w St l1) (concat (groups ord))) as [w3|] eqn:E3; [|discriminate]. cbn [bind] in H.
  injection H as <-. exists (l_w St l1). split; auto.
  pose proof (while_fold ord q dt Hdt fuel 0 w1 l1 (Nat.le_0_l q) E) as H. rewrite Nat.sub_0_r in H. exact H.
Qed.

Lemma iterations_flags q dt : (0 < dt)%Z -> (0 < q)%nat -> well_flagged (iterations q dt).
Proof.
  intros Hdt Hq. destruct q as [|q]; [lia|].
  assert (Hn : niters (Z.of_nat (S q) * dt) dt 0 = Z.of_nat (S q)).
  { unfold niters. destruct (Z.eqb_spec dt 0); [lia|]. rewrite Z.add_0_r. apply Z.quot_mul. lia. }
  exists (map (fun k => (Z.of_nat k * dt, Z.of_nat k =? niters (Z.of_nat (S q) * dt) dt 0 - 1)%Z) (seq 0 q)), (Z.of_nat q * dt)%Z. split.
  - unfold iterations. rewrite seq_S, map_app. f_equal. cbn [map Nat.add]. rewrite Hn. f_equal. f_equal. apply Z.eqb_eq. lia.
  - intros ti Hi. apply in_map_iff in Hi as (k & <- & Hk). apply in_seq in Hk. cbn [snd]. rewrite Hn. apply Z.eqb_neq. lia.
Qed.
End While.
