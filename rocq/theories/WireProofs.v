From Coq Require Import String List ZArith Bool Lia.
From Verif Require Import PyBase PyLemmas NamesModel NamesSpec NamesProofs TrigOrderModel ParamsModel TagModel WireModel WireSpec.
Import ListNotations.
Local Open Scope string_scope.

Lemma dget_dset {V} k k' (v : V) d : dget k (dset k' v d) = if String.eqb k k' then Some v else dget k d.
Proof.
  induction d as [|[c w] d IH]; cbn; [reflexivity|]. destruct (String.eqb_spec k' c) as [<-|N]; cbn.
  - destruct (String.eqb_spec k k'); reflexivity.
  - rewrite IH. destruct (String.eqb_spec k c) as [<-|N2]; [|reflexivity]. destruct (String.eqb_spec k k'); congruence.
Qed.
Lemma dmem_get {V} k (d : dict V) : dmem k d = match dget k d with Some _ => true | None => false end.
Proof. unfold dmem. destruct (dget k d); reflexivity. Qed.
Lemma keys_dset_in {V} k (v w : V) d : dget k d = Some w -> map fst (dset k v d) = map fst d.
Proof. intros H. apply keys_dset. apply dget_In in H. apply in_map_iff. now exists (k, w). Qed.
Lemma fold_res_app {A S} (f : S -> A -> res S) l1 l2 s : fold_res f s (l1 ++ l2) = bind (fold_res f s l1) (fun s' => fold_res f s' l2).
Proof. revert s. induction l1 as [|x l1 IH]; intros s; cbn [fold_res app]; [reflexivity|]. destruct (f s x); cbn [bind]; auto. Qed.

Lemma split_means x o : split_v x = Ok o <-> exists s, x = YStr s /\ means s (o_obj o) (o_key o) (o_delay o) (o_input o).
Proof.
  unfold split_v, means. split.
  - destruct x; try discriminate. intros H. apply split_output_iff in H. eauto.
  - intros (s & -> & H). now apply split_output_iff.
Qed.
Lemma means_split s o k d n : means s o k d n -> split_v (YStr s) = Ok (mkOutput o k d n).
Proof. intros H. apply split_means. exists s. split; [reflexivity|exact H]. Qed.
Lemma means_fun s o k d n o' k' d' n' : means s o k d n -> means s o' k' d' n' -> o = o' /\ k = k' /\ d = d' /\ n = n'.
Proof. intros H H'. apply means_split in H. apply means_split in H'. rewrite H in H'. injection H' as -> -> -> ->. auto. Qed.

Section P.
Variables T D : Type.
Variable isinst : D -> T -> bool.
Notation sobj := (sobj T D).
Notation wst := (wst T D).
Notation append := (append T D isinst).
Notation resolve := (resolve T D).
Notation value_of := (value_of T D).

Lemma append_list t items x l : append t items (RList (x :: l)) = (i <- append t items x ;; append t i (RList l)).
Proof. reflexivity. Qed.
Fixpoint size (r : ref D) : nat := match r with RList l => S ((fix go l := match l with [] => 0 | x :: q => S (size x) + go q end) l) | _ => 0 end%nat.
Lemma size_cons x l : size (RList (x :: l)) = (S (size x) + size (RList l))%nat.
Proof. cbn. lia. Qed.
Lemma append_ok t r : forall items items', append t items r = Ok items' <-> exists l, leaves D r l /\ (forall v, In v l -> isinst v t = true) /\ items' = (items ++ map Here l)%list.
Proof.
  assert (G : forall n r, (size r <= n)%nat -> forall items items', append t items r = Ok items' <-> exists l, leaves D r l /\ (forall v, In v l -> isinst v t = true) /\ items' = (items ++ map Here l)%list); [|exact (G (size r) r (le_n _))].
  clear r. induction n as [|n IH]; intros r Hr items items'.
  - destruct r as [|d|l]; [| |cbn in Hr; lia].
    + split; [discriminate|]. intros (l & H & _). inversion H.
    + cbn. split.
      * destruct (isinst d t) eqn:Q; [|discriminate]. intros H. injection H as <-. exists [d]. split; [constructor|]. split; [intros v [<-|[]]; exact Q|reflexivity].
      * intros (l & H & I & ->). inversion H; subst. rewrite (I d (or_introl eq_refl)). reflexivity.
  - destruct r as [|d|l]; [apply IH; cbn; lia|apply IH; cbn; lia|].
    revert Hr items items'. induction l as [|x l IHl]; intros Hr items items'.
    + cbn. split; [intros H; injection H as <-; exists []; split; [constructor|split; [intros v []|now rewrite app_nil_r]]|].
      intros (l & H & _ & ->). inversion H; subst. cbn. now rewrite app_nil_r.
    + rewrite size_cons in Hr. rewrite append_list. split.
      * intros H. inv_bind H. apply IH in E; [|lia]. destruct E as (a1 & L1 & I1 & ->). apply IHl in H; [|lia]. destruct H as (a2 & L2 & I2 & ->).
        exists (a1 ++ a2)%list. split; [now constructor|]. split; [intros v J; apply in_app_or in J as [J|J]; auto|]. now rewrite map_app, app_assoc.
      * intros (a0 & H & I & ->). inversion H; subst. assert (E : append t items x = Ok (items ++ map Here a)%list) by (apply IH; [lia|]; exists a; split; [assumption|split; [intros v J; apply I, in_or_app; auto|reflexivity]]).
        rewrite E. cbn [bind]. apply IHl; [lia|]. exists b. split; [assumption|]. split; [intros v J; apply I, in_or_app; auto|]. now rewrite map_app, app_assoc.
Qed.

Lemma value_iff objs o k r : value T D objs o k r <->
  exists ob, dget o objs = Some ob /\ match k with None => r = RObj (s_self ob) | Some k => exists p, s_proc ob = Some p /\ dget k (p_outs p) = Some r end.
Proof.
  split.
  - intros [o' ob G|o' ob p k' r' G1 G2 G3]; exists ob; eauto.
  - intros (ob & G & X). destruct k as [k|]; [destruct X as (p & P & K); eapply value_out; eauto|subst; now constructor].
Qed.
Lemma value_of_ok objs remote o r : value_of objs remote o = Ok r <->
  value T D objs (o_obj o) (o_key o) r \/ (dget (o_obj o) objs = None /\ dget (o_obj o) remote <> None /\ r = RNone).
Proof.
  rewrite value_iff. unfold WireModel.value_of. destruct (dget (o_obj o) objs) as [ob|] eqn:E.
  - destruct (o_key o) as [k|].
    + unfold proc_of. split.
      * intros H. inv_bind H. destruct (s_proc ob) as [p|] eqn:P; [|discriminate]. injection E0 as <-. destruct (dget k (p_outs p)) eqn:K; [|discriminate]. injection H as <-. left. eauto.
      * intros [(ob' & G & p & P & K)|[H _]]; [|discriminate]. injection G as <-. rewrite P. cbn [bind]. now rewrite K.
    + split; [intros H; injection H as <-; left; eauto|]. intros [(ob' & G & ->)|[H _]]; [|discriminate]. now injection G as <-.
  - rewrite dmem_get. destruct (dget (o_obj o) remote) as [q|] eqn:R.
    + split; [intros H; injection H as <-; right; repeat split; congruence|]. intros [(ob & G & _)|(_ & _ & ->)]; [discriminate|reflexivity].
    + split; [discriminate|]. intros [(ob & G & _)|(_ & X & _)]; congruence.
Qed.
Lemma value_fun objs o k r r' : value T D objs o k r -> value T D objs o k r' -> r = r'.
Proof.
  intros H H'. apply value_iff in H as (ob & G & X), H' as (ob' & G' & X'). rewrite G in G'. injection G' as <-.
  destruct k; [destruct X as (p & P & K), X' as (p' & P' & K')|]; congruence.
Qed.

(* ------------------------------------------------------------- what does not change *)

Definition same_obj (a b : sobj) : Prop := s_self a = s_self b /\
  match s_proc a, s_proc b with
  | None, None => True
  | Some p, Some q => p_outs q = p_outs p /\ map fst (p_ins q) = map fst (p_ins p) /\
      forall i n, dget i (p_ins p) = Some n -> exists n', dget i (p_ins q) = Some n' /\ in_type n' = in_type n /\ in_list n' = in_list n
  | _, _ => False
  end.
Definition same (a b : wst) : Prop :=
  w_remote b = w_remote a /\ w_ranks b = w_ranks a /\ map fst (w_objs b) = map fst (w_objs a) /\
  forall o ob, dget o (w_objs a) = Some ob -> exists ob', dget o (w_objs b) = Some ob' /\ same_obj ob ob'.

Lemma same_obj_refl a : same_obj a a.
Proof. split; [reflexivity|]. destruct (s_proc a); [|exact I]. split; [reflexivity|]. split; [reflexivity|]. eauto. Qed.
Lemma same_obj_trans a b c : same_obj a b -> same_obj b c -> same_obj a c.
Proof.
  intros [S1 P1] [S2 P2]. split; [congruence|]. destruct (s_proc a) as [p|], (s_proc b) as [q|], (s_proc c) as [r|]; try tauto.
  destruct P1 as (A1 & A2 & A3), P2 as (B1 & B2 & B3). split; [congruence|]. split; [congruence|]. intros i n H. destruct (A3 i n H) as (n1 & H1 & T1 & L1).
  destruct (B3 i n1 H1) as (n2 & H2 & T2 & L2). exists n2. split; [exact H2|]. split; congruence.
Qed.
Lemma same_refl a : same a a.
Proof. do 3 (split; [reflexivity|]). intros o ob H. exists ob. split; [exact H|apply same_obj_refl]. Qed.
Lemma same_trans a b c : same a b -> same b c -> same a c.
Proof.
  intros (A1 & A2 & A3 & A4) (B1 & B2 & B3 & B4). split; [congruence|]. split; [congruence|]. split; [congruence|].
  intros o ob H. destruct (A4 o ob H) as (ob1 & H1 & S1). destruct (B4 o ob1 H1) as (ob2 & H2 & S2). exists ob2. split; [exact H2|eapply same_obj_trans; eauto].
Qed.
Lemma dget_keys {V W} (d : dict V) (d' : dict W) k : map fst d' = map fst d -> (dget k d = None <-> dget k d' = None).
Proof. intros H. split; intros X; apply dget_None; [rewrite H|rewrite <- H]; now apply dget_None. Qed.
Lemma same_none a b o : same a b -> (dget o (w_objs a) = None <-> dget o (w_objs b) = None).
Proof. intros (_ & _ & K & _). now apply dget_keys. Qed.
Lemma same_back a b o ob' : same a b -> dget o (w_objs b) = Some ob' -> exists ob, dget o (w_objs a) = Some ob /\ same_obj ob ob'.
Proof.
  intros S H. destruct (dget o (w_objs a)) as [ob|] eqn:E; [|apply (same_none a b o S) in E; congruence].
  destruct S as (_ & _ & _ & S). destruct (S o ob E) as (ob2 & H2 & X). rewrite H in H2. injection H2 as <-. eauto.
Qed.
Lemma same_value a b o k r : same a b -> (value T D (w_objs a) o k r <-> value T D (w_objs b) o k r).
Proof.
  intros S. rewrite !value_iff. split; intros (ob & G & X).
  - destruct S as (_ & _ & _ & S). destruct (S _ _ G) as (ob' & G' & [Q Q']). exists ob'. split; [exact G'|].
    destruct k; [|congruence]. destruct X as (p & P & K). rewrite P in Q'. destruct (s_proc ob') as [q|]; [|tauto]. exists q. split; [reflexivity|]. destruct Q' as (-> & _). exact K.
  - destruct (same_back _ _ _ _ S G) as (ob' & G' & [Q Q']). exists ob'. split; [exact G'|].
    destruct k; [|congruence]. destruct X as (p & P & K). rewrite P in Q'. destruct (s_proc ob') as [q|]; [|tauto]. exists q. split; [reflexivity|]. destruct Q' as (<- & _). exact K.
Qed.
Lemma same_apart a b : same a b -> apart T D a -> apart T D b.
Proof. intros S A o H. rewrite (proj1 S). apply A. intros X. apply H. now apply (same_none a b o). Qed.
Variable hash : string -> Z.
Notation connect_ref := (connect_ref hash T D isinst).
Notation connect := (connect hash T D isinst).
Lemma same_gives a b d i t x l : same a b -> (gives hash T D isinst a d i t x l <-> gives hash T D isinst b d i t x l).
Proof.
  intros S. pose proof (proj1 S) as R. split; intros H; inversion H; subst.
  - eapply gives_here; eauto. now apply (same_value a b).
  - eapply gives_far; eauto; [now apply (same_none a b)|congruence].
  - eapply gives_here; eauto. now apply (same_value a b).
  - eapply gives_far; eauto; [now apply (same_none a b)|congruence].
Qed.
Lemma same_sends a b o e l : same a b -> sends hash T D a o e l -> sends hash T D b o e l.
Proof.
  intros S. pose proof (proj1 S) as R. intros H; inversion H; subst.
  - apply sends_here. intros X. now apply (same_none a b d S) in X.
  - eapply sends_other; eauto.
  - eapply sends_none; eauto. now apply (same_value a b).
  - eapply sends_far; eauto; [now apply (same_none a b)|now apply (same_value a b)|congruence].
Qed.

(* ------------------------------------------------------------- one reference *)

Lemma into_input_ok st d i f st' : into_input T D st d i f = Ok st' <-> exists ob p n l, dget d (w_objs st) = Some ob /\ s_proc ob = Some p /\
  dget i (p_ins p) = Some n /\ f n = Ok l /\ st' = set_proc T D st d ob (mkP (p_outs p) (dset i (mkInp (in_type n) (in_list n) l) (p_ins p)) (p_far p)).
Proof.
  unfold into_input, proc_of. split.
  - destruct (dget d (w_objs st)) as [ob|]; [|discriminate]. destruct (s_proc ob) as [p|] eqn:P; [|discriminate]. cbn [bind].
    destruct (dget i (p_ins p)) as [n|] eqn:N; [|discriminate]. intros H. inv_bind H. injection H as <-. exists ob, p, n, a. auto 6.
  - intros (ob & p & n & l & G & P & N & F & ->). rewrite G, P. cbn [bind]. rewrite N, F. reflexivity.
Qed.

Definition grown (st : wst) (e : string * string * yval) (a b : wst) : Prop := same a b /\
  forall o ob ob' p p', dget o (w_objs a) = Some ob -> dget o (w_objs b) = Some ob' -> s_proc ob = Some p -> s_proc ob' = Some p' ->
    (forall j n, dget j (p_ins p) = Some n -> exists l, dget j (p_ins p') = Some (mkInp (in_type n) (in_list n) (in_items n ++ l)%list) /\
       (o = fst (fst e) /\ j = snd (fst e) -> gives hash T D isinst st o j (in_type n) (snd e) l) /\ (~ (o = fst (fst e) /\ j = snd (fst e)) -> l = [])) /\
    exists l, p_far p' = (p_far p ++ l)%list /\ sends hash T D st o e l.

Lemma set_proc_same st d ob p p' : dget d (w_objs st) = Some ob -> s_proc ob = Some p -> p_outs p' = p_outs p -> map fst (p_ins p') = map fst (p_ins p) ->
  (forall i n, dget i (p_ins p) = Some n -> exists n', dget i (p_ins p') = Some n' /\ in_type n' = in_type n /\ in_list n' = in_list n) ->
  same st (set_proc T D st d ob p').
Proof.
  intros G P O K N. split; [reflexivity|]. split; [reflexivity|]. cbn [set_proc w_objs]. split; [eapply keys_dset_in; eauto|].
  intros o ob0 H. rewrite dget_dset. destruct (String.eqb_spec o d) as [->|Ne].
  - rewrite G in H. injection H as <-. eexists. split; [reflexivity|]. split; [reflexivity|]. cbn [s_proc]. rewrite P. auto.
  - exists ob0. split; [exact H|apply same_obj_refl].
Qed.

Definition with_links (st : wst) (l : list link) : wst := mkW (w_objs st) (w_remote st) (w_ranks st) l.

(* nothing happens to objects other than [d], and to [d] what is told *)
Lemma grown_set st d ob p p' e : dget d (w_objs st) = Some ob -> s_proc ob = Some p -> p_outs p' = p_outs p -> map fst (p_ins p') = map fst (p_ins p) ->
  (forall j n, dget j (p_ins p) = Some n -> exists l, dget j (p_ins p') = Some (mkInp (in_type n) (in_list n) (in_items n ++ l)%list) /\
       (d = fst (fst e) /\ j = snd (fst e) -> gives hash T D isinst st d j (in_type n) (snd e) l) /\ (~ (d = fst (fst e) /\ j = snd (fst e)) -> l = [])) ->
  (exists l, p_far p' = (p_far p ++ l)%list /\ sends hash T D st d e l) ->
  (forall o, o <> d -> dget o (w_objs st) <> None -> o <> fst (fst e) /\ sends hash T D st o e []) ->
  grown st e st (set_proc T D st d ob p').
Proof.
  intros G P O K N F Oth. split.
  - eapply set_proc_same; eauto. intros i n H. destruct (N i n H) as (l & Q & _). eexists. split; [exact Q|]. split; reflexivity.
  - intros o ob0 ob0' q q' G0 G0' Q Q'. cbn [set_proc w_objs] in G0'. rewrite dget_dset in G0'. destruct (String.eqb_spec o d) as [->|Ne].
    + injection G0' as <-. cbn [s_proc] in Q'. injection Q' as <-. rewrite G in G0. injection G0 as <-. rewrite P in Q. injection Q as <-. split; [exact N|exact F].
    + rewrite G0 in G0'. injection G0' as <-. rewrite Q in Q'. injection Q' as <-. destruct (Oth o Ne) as [X Y]; [congruence|]. split.
      * intros j n H. exists []. rewrite app_nil_r. split; [destruct n; exact H|]. split; [intros [Z _]; contradiction|reflexivity].
      * exists []. rewrite app_nil_r. auto.
Qed.

Lemma grown_links st e a b l : grown st e (with_links a l) b -> grown st e a b.
Proof. intros [S H]. split; [exact S|exact H]. Qed.

Lemma step d i st x st' : apart T D st -> connect_ref d i st x = Ok st' ->
  grown st (d, i, x) st st' /\ exists s o k dl n, x = YStr s /\ means s o k dl n /\ w_links st' = (w_links st ++ [mkL o d k i])%list.
Proof.
  intros A H. unfold WireModel.connect_ref in H. inv_bind H. destruct a as [o r]. unfold WireModel.resolve in E. inv_bind E. inv_bind E. injection E as -> <-.
  apply split_means in E0 as (s & -> & M). apply value_of_ok in E1. cbn [fst snd] in H.
  set (st1 := mkW (w_objs st) (w_remote st) (w_ranks st) (w_links st ++ [mkL (o_obj o) d (o_key o) i])%list) in *.
  assert (Lk : w_links st' = w_links st1).
  { unfold WireModel.connect in H. destruct a0; destruct (dmem d (w_objs st1));
      try (apply into_input_ok in H as (? & ? & ? & ? & _ & _ & _ & _ & ->); reflexivity);
      try (injection H as <-; reflexivity); destruct (dget (o_obj o) (w_objs st1)); try discriminate; inv_bind H; destruct (dget d (w_remote st1)); try discriminate; injection H as <-; reflexivity. }
  split; [|exists s, (o_obj o), (o_key o), (o_delay o), (o_input o); auto].
  apply (grown_links st _ st st' (w_links st1)). change (with_links st (w_links st1)) with st1.
  assert (Gs : forall e b, grown st1 e st1 b -> grown st e st1 b).
  { intros e b [S G]. split; [exact S|]. intros o1 ob1 ob1' p1 p1' X1 X2 X3 X4. destruct (G o1 ob1 ob1' p1 p1' X1 X2 X3 X4) as [G1 (l & G2 & G3)]. split.
    - intros j n Hn. destruct (G1 j n Hn) as (l1 & Y1 & Y2 & Y3). exists l1. split; [exact Y1|]. split; [|exact Y3]. intros Y. specialize (Y2 Y). exact (proj1 (same_gives st1 st _ _ _ _ _ (same_refl st1)) Y2).
    - exists l. split; [exact G2|]. exact (same_sends st1 st _ _ _ (same_refl st1) G3). }
  apply Gs. clear Gs. assert (A1 : apart T D st1) by exact A. change (w_objs st) with (w_objs st1) in E1. change (w_remote st) with (w_remote st1) in E1. clearbody st1. clear A Lk st. rename st1 into st, A1 into A.
  assert (Away : forall o1, o1 <> o_obj o -> sends hash T D st o1 (d, i, YStr s) []) by (intros o1 N; eapply sends_other; [exact M|congruence]).
  unfold WireModel.connect in H. rewrite dmem_get in H. destruct (dget d (w_objs st)) as [dob|] eqn:Gd.
  - (* the reader is here *)
    assert (Sh : forall o1, sends hash T D st o1 (d, i, YStr s) []) by (intros o1; apply sends_here; congruence).
    assert (Q : exists ob p n l, dget d (w_objs st) = Some ob /\ s_proc ob = Some p /\ dget i (p_ins p) = Some n /\ gives hash T D isinst st d i (in_type n) (YStr s) l /\
       st' = set_proc T D st d ob (mkP (p_outs p) (dset i (mkInp (in_type n) (in_list n) (in_items n ++ l)%list) (p_ins p)) (p_far p))).
    { assert (Q : forall r, r <> RNone -> a0 = r -> into_input T D st d i (fun n => append (in_type n) (in_items n) r) = Ok st' ->
         exists ob p n l, dget d (w_objs st) = Some ob /\ s_proc ob = Some p /\ dget i (p_ins p) = Some n /\ gives hash T D isinst st d i (in_type n) (YStr s) l /\
         st' = set_proc T D st d ob (mkP (p_outs p) (dset i (mkInp (in_type n) (in_list n) (in_items n ++ l)%list) (p_ins p)) (p_far p))).
      { intros r Nr -> X. apply into_input_ok in X as (ob & p & n & l & G & P & N & F & ->). apply append_ok in F as (lv & L & I & ->). exists ob, p, n, (map Here lv).
        split; [exact G|]. split; [exact P|]. split; [exact N|]. split; [|reflexivity]. destruct E1 as [V|(_ & _ & V)]; [|contradiction]. eapply gives_here; eauto. }
      destruct a0 as [|v|lv].
      - apply into_input_ok in H as (ob & p & n & l & G & P & N & F & ->). destruct (dget (o_obj o) (w_remote st)) as [q|] eqn:R; [|discriminate]. injection F as <-.
        exists ob, p, n, [Far q (computeTag hash (o_obj o) d (o_key o) i)]. split; [exact G|]. split; [exact P|]. split; [exact N|]. split; [|reflexivity].
        eapply gives_far; eauto. destruct E1 as [V|(V & _)]; [|exact V]. apply value_iff in V as (ob1 & G1 & _). exfalso. rewrite (A (o_obj o)) in R; congruence.
      - apply (Q (RObj v)); [discriminate|reflexivity|exact H].
      - apply (Q (RList lv)); [discriminate|reflexivity|exact H]. }
    destruct Q as (ob & p & n & l & G & P & N & Gv & ->). apply (grown_set st d ob p); cbn [p_outs p_ins p_far fst snd]; auto.
    + eapply keys_dset_in; eauto.
    + intros j m Hj. rewrite dget_dset. destruct (String.eqb_spec j i) as [->|Ne].
      * rewrite N in Hj. injection Hj as <-. exists l. split; [reflexivity|]. split; [intros _; exact Gv|]. intros X. exfalso. apply X. auto.
      * exists []. rewrite app_nil_r. split; [destruct m; exact Hj|]. split; [intros [_ X]; contradiction|reflexivity].
    + exists []. rewrite app_nil_r. auto.
  - (* the reader is elsewhere *)
    assert (Nd : forall o1, dget o1 (w_objs st) <> None -> o1 <> d) by (intros o1 X Y; congruence).
    assert (Still : st' = st -> (value T D (w_objs st) (o_obj o) (o_key o) RNone \/ dget (o_obj o) (w_objs st) = None) -> grown st (d, i, YStr s) st st').
    { intros -> V. split; [apply same_refl|]. intros o1 ob1 ob1' p1 p1' X1 X2 X3 X4. rewrite X1 in X2. injection X2 as <-. rewrite X3 in X4. injection X4 as <-. split.
      - intros j n Hn. exists []. rewrite app_nil_r. split; [destruct n; exact Hn|]. cbn [fst snd]. split; [|reflexivity]. intros [-> _]. congruence.
      - exists []. rewrite app_nil_r. split; [reflexivity|]. destruct (string_dec o1 (o_obj o)) as [->|Ne]; [|now apply Away]. destruct V as [V|V]; [|congruence]. eapply sends_none; eauto. }
    assert (Q : a0 = RNone \/ exists ob p q, dget (o_obj o) (w_objs st) = Some ob /\ s_proc ob = Some p /\ dget d (w_remote st) = Some q /\ a0 <> RNone /\
       st' = set_proc T D st (o_obj o) ob (mkP (p_outs p) (p_ins p) (p_far p ++ [(o_key o, mkSpec q (computeTag hash (o_obj o) d (o_key o) i) (o_delay o))])%list)).
    { destruct a0 as [|v|lv]; [now left|right|right]; (destruct (dget (o_obj o) (w_objs st)) as [ob|] eqn:G; [|discriminate]; inv_bind H; unfold proc_of in E; destruct (s_proc ob) as [p|] eqn:P; [|discriminate];
        injection E as <-; destruct (dget d (w_remote st)) as [q|]; [|discriminate]; injection H as <-; exists ob, p, q; repeat split; auto; discriminate). }
    destruct Q as [->|(ob & p & q & G & P & R & Nr & ->)].
    + apply Still; [congruence|]. destruct E1 as [V|(V & _)]; auto.
    + destruct E1 as [V|(_ & _ & V)]; [|contradiction]. apply (grown_set st (o_obj o) ob p); cbn [p_outs p_ins p_far fst snd]; auto.
      * intros j n Hn. exists []. rewrite app_nil_r. split; [destruct n; exact Hn|]. split; [|reflexivity]. intros [X _]. congruence.
      * eexists. split; [reflexivity|]. eapply sends_far; eauto.
Qed.
End P.
