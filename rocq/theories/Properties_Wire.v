(* C93: connection of the inputs of all objects, in one process or in several. *)
From Coq Require Import String List Ascii ZArith Bool Lia.
From Verif Require Import PyBase PyLemmas NamesModel NamesSpec TrigOrderModel ParamsModel TagModel WireModel WireSpec WireProofs WireProofs2.
From Verif Require TrigOrderSpec LoopModel LoopSpec BuildModel BuildSpec BuildProofs2 Properties_Build.
Import ListNotations.
Local Open Scope string_scope.

Lemma Forall2_in_l {A B} (R : A -> B -> Prop) l l' : Forall2 R l l' -> forall a, In a l -> exists b, In b l' /\ R a b.
Proof. induction 1 as [|x y l l' H F IH]; intros a []; [subst; exists y; cbn; auto|]. destruct (IH a H0) as (b & I & Q). exists b. cbn. auto. Qed.
Lemma Forall2_in_r {A B} (R : A -> B -> Prop) l l' : Forall2 R l l' -> forall b, In b l' -> exists a, In a l /\ R a b.
Proof. induction 1 as [|x y l l' H F IH]; intros b []; [subst; exists x; cbn; auto|]. destruct (IH b H0) as (a & I & Q). exists a. cbn. auto. Qed.

Section C93.
Variable hash : string -> Z.
Variables T D : Type.
Variable isinst : D -> T -> bool.
Notation wst := (wst T D).
Notation connect_objects := (connect_objects hash T D isinst).
Notation gives := (gives hash T D isinst).
Notation sends := (sends hash T D).
Notation apart := (apart T D).

(* what the inputs of an object contain, and what it sends *)
Definition contains (st : wst) (d i : string) (n : inp T D) : Prop :=
  exists ob p, dget d (w_objs st) = Some ob /\ s_proc ob = Some p /\ dget i (p_ins p) = Some n.
Definition transmits (st : wst) (o : string) (l : list (option string * spec)) : Prop :=
  exists ob p, dget o (w_objs st) = Some ob /\ s_proc ob = Some p /\ p_far p = l.

(* Every input receives what its references give, in the order in which they are written, after what it had. *)
Theorem C93_inputs proc (st st' : wst) ps d i n : apart st -> connect_objects proc st ps = Ok st' -> contains st d i n ->
  exists ls, Forall2 (gives st d i (in_type n)) (refs ps d i) ls /\ contains st' d i (mkInp (in_type n) (in_list n) (in_items n ++ concat ls)).
Proof.
  intros A H (ob & p & G & P & N). apply objects_wire in H as [_ H]; [|exact A]. destruct (wire_all hash T D isinst _ _ _ A H) as ((_ & _ & _ & S) & W & _).
  destruct (S _ _ G) as (ob' & G' & [_ Q]). rewrite P in Q. destruct (s_proc ob') as [p'|] eqn:P'; [|tauto]. destruct (W _ _ _ _ _ G G' P P') as [Wi _].
  destruct (Wi _ _ N) as (ls & F & N'). exists ls. split; [exact F|]. exists ob', p'. auto.
Qed.

(* Every object sends one message for each reader that is elsewhere, in the order of the configuration. *)
Theorem C93_outputs proc (st st' : wst) ps o l : apart st -> connect_objects proc st ps = Ok st' -> transmits st o l ->
  exists ls, Forall2 (sends st o) (edges ps) ls /\ transmits st' o (l ++ concat ls).
Proof.
  intros A H (ob & p & G & P & <-). apply objects_wire in H as [_ H]; [|exact A]. destruct (wire_all hash T D isinst _ _ _ A H) as ((_ & _ & _ & S) & W & _).
  destruct (S _ _ G) as (ob' & G' & [_ Q]). rewrite P in Q. destruct (s_proc ob') as [p'|] eqn:P'; [|tauto]. destruct (W _ _ _ _ _ G G' P P') as [_ (ls & F & N')].
  exists ls. split; [exact F|]. exists ob', p'. auto.
Qed.

(* Nothing else changes: objects, outputs, names and types of inputs, ranks. *)
Theorem C93_rest proc (st st' : wst) ps : apart st -> connect_objects proc st ps = Ok st' ->
  map fst (w_objs st') = map fst (w_objs st) /\ w_remote st' = w_remote st /\ w_ranks st' = w_ranks st /\
  (forall o k r, value T D (w_objs st) o k r <-> value T D (w_objs st') o k r) /\
  (forall d i n', contains st' d i n' -> exists n, contains st d i n /\ in_type n' = in_type n /\ in_list n' = in_list n).
Proof.
  intros A H. apply objects_wire in H as [_ H]; [|exact A]. destruct (wire_all hash T D isinst _ _ _ A H) as (S & _). pose proof S as (R & K & N & _).
  split; [exact N|]. split; [exact R|]. split; [exact K|]. split; [intros; now apply same_value|].
  intros d i n' (ob' & p' & G' & P' & I'). destruct (same_back T D _ _ _ _ S G') as (ob & G & [_ Q]). rewrite P' in Q. destruct (s_proc ob) as [p|] eqn:P; [|tauto]. destruct Q as (_ & Q1 & Q2).
  destruct (dget i (p_ins p)) as [n|] eqn:I; [|apply (proj1 (dget_keys _ _ i Q1)) in I; congruence]. destruct (Q2 _ _ I) as (n2 & I2 & X). rewrite I' in I2. injection I2 as <-.
  exists n. split; [exists ob, p; auto|exact X].
Qed.

(* The connections recorded for the diagram are all those of the configuration, the same in every process. *)
Theorem C93_diagram proc (st st' : wst) ps : apart st -> connect_objects proc st ps = Ok st' ->
  exists ls, w_links st' = (w_links st ++ ls)%list /\
    Forall2 (fun e l => exists s o k dl n, snd e = YStr s /\ means s o k dl n /\ l = mkL o (fst (fst e)) k (snd (fst e))) (edges ps) ls.
Proof. intros A H. apply objects_wire in H as [_ H]; [|exact A]. destruct (wire_all hash T D isinst _ _ _ A H) as (_ & _ & ls & F & L). exists ls. split; [exact L|exact F]. Qed.

Theorem C93_ok proc (st : wst) ps : apart st ->
  (exists st', connect_objects proc st ps = Ok st') <->
  (forall d p, In (d, p) ps -> outputs_ok T D proc st d p /\ names_ok T D st d p) /\
  (forall e, In e (edges ps) -> edge_ok hash T D isinst st e).
Proof.
  intros A. split.
  - intros [st' H]. apply objects_wire in H as [H1 H2]; [|exact A]. split; [exact H1|]. apply (wire_ok hash T D isinst); eauto.
  - intros [H1 H2]. apply (wire_ok hash T D isinst) in H2 as [st' H2]; [|exact A]. exists st'. apply objects_wire; auto.
Qed.

(* ---- several processes ---- *)

(* Every known object is in its own process; some data objects ("shared") are in all of them. *)
Definition spread (procs : Z -> Prop) (known shared : string -> Prop) (home : string -> Z) (sts : Z -> wst) : Prop :=
  (forall o, known o -> procs (home o)) /\
  (forall q o ob, procs q -> shared o -> dget o (w_objs (sts q)) = Some ob -> s_proc ob = None) /\
  forall q, procs q -> forall o,
    (dget o (w_objs (sts q)) <> None <-> known o /\ (shared o \/ home o = q)) /\
    (forall r, dget o (w_remote (sts q)) = Some r <-> known o /\ ~ shared o /\ home o = r /\ r <> q).

Lemma spread_apart procs known shared home sts q : spread procs known shared home sts -> procs q -> apart (sts q).
Proof.
  intros (_ & _ & S) Q o H. destruct (S q Q o) as [S1 S2]. destruct (dget o (w_remote (sts q))) as [r|]; [|reflexivity]. exfalso.
  pose proof (proj1 (S2 r) eq_refl) as (_ & E1 & E2 & E3). apply S1 in H as (_ & [H|H]); [contradiction|congruence].
Qed.

(* When all the processes succeed, every reference of the configuration leads to an output of an existing object. *)
Theorem C93_references procs known shared home (sts : Z -> wst) ps d i x :
  spread procs known shared home sts -> (forall q, procs q -> exists st', connect_objects (Some q) (sts q) ps = Ok st') ->
  known d -> In (d, i, x) (edges ps) ->
  exists s o k dl n r, x = YStr s /\ means s o k dl n /\ known o /\ value T D (w_objs (sts (home o))) o k r.
Proof.
  intros S H Kd I. pose proof S as (Sh & Sd & Sp).
  assert (Hd : procs (home d)) by (apply Sh; exact Kd).
  assert (Q : forall q, procs q -> edge_ok hash T D isinst (sts q) (d, i, x)).
  { intros q Hq. apply (proj2 (proj1 (C93_ok (Some q) (sts q) ps (spread_apart _ _ _ _ _ _ S Hq)) (H q Hq))). exact I. }
  assert (R : exists s o k dl n, x = YStr s /\ means s o k dl n /\ known o).
  { pose proof (Q (home d) Hd) as Z. destruct (Sp (home d) Hd d) as [Sd' _].
    inversion Z as [d0 i0 x0 ob p n l G P N Gv|d0 i0 s o k dl n Gd M G R0|d0 i0 s o k dl n Gd M V|d0 i0 s o k dl n r ob p q Gd M V G P R0]; subst.
    - inversion Gv as [s o k dl m r lv M V L J|s o k dl m q M Go R]; subst; exists s, o, k, dl, m; (split; [reflexivity|]); (split; [exact M|]).
      + apply value_iff in V as (ob1 & G1 & _). destruct (Sp (home d) Hd o) as [So _]. apply (proj1 So). congruence.
      + destruct (Sp (home d) Hd o) as [_ So]. apply So in R. tauto.
    - exfalso. apply (proj2 Sd'); [auto|exact Gd].
    - exfalso. apply (proj2 Sd'); [auto|exact Gd].
    - exfalso. apply (proj2 Sd'); [auto|exact Gd]. }
  destruct R as (s & o & k & dl & n & -> & M & Ko). pose proof (Sh o Ko) as Ho. pose proof (Q (home o) Ho) as Z. destruct (Sp (home o) Ho o) as [So _].
  assert (Go : dget o (w_objs (sts (home o))) <> None) by (apply So; auto).
  assert (V : exists r, value T D (w_objs (sts (home o))) o k r).
  { inversion Z as [d0 i0 x0 ob p n1 l G P N Gv|d0 i0 s1 o1 k1 dl1 n1 Gd M1 G R0|d0 i0 s1 o1 k1 dl1 n1 Gd M1 V|d0 i0 s1 o1 k1 dl1 n1 r ob p q Gd M1 V G P R0]; subst.
    - inversion Gv as [s1 o1 k1 dl1 m r lv M1 V L J|s1 o1 k1 dl1 m q M1 Go1 R]; subst; destruct (means_fun _ _ _ _ _ _ _ _ _ M M1) as (<- & <- & _); [eauto|contradiction].
    - destruct (means_fun _ _ _ _ _ _ _ _ _ M M1) as (<- & <- & _). contradiction.
    - destruct (means_fun _ _ _ _ _ _ _ _ _ M M1) as (<- & <- & _). eauto.
    - destruct (means_fun _ _ _ _ _ _ _ _ _ M M1) as (<- & <- & _). eauto. }
  destruct V as [r V]. exists s, o, k, dl, n, r. auto.
Qed.

(* Both ends of every remote connection exist: each message that is sent is expected by the process it is sent
   to, under the same tag, and each expected message is sent. *)
Theorem C93_both_ends procs known shared home (sts sts' : Z -> wst) ps p q :
  spread procs known shared home sts -> (forall q, procs q -> connect_objects (Some q) (sts q) ps = Ok (sts' q)) -> procs p -> procs q ->
  (forall d p, In (d, p) ps -> known d) ->
  (forall z o l, procs z -> transmits (sts z) o l -> l = []) -> (forall z d i n, procs z -> contains (sts z) d i n -> in_items n = []) ->
  (forall z o k r, procs z -> value T D (w_objs (sts z)) o k r -> r <> RNone) ->
  (forall o l k t dl, transmits (sts' p) o l -> In (k, mkSpec q t dl) l ->
     exists d i n, contains (sts' q) d i n /\ In (Far p t) (in_items n)) /\
  (forall d i n t, contains (sts' q) d i n -> In (Far p t) (in_items n) ->
     exists o l k dl, transmits (sts' p) o l /\ In (k, mkSpec q t dl) l).
Proof.
  intros S H Hp Hq Kn F0 I0 NN. pose proof S as (Sh & Sd & Sp). pose proof (spread_apart _ _ _ _ _ _ S Hp) as Ap. pose proof (spread_apart _ _ _ _ _ _ S Hq) as Aq.
  assert (Ke : forall e, In e (edges ps) -> known (fst (fst e))).
  { intros [[d i] x] I. unfold edges in I. apply in_flat_map in I as ([d' p'] & I1 & I2). unfold edges_of in I2. cbn [fst snd] in *. destruct (dget "inputs" p') as [[]|]; try destruct I2.
    apply in_flat_map in I2 as (iv & _ & I2). apply in_map_iff in I2 as (y & Y & _). injection Y as <- _ _. eauto. }
  split.
  - intros o l k t dl (ob' & pr' & G' & P' & <-) I.
    pose proof (H p Hp) as W. apply objects_wire in W as [_ W]; [|exact Ap]. destruct (wire_all hash T D isinst _ _ _ Ap W) as (Sm & _).
    destruct (same_back T D _ _ _ _ Sm G') as (ob & G & [_ Qo]). rewrite P' in Qo. destruct (s_proc ob) as [pr|] eqn:P; [|tauto].
    destruct (C93_outputs (Some p) (sts p) (sts' p) ps o (p_far pr) Ap (H p Hp)) as (ls & F & (ob2 & p2 & G2 & P2 & L2)); [exists ob, pr; auto|].
    rewrite G' in G2. injection G2 as <-. rewrite P' in P2. injection P2 as <-. rewrite L2, (F0 p o (p_far pr) Hp) in I by (exists ob, pr; auto). cbn [app] in I.
    apply in_concat in I as (x & Ix & I). apply (Forall2_in_r _ _ _ F) in Ix as (e & Ie & Se).
    inversion Se as [d i x1 Gd|d i s o1 k1 dl1 n1 M1 Ne|d i s k1 dl1 n1 M1 V1|d i s k1 dl1 n1 r q1 Gd M1 V1 Nr R1]; subst; try destruct I. 2:{ contradiction. }
    injection H0 as -> -> <- <-. destruct (Sp p Hp d) as [Sd1 Sd2]. apply Sd2 in R1 as (Kd & Nd & Hd & Npq). subst q.
    assert (Gdq : exists dob dp n, dget d (w_objs (sts (home d))) = Some dob /\ s_proc dob = Some dp /\ dget i (p_ins dp) = Some n /\ exists l, gives (sts (home d)) d i (in_type n) (YStr s) l).
    { assert (Ok' : edge_ok hash T D isinst (sts (home d)) (d, i, YStr s)) by (apply (proj2 (proj1 (C93_ok (Some (home d)) (sts (home d)) ps Aq) (ex_intro _ _ (H (home d) Hq)))); exact Ie).
      destruct (Sp (home d) Hq d) as [Sq _]. assert (Gn : dget d (w_objs (sts (home d))) <> None) by (apply Sq; auto).
      inversion Ok' as [d0 i0 x0 ob0 p0 n l0 G0 P0 N0 Gv|d0 i0 s0 o0 k0 dl0 n Gd0 M0 G0 R0|d0 i0 s0 o0 k0 dl0 n Gd0 M0 V0|d0 i0 s0 o0 k0 dl0 n r0 ob0 p0 q0 Gd0 M0 V0 G0 P0 R0]; subst; try contradiction.
      exists ob0, p0, n. eauto 6. }
    destruct Gdq as (dob & dp & n & Gq & Pq & Nq & lg & Gv). assert (Cn : contains (sts (home d)) d i n) by (exists dob, dp; auto).
    destruct (C93_inputs _ _ _ _ _ _ _ Aq (H (home d) Hq) Cn) as (ls' & F' & C'). eexists d, i, _. split; [exact C'|]. cbn [in_items]. apply in_or_app. right.
    assert (Ir : In (YStr s) (refs ps d i)). { unfold refs. apply in_map_iff. exists (d, i, YStr s). split; [reflexivity|]. apply filter_In. split; [exact Ie|]. cbn. now rewrite !String.eqb_refl. }
    destruct (Forall2_in_l _ _ _ F' _ Ir) as (lx & Ilx & Gx). apply in_concat. exists lx. split; [exact Ilx|].
    assert (So : known o /\ ~ shared o /\ home o = p).
    { destruct (Sp p Hp o) as [S1 _]. destruct (proj1 S1) as [Ko So]; [congruence|]. split; [exact Ko|].
      assert (Q : ~ shared o) by (intros X; rewrite (Sd p o ob Hp X G) in P; discriminate). split; [exact Q|tauto]. }
    destruct So as (Ko & No & Ho). inversion Gx as [s1 o1 k2 dl2 m r1 lv M2 V2 L2' J2|s1 o1 k2 dl2 m q2 M2 Go2 R2]; subst.
    + destruct (means_fun _ _ _ _ _ _ _ _ _ M1 M2) as (<- & _). apply value_iff in V2 as (ob3 & G3 & _). destruct (Sp (home d) Hq o) as [S3 _]. destruct (proj1 S3) as [_ [X|X]]; [congruence|contradiction|congruence].
    + destruct (means_fun _ _ _ _ _ _ _ _ _ M1 M2) as (<- & <- & _). destruct (Sp (home d) Hq o) as [_ S3]. apply S3 in R2 as (_ & _ & <- & _). left. reflexivity.
  - intros d i n' t (dob' & dp' & G' & P' & N') I.
    destruct (C93_rest (Some q) (sts q) (sts' q) ps Aq (H q Hq)) as (_ & _ & _ & _ & Rst). destruct (Rst d i n') as (n & Cn & _); [exists dob', dp'; auto|].
    destruct (C93_inputs _ _ _ _ _ _ _ Aq (H q Hq) Cn) as (ls & F & (ob2 & p2 & G2 & P2 & N2)). rewrite G' in G2. injection G2 as <-. rewrite P' in P2. injection P2 as <-. rewrite N' in N2. injection N2 as ->.
    cbn [in_items] in I. rewrite (I0 q d i n Hq Cn) in I. cbn [app] in I. apply in_concat in I as (lx & Ilx & I). apply (Forall2_in_r _ _ _ F) in Ilx as (x & Ix & Gx).
    unfold refs in Ix. apply in_map_iff in Ix as ([[d1 i1] x1] & X & Ie). apply filter_In in Ie as [Ie X2]. cbn [fst snd] in X, X2. subst x1. apply andb_prop in X2 as [X2 X3]. apply String.eqb_eq in X2, X3. subst d1 i1.
    inversion Gx as [s o k dl m r lv M V L J|s o k dl m p1 M Go R]; subst; [apply in_map_iff in I as (v & X & _); discriminate|]. destruct I as [I|[]]. injection I as -> <-.
    destruct (Sp q Hq o) as [_ S2]. apply S2 in R as (Ko & No & Ho & Npq). destruct (Sp p Hp o) as [S3 _]. destruct (dget o (w_objs (sts p))) as [ob|] eqn:G; [|exfalso; apply (proj2 S3); auto].
    pose proof (Ke _ Ie) as Kd. cbn [fst] in Kd.
    assert (Gd : dget d (w_objs (sts q)) <> None) by (destruct Cn as (? & ? & X & _); congruence).
    assert (Nd : ~ shared d). { intros X. destruct Cn as (dob & dp & Y & Z & _). rewrite (Sd q d dob Hq X Y) in Z. discriminate. }
    assert (Hd : home d = q). { destruct (Sp q Hq d) as [S4 _]. destruct (proj1 S4 Gd) as [_ [X|X]]; [contradiction|exact X]. }
    assert (Gp : dget d (w_objs (sts p)) = None). { destruct (dget d (w_objs (sts p))) eqn:X; [|reflexivity]. exfalso. destruct (Sp p Hp d) as [S4 _]. destruct (proj1 S4) as [_ [Y|Y]]; [congruence|contradiction|congruence]. }
    assert (Rp : dget d (w_remote (sts p)) = Some q). { apply (proj2 (Sp p Hp d)). repeat split; auto. }
    assert (Okp : edge_ok hash T D isinst (sts p) (d, i, YStr s)) by (apply (proj2 (proj1 (C93_ok (Some p) (sts p) ps Ap) (ex_intro _ _ (H p Hp)))); exact Ie).
    assert (Pr : exists pr r, s_proc ob = Some pr /\ value T D (w_objs (sts p)) o k r).
    { inversion Okp as [d0 i0 x0 ob0 p0 n0 l0 G0 P0 N0 Gv|d0 i0 s0 o0 k0 dl0 n0 Gd0 M0 G0 R0|d0 i0 s0 o0 k0 dl0 n0 Gd0 M0 V0|d0 i0 s0 o0 k0 dl0 n0 r0 ob0 p0 q0 Gd0 M0 V0 G0 P0 R0]; subst;
        try (destruct (means_fun _ _ _ _ _ _ _ _ _ M M0) as (<- & <- & _)); try congruence.
      - exfalso. exact (NN _ _ _ _ Hp V0 eq_refl).
      - rewrite G in G0. injection G0 as <-. eauto. }
    destruct Pr as (pr & r & P & V). destruct (C93_outputs _ _ _ _ o (p_far pr) Ap (H p Hp)) as (ls' & F' & Tr); [exists ob, pr; auto|].
    exists o, (p_far pr ++ concat ls')%list, k, dl. split; [exact Tr|]. apply in_or_app. right. destruct (Forall2_in_l _ _ _ F' _ Ie) as (l & Il & Sl). apply in_concat. exists l. split; [exact Il|].
    inversion Sl as [d2 i2 x2 Gd2|d2 i2 s2 o2 k2 dl2 n2 M2 Ne|d2 i2 s2 k2 dl2 n2 M2 V2|d2 i2 s2 k2 dl2 n2 r2 q2 Gd2 M2 V2 Nr2 R2]; subst; try (destruct (means_fun _ _ _ _ _ _ _ _ _ M M2) as (E1 & <- & <- & _)).
    + contradiction.
    + congruence.
    + exfalso. exact (NN _ _ _ _ Hp V2 eq_refl).
    + rewrite Rp in R2. injection R2 as <-. left. reflexivity.
Qed.
End C93.
Print Assumptions C93_inputs.
Print Assumptions C93_outputs.
Print Assumptions C93_rest.
Print Assumptions C93_diagram.
Print Assumptions C93_ok.
Print Assumptions C93_references.
Print Assumptions C93_both_ends.

(* A data object that exists in all processes cannot be an input of an object that does not. *)
Theorem C93_shared hash T D isinst proc (st : wst T D) ps d i s o dl n ob : apart T D st ->
  In (d, i, YStr s) (edges ps) -> means s o None dl n -> dget o (w_objs st) = Some ob -> s_proc ob = None -> dget d (w_objs st) = None ->
  forall st', connect_objects hash T D isinst proc st ps <> Ok st'.
Proof.
  intros A I M G P Gd st' H. assert (X : edge_ok hash T D isinst st (d, i, YStr s)) by (apply (proj2 (proj1 (C93_ok hash T D isinst proc st ps A) (ex_intro _ _ H))); exact I).
  inversion X as [d0 i0 x0 ob0 p0 n0 l0 G0 P0 N0 Gv|d0 i0 s0 o0 k0 dl0 n0 Gd0 M0 G0 R0|d0 i0 s0 o0 k0 dl0 n0 Gd0 M0 V0|d0 i0 s0 o0 k0 dl0 n0 r0 ob0 p0 q0 Gd0 M0 V0 G0 P0 R0]; subst;
    try (destruct (means_fun _ _ _ _ _ _ _ _ _ M M0) as (<- & <- & _)); try congruence.
  apply value_iff in V0 as (ob1 & _ & X1). discriminate.
Qed.
Print Assumptions C93_shared.

(* ---- the simulation loop ---- *)

(* [s] is the connection described by the reference [x] *)
Definition describes (x : yval) (s : LoopModel.src) : Prop :=
  exists t n, x = YStr t /\ means t (LoopModel.s_obj s) (LoopModel.s_key s) (LoopModel.s_delay s) n.

(* In a single process an input contains the data objects that the loop reads: those of the outputs it refers to. *)
Theorem C93_loop hash T D isinst (outs : string -> option string -> list D) (st st' : wst T D) ps d i n srcs :
  w_remote st = [] -> connect_objects hash T D isinst None st ps = Ok st' -> contains T D st d i n -> in_items n = [] ->
  (forall o k r l, value T D (w_objs st) o k r -> leaves D r l -> outs o k = l) ->
  Forall2 describes (refs ps d i) srcs ->
  exists n', contains T D st' d i n' /\ in_items n' = map Here (flat_map (fun s => outs (LoopModel.s_obj s) (LoopModel.s_key s)) srcs).
Proof.
  intros R H C I0 Ho Hs. assert (A : apart T D st) by (intros o _; rewrite R; reflexivity).
  destruct (C93_inputs hash T D isinst None st st' ps d i n A H C) as (ls & F & C'). eexists. split; [exact C'|]. cbn [in_items]. rewrite I0. cbn [app]. clear C C' H.
  revert srcs Hs. induction F as [|x l xs ls G F IH]; intros srcs Hs; inversion Hs as [|x' s xs' srcs' Hx Hs']; subst; cbn [concat flat_map]; [reflexivity|].
  rewrite map_app, <- (IH srcs' Hs'). f_equal. destruct Hx as (t & m & -> & M). inversion G as [s1 o1 k1 dl1 m1 r1 lv M1 V1 L1 J1|s1 o1 k1 dl1 m1 q1 M1 G1 R1]; subst.
  - destruct (means_fun _ _ _ _ _ _ _ _ _ M M1) as (-> & -> & _). now rewrite (Ho _ _ _ _ V1 L1).
  - rewrite R in R1. discriminate.
Qed.
Print Assumptions C93_loop.

(* Objects whose inputs are the references of the configuration are wired as the configuration says (C15). *)
Theorem C93_wired St Dt (cod : string -> LoopModel.code St Dt) ps :
  (forall o i, In i (LoopModel.c_inputs St Dt (cod o)) -> Forall2 describes (refs ps o (LoopModel.i_name i)) (LoopModel.i_src i)) ->
  LoopSpec.wired St Dt cod ps.
Proof.
  intros H o s (i & Hi & Hs). destruct (Forall2_in_r _ _ _ (H o i Hi) s Hs) as (x & Ix & t & n & -> & (dl & M1 & M2 & M3)).
  unfold refs in Ix. apply in_map_iff in Ix as ([[d1 i1] x1] & X & Ie). apply filter_In in Ie as [Ie X2]. cbn [fst snd] in X, X2. subst x1. apply andb_prop in X2 as [X2 X3]. apply String.eqb_eq in X2, X3. subst d1 i1.
  unfold edges in Ie. apply in_flat_map in Ie as ([d' p'] & I1 & I2). unfold edges_of in I2. cbn [fst snd] in I2. destruct (dget "inputs" p') as [v|] eqn:E; [|destruct I2]. destruct v as [| | | | | |ins]; try destruct I2.
  apply in_flat_map in I2 as ([k v] & J1 & J2). apply in_map_iff in J2 as (y & Y & J2). cbn [fst snd] in *. injection Y as -> -> ->.
  exists p', ins, (LoopModel.i_name i), v, t. split; [exact I1|]. split; [now apply dget_In|]. split; [exact J1|]. split.
  - unfold TrigOrderSpec.ref_in. destruct v; cbn [listed In] in J2; try tauto; right; eauto.
  - exists n, (LoopModel.s_key s), dl. auto.
Qed.
Print Assumptions C93_wired.

(* ---- one configuration, run in one process or in several ---- *)

Lemma dget_filter {A} (f : string -> bool) (d : dict A) o : dget o (filter (fun kv => f (fst kv)) d) = if f o then dget o d else None.
Proof.
  induction d as [|[k v] d IH]; cbn [filter dget fst]; [now destruct (f o)|]. destruct (f k) eqn:F; cbn [dget]; destruct (String.eqb o k) eqn:Q; auto; apply String.eqb_eq in Q; subst k; rewrite F in *; auto.
Qed.
Lemma dget_map {A B} (g : string -> B) (d : dict A) o : dget o (map (fun kv => (fst kv, g (fst kv))) d) = match dget o d with Some _ => Some (g o) | None => None end.
Proof. induction d as [|[k v] d IH]; cbn [map dget fst]; [reflexivity|]. destruct (String.eqb o k) eqn:Q; auto. apply String.eqb_eq in Q. now subst k. Qed.

(* Process [q] has the objects whose home it is and a copy of the shared ones; it knows where the others are. *)
Definition here (home : string -> Z) (shared : string -> bool) (q : Z) (o : string) : bool := shared o || (home o =? q)%Z.
Definition part {T D} (home : string -> Z) (shared : string -> bool) (st : wst T D) (q : Z) : wst T D :=
  mkW (filter (fun kv => here home shared q (fst kv)) (w_objs st))
      (map (fun kv => (fst kv, home (fst kv))) (filter (fun kv => negb (here home shared q (fst kv))) (w_objs st)))
      (w_ranks st) (w_links st).

Lemma part_objs T D home shared (st : wst T D) q o : dget o (w_objs (part home shared st q)) = if here home shared q o then dget o (w_objs st) else None.
Proof. exact (dget_filter (here home shared q) (w_objs st) o). Qed.
Lemma part_remote T D home shared (st : wst T D) q o :
  dget o (w_remote (part home shared st q)) = if here home shared q o then None else match dget o (w_objs st) with Some _ => Some (home o) | None => None end.
Proof.
  cbn [part w_remote]. rewrite dget_map. rewrite (dget_filter (fun x => negb (here home shared q x)) (w_objs st) o). now destruct (here home shared q o).
Qed.
Lemma part_apart T D home shared (st : wst T D) q : apart T D (part home shared st q).
Proof. intros o. rewrite part_objs, part_remote. destruct (here home shared q o); congruence. Qed.

(* If the objects can be connected in one process, they can be connected in several, provided that the data objects
   used as inputs are placed in the process of their reader; those present in all processes cannot be used. *)
Theorem C93_distributed hash T D isinst home shared (st st' : wst T D) ps q :
  w_remote st = [] -> connect_objects hash T D isinst None st ps = Ok st' ->
  (forall d p, In (d, p) ps -> dget d (w_objs st) <> None) ->
  (forall d, dget d (w_objs st) <> None -> dget d (w_ranks st) = Some (home d)) ->
  (forall d i s o k dl n ob, In (d, i, YStr s) (edges ps) -> means s o k dl n -> dget o (w_objs st) = Some ob ->
     shared o = false /\ (s_proc ob = None -> home d = home o)) ->
  exists sq, connect_objects hash T D isinst (Some q) (part home shared st q) ps = Ok sq.
Proof.
  intros R H Kn Rk Ns. assert (A : apart T D st) by (intros o _; rewrite R; reflexivity).
  destruct (proj1 (C93_ok hash T D isinst None st ps A) (ex_intro _ _ H)) as [H1 H2]. apply C93_ok; [apply part_apart|]. split.
  - intros d p I. destruct (H1 d p I) as [O N]. split.
    + intros v E. destruct (O v E) as (l & Hl & Ho). exists l. split; [exact Hl|]. intros x Ix. pose proof (Ho x Ix) as X. unfold output_ok in *. rewrite part_objs.
      destruct (here home shared q d) eqn:Hd; [destruct (dget d (w_objs st)) eqn:G; [exact X|exfalso; exact (Kn d p I G)]|].
      exists (home d). split; [apply Rk; eauto|]. unfold here in Hd. apply orb_false_iff in Hd as [_ Hd]. apply Z.eqb_neq in Hd. congruence.
    + intros v E. destruct (N v E) as (ins & -> & Hi). exists ins. split; [reflexivity|]. intros i x Ix. destruct (Hi i x Ix) as [X Y]. split; [exact X|]. intros ob G. rewrite part_objs in G. destruct (here home shared q d); [eauto|discriminate].
  - intros [[d i] x] Ie. pose proof (H2 _ Ie) as X.
    assert (Kd : dget d (w_objs st) <> None).
    { unfold edges in Ie. apply in_flat_map in Ie as ([d' p'] & I1 & I2). unfold edges_of in I2. cbn [fst snd] in *. destruct (dget "inputs" p') as [[]|]; try destruct I2.
      apply in_flat_map in I2 as (iv & _ & I2). apply in_map_iff in I2 as (y & Y & _). injection Y as <- _ _. eauto. }
    inversion X as [d0 i0 x0 ob0 p0 n0 l0 G0 P0 N0 Gv|d0 i0 s0 o0 k0 dl0 n0 Gd0 M0 G0 R0|d0 i0 s0 o0 k0 dl0 n0 Gd0 M0 V0|d0 i0 s0 o0 k0 dl0 n0 r0 ob0 p0 q0 Gd0 M0 V0 G0 P0 R0]; subst; try contradiction.
    inversion Gv as [s o k dl m r lv M V L J|s o k dl m q1 M Go R1]; subst; [|rewrite R in R1; discriminate].
    pose proof V as Vo. apply value_iff in Vo as (oo & Go & _). destruct (Ns _ _ _ _ _ _ _ _ Ie M Go) as [No Nd].
    assert (Vq : forall b, here home shared q o = b -> if b then value T D (w_objs (part home shared st q)) o k r else dget o (w_objs (part home shared st q)) = None /\ dget o (w_remote (part home shared st q)) = Some (home o)).
    { intros b Hb. destruct b.
      - inversion V as [o1 ob1 G1|o1 ob1 p1 k1 r1 G1 P1 K1]; subst; econstructor; eauto; rewrite part_objs, Hb; assumption.
      - rewrite part_objs, part_remote, Hb. split; [reflexivity|]. inversion V as [o1 ob1 G1|o1 ob1 p1 k1 r1 G1 P1 K1]; subst; now rewrite G1. }
    destruct (here home shared q d) eqn:Hd.
    + assert (Gq : exists l, gives hash T D isinst (part home shared st q) d i (in_type n0) (YStr s) l).
      { destruct (here home shared q o) eqn:Ho; specialize (Vq _ eq_refl); cbn in Vq; [eexists; eapply gives_here; eauto|destruct Vq; eexists; eapply gives_far; eauto]. }
      destruct Gq as [l Gq]. eapply ok_in; [|exact P0|exact N0|exact Gq]. rewrite part_objs, Hd. exact G0.
    + assert (Gd : dget d (w_objs (part home shared st q)) = None) by (rewrite part_objs, Hd; reflexivity).
      destruct (here home shared q o) eqn:Ho; specialize (Vq _ eq_refl); cbn in Vq; [|destruct Vq as [V1 V2]; eapply ok_away; eauto; intros V3; cbn [part w_remote] in V2, V3; rewrite V2 in V3; discriminate].
      destruct (s_proc oo) as [po|] eqn:Po.
      * eapply ok_out; [exact Gd|exact M|exact Vq|rewrite part_objs, Ho; exact Go|exact Po|]. rewrite part_remote, Hd, G0. reflexivity.
      * exfalso. specialize (Nd eq_refl). unfold here in Hd, Ho. rewrite No in Ho. apply orb_false_iff in Hd as [_ Hd]. cbn in Ho. rewrite Nd, Ho in Hd. discriminate.
Qed.
Print Assumptions C93_distributed.

(* What the processes build (C92) is such a distribution: the data objects without a rank are those in all processes. *)
Theorem C93_spread T D (E : BuildModel.env) ps n (bs : Z -> BuildModel.bst) (sts : Z -> wst T D) (home : string -> Z) :
  (0 < n)%nat -> NoDup (map fst ps) -> (forall q, (0 <= q < Z.of_nat n)%Z -> BuildModel.build_objects E ps (Some q) = Ok (bs q)) ->
  (forall o data r, BuildSpec.placed E ps o data r -> BuildSpec.home r (home o) /\ (0 <= home o < Z.of_nat n)%Z) ->
  (forall q o, (0 <= q < Z.of_nat n)%Z -> (dget o (w_objs (sts q)) = None <-> dget o (BuildModel.b_objs (bs q)) = None) /\
                                         dget o (w_remote (sts q)) = dget o (BuildModel.b_remote (bs q))) ->
  (forall q o ob r, (0 <= q < Z.of_nat n)%Z -> dget o (w_objs (sts q)) = Some ob -> BuildSpec.placed E ps o true r -> s_proc ob = None) ->
  spread T D (fun q => (0 <= q < Z.of_nat n)%Z) (TrigOrderSpec.declared ps) (fun o => BuildSpec.placed E ps o true None) home sts.
Proof.
  intros Hn N B Hm W Dt. split; [|split].
  - intros o K. destruct (Properties_Build.C92_placed E ps (Some 0%Z) (bs 0%Z) o N (B 0%Z ltac:(lia))) as [P1 _]. destruct (P1 K) as (data & r & Pl & _). exact (proj2 (Hm o data r Pl)).
  - intros q o ob Hq Hs G. eauto.
  - intros q Hq o. destruct (Properties_Build.C92_placed E ps (Some q) (bs q) o N (B q Hq)) as [P1 P2]. destruct (W q o Hq) as [W1 W2]. rewrite W2, W1.
    assert (Dc : TrigOrderSpec.declared ps o \/ ~ TrigOrderSpec.declared ps o) by (unfold TrigOrderSpec.declared; destruct (in_dec string_dec o (map fst ps)); auto).
    destruct Dc as [K|K]; [|destruct (P2 K) as [X Y]; rewrite X, Y; split; [tauto|]; intros r; split; [discriminate|tauto]].
    destruct (P1 K) as (data & r & Pl & Q1 & Q2 & Q3). destruct (Hm o data r Pl) as [Ho _].
    assert (L : BuildSpec.lives data r (Some q) <-> BuildSpec.placed E ps o true None \/ home o = q).
    { split.
      - intros L. inversion L as [|z Z1 Z2|Z1 Z2|z Z1 Z2 Z3]; subst; [right; exact Ho|right; exact Ho|left; exact Pl].
      - intros [X|<-]; [destruct (BuildProofs2.placed_fun _ _ _ _ _ _ _ Pl X) as [-> ->]; now apply BuildSpec.lives_copy|].
        destruct r as [z|]; cbn in Ho; rewrite Ho; [now apply BuildSpec.lives_asked|now apply BuildSpec.lives_first]. }
    split.
    + rewrite <- L, <- Q1. destruct (dget o (BuildModel.b_objs (bs q))) as [b|]; split; [intros _; split; [exact K|eauto]|discriminate|congruence|intros (_ & b & X); discriminate].
    + intros z. split.
      * intros X. assert (Nl : ~ BuildSpec.lives data r (Some q)) by (intros Y; rewrite (Q2 Y) in X; discriminate). destruct (Q3 Nl) as (z' & Z1 & Z2). rewrite X in Z1. injection Z1 as <-.
        split; [exact K|]. rewrite L in Nl. split; [tauto|]. assert (Hz : home o = z) by (destruct r; cbn in *; congruence). split; [exact Hz|]. intros ->. tauto.
      * intros (_ & X1 & X2 & X3). assert (Nl : ~ BuildSpec.lives data r (Some q)) by (rewrite L; intros [Y|Y]; [tauto|congruence]). destruct (Q3 Nl) as (z' & Z1 & Z2). rewrite Z1. f_equal. destruct r; cbn in *; congruence.
Qed.
Print Assumptions C93_spread.

(* ---- examples: objects with data of classes 1, 2 and 3 ---- *)

Definition ex_isinst (d t : nat) : bool := Nat.eqb (Nat.div d 10) t.
Definition ex_hash (s : string) : Z := Z.of_nat (length (list_ascii_of_string s)).
Definition ex_in (t : nat) (l : bool) : inp nat nat := mkInp t l [].
Definition ex_pr o i : sobj nat nat := mkS 0 (Some (mkP o i [])).
Definition ex_st : wst nat nat := mkW
  [("pupil", mkS 11 None);
   ("prop", ex_pr [("out_ef", RObj 21); ("ef_list", RList [RObj 21; RObj 22])] [("pupil", ex_in 1 false)]);
   ("wfs", ex_pr [("out_i", RObj 31)] [("in_ef", ex_in 2 false)]);
   ("rec", ex_pr [] [("in_pixels", ex_in 3 false); ("in_efs", ex_in 2 true)])]
  [] [("pupil", 0%Z); ("prop", 0%Z); ("wfs", 1%Z); ("rec", 0%Z)] [].
Definition ex_home (o : string) : Z := if String.eqb o "wfs" then 1%Z else 0%Z.
Definition ex_none (o : string) : bool := false.
Definition ex_connect := connect_objects ex_hash nat nat ex_isinst.

Definition ex_ps : params :=
  [("prop", [("inputs", YDict [("pupil", YStr "pupil")]); ("outputs", YList [YStr "out_ef"])]);
   ("wfs", [("inputs", YDict [("in_ef", YStr "prop.out_ef:-1")])]);
   ("rec", [("inputs", YDict [("in_pixels", YStr "wfs.out_i"); ("in_efs", YList [YStr "prop.ef_list"; YStr "prop.out_ef"])])])].

(* [s] = process, [o] = sends, [i] = inputs *)
Definition ex_see (r : res (wst nat nat)) :=
  match r with
  | Ok st => Some (map (fun kv => (fst kv, match s_proc (snd kv) with Some p => (map (fun ki => (fst ki, in_items (snd ki))) (p_ins p), p_far p) | None => ([], []) end)) (w_objs st))
  | Err _ => None
  end.

Example C93_inputs_example : ex_see (ex_connect None ex_st ex_ps) =
  Some [("pupil", ([], [])); ("prop", ([("pupil", [Here 11])], [])); ("wfs", ([("in_ef", [Here 21])], []));
        ("rec", ([("in_pixels", [Here 31]); ("in_efs", [Here 21; Here 22; Here 21])], []))].
Proof. vm_compute. reflexivity. Qed.

Example C93_distributed_example :
  ex_see (ex_connect (Some 0%Z) (part ex_home ex_none ex_st 0) ex_ps) =
  Some [("pupil", ([], [])); ("prop", ([("pupil", [Here 11])], [(Some "out_ef", mkSpec 1 (computeTag ex_hash "prop" "wfs" (Some "out_ef") "in_ef") (-1))]));
        ("rec", ([("in_pixels", [Far 1 (computeTag ex_hash "wfs" "rec" (Some "out_i") "in_pixels")]); ("in_efs", [Here 21; Here 22; Here 21])], []))] /\
  ex_see (ex_connect (Some 1%Z) (part ex_home ex_none ex_st 1) ex_ps) =
  Some [("wfs", ([("in_ef", [Far 0 (computeTag ex_hash "prop" "wfs" (Some "out_ef") "in_ef")])],
                 [(Some "out_i", mkSpec 0 (computeTag ex_hash "wfs" "rec" (Some "out_i") "in_pixels") 0)]))].
Proof. split; vm_compute; reflexivity. Qed.

(* wrong references: unknown object, output, input; value of another class *)
Example C93_ok_example :
  map (fun e => match ex_connect None ex_st [("wfs", [("inputs", YDict [e])])] with Ok _ => None | Err x => Some x end)
      [("in_ef", YStr "prop.out_ef"); ("in_ef", YStr "porp.out_ef"); ("in_ef", YStr "prop.out"); ("in", YStr "prop.out_ef"); ("in_ef", YStr "wfs.out_i"); ("in_ef", YInt 1)] =
  [None; Some ValueError; Some ValueError; Some ValueError; Some ValueError; Some ValueError].
Proof. vm_compute. reflexivity. Qed.

(* A data object present in all processes: the configuration runs in one process, not in two. *)
Theorem C93_shared_refuted : exists hash T D isinst home shared (st st' : wst T D) ps,
  connect_objects hash T D isinst None st ps = Ok st' /\
  connect_objects hash T D isinst (Some 1%Z) (part home shared st 1) ps = Err AttributeError.
Proof.
  destruct (ex_connect None ex_st ex_ps) as [st'|] eqn:E; [|vm_compute in E; discriminate].
  exists ex_hash, nat, nat, ex_isinst, ex_home, (String.eqb "pupil"), ex_st, st', ex_ps. split; [exact E|vm_compute; reflexivity].
Qed.
Print Assumptions C93_shared_refuted.

(* The class of a value that comes from another process is not checked. *)
Theorem C93_type_refuted : exists hash T D isinst home shared (st : wst T D) ps,
  connect_objects hash T D isinst None st ps = Err ValueError /\
  forall q, exists st', connect_objects hash T D isinst (Some q) (part home shared st q) ps = Ok st'.
Proof.
  set (ps := [("rec", [("inputs", YDict [("in_efs", YStr "wfs.out_i")])])]). exists ex_hash, nat, nat, ex_isinst, ex_home, ex_none, ex_st, ps. split; [vm_compute; reflexivity|].
  intros q. destruct (Z.eq_dec q 0) as [->|N0]; [vm_compute; eauto|]. destruct (Z.eq_dec q 1) as [->|N1]; [vm_compute; eauto|].
  assert (Hr : here ex_home ex_none q "rec" = false) by (apply orb_false_iff; split; [reflexivity|]; apply Z.eqb_neq; change (ex_home "rec") with 0%Z; congruence).
  assert (Hw : here ex_home ex_none q "wfs" = false) by (apply orb_false_iff; split; [reflexivity|]; apply Z.eqb_neq; change (ex_home "wfs") with 1%Z; congruence).
  apply C93_ok; [apply part_apart|]. split.
  - intros d p [X|[]]. injection X as <- <-. split; [discriminate|]. intros v X. cbn in X. injection X as <-. eexists. split; [reflexivity|]. intros i x [Y|[]]. injection Y as <- <-. split; [eauto|].
    intros ob G. rewrite part_objs, Hr in G. discriminate.
  - intros e [X|[]]. cbn in X. subst e. apply ok_away with (o := "wfs") (k := Some "out_i") (dl := 0%Z) (n := None).
    + now rewrite part_objs, Hr.
    + assert (X : exists t, YStr "wfs.out_i" = YStr t /\ means t "wfs" (Some "out_i") 0 None) by (apply (proj1 (split_means (YStr "wfs.out_i") (mkOutput "wfs" (Some "out_i") 0 None))); reflexivity). destruct X as (t & Y & X). injection Y as <-. exact X.
    + now rewrite part_objs, Hw.
    + rewrite part_remote, Hw. discriminate.
Qed.
Print Assumptions C93_type_refuted.

(* An output that is a list arrives as a single item. *)
Theorem C93_list_refuted : exists hash T D isinst home shared (st s1 s2 : wst T D) ps d i n1 n2,
  connect_objects hash T D isinst None st ps = Ok s1 /\ connect_objects hash T D isinst (Some (home d)) (part home shared st (home d)) ps = Ok s2 /\
  contains T D s1 d i n1 /\ contains T D s2 d i n2 /\ length (in_items n1) = 2 /\ length (in_items n2) = 1.
Proof.
  set (home := fun o => if String.eqb o "rec" then 1%Z else 0%Z). set (ps := [("rec", [("inputs", YDict [("in_efs", YStr "prop.ef_list")])])]).
  exists ex_hash, nat, nat, ex_isinst, home, ex_none, ex_st. do 2 eexists. exists ps, "rec", "in_efs". do 2 eexists.
  split; [vm_compute; reflexivity|]. split; [vm_compute; reflexivity|]. split; [do 2 eexists; repeat split|]. split; [do 2 eexists; repeat split|]. split; reflexivity.
Qed.
Print Assumptions C93_list_refuted.
