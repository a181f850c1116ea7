(* Which configurations can be built. *)
From Coq Require Import String List Ascii ZArith Bool Arith Lia.
From Verif Require Import PyBase PyLemmas NamesModel NamesSpec TrigOrderModel TrigOrderSpec ParamsModel ParamsSpec ParamsProofs
  BuildModel BuildSpec BuildProofs.
From Verif Require CalFileModel CalFileProofs.
Import ListNotations.
Local Open Scope string_scope.

Lemma here_lives proc data r : build_here proc data r = true <-> lives data r proc.
Proof.
  unfold build_here. destruct proc as [q|]; [|split; auto; constructor]. rewrite !orb_true_iff, !andb_true_iff, Z.eqb_eq. split.
  - intros [[H|[H1 H2]]|[H1 H2]]; destruct r as [z|]; try discriminate; cbn in *; subst.
    + now apply lives_asked.
    + now apply lives_first.
    + now apply lives_copy.
    + apply Z.eqb_eq in H2. subst. now apply lives_asked.
  - intros H. inversion H; subst; cbn; auto.
Qed.

Lemma rank_asked p r q : rank_of p = Ok (r, q) -> asked p r /\ q = (if match r with Some _ => true | None => false end then ddel "target_rank" p else p).
Proof.
  unfold rank_of, asked. destruct (dget "target_rank" p) as [[]|]; try discriminate; intros [= <- <-]; auto.
Qed.

Lemma plain_refers s : plain s -> refers s s 0.
Proof. intros (A & B & C). exists None, None, None. cbn. split; [reflexivity|]. split; [|reflexivity]. repeat split; auto. Qed.

Section B.
Variables (E : env) (ps : params) (root : string).

Lemma lookup_ok objs x : object_name ps x -> (forall s, x = YStr s -> exists b, dget s objs = Some b) -> exists o, lookup objs x = Ok o.
Proof. intros (s & -> & _) H. destruct (H s eq_refl) as [b D]. cbn. rewrite D. eauto. Qed.
Lemma map_lookup_ok objs l : Forall (object_name ps) l -> (forall s, In (YStr s) l -> exists b, dget s objs = Some b) -> exists o, map_res (lookup objs) l = Ok o.
Proof.
  induction 1 as [|x l Hx Hl IH]; intros H; [cbn; eauto|]. cbn [map_res]. destruct (lookup_ok objs x Hx) as [o ->]; [intros s ->; apply H; now left|].
  cbn [bind]. destruct IH as [os ->]; [intros s Hs; apply H; now right|]. cbn. eauto.
Qed.
Lemma restore_ok kind type t : restorable E root kind type t -> exists l, restore E root kind type t = Ok l.
Proof. intros (s & f & -> & F & R). unfold restore. rewrite F. cbn [bind]. rewrite R. eauto. Qed.
Lemma map_restore_ok kind type l : Forall (restorable E root kind type) l -> exists ls, map_res (restore E root kind type) l = Ok ls.
Proof.
  induction 1 as [|x l Hx Hl IH]; [cbn; eauto|]. cbn [map_res]. destruct (restore_ok _ _ _ Hx) as [o ->]. cbn [bind]. destruct IH as [os ->]. cbn. eauto.
Qed.

Lemma usable_ok k objs a name v : spells (c_args k) a name -> usable E ps root k a name v ->
  (forall s, ends_with "_ref" name = true -> ref_in v s -> plain s -> exists b, dget s objs = Some b) ->
  exists x, one_arg E root k objs true name v = Ok (Some (a, x)).
Proof.
  intros Sp U H. pose proof (spells_par _ _ _ Sp) as P. destruct Sp as [Ia Sp].
  assert (M : mem a (c_args k) = true) by now apply mem_in.
  unfold one_arg. rewrite P, M. cbn [negb].
  assert (Sk : mem name ["class"; "inputs"; "outputs"] && negb (mem name (c_args k)) = false).
  { destruct (mem name ["class"; "inputs"; "outputs"]) eqn:S1; auto. destruct (mem name (c_args k)) eqn:S2; auto. exfalso.
    apply mem_in in S1. apply mem_out in S2. eapply (skip_not_spelled (c_args k) a name); [cbn in S1; intuition|exact S2|]. split; auto. }
  rewrite Sk. clear Sk.
  destruct (String.eqb_spec a name) as [Ea|Na].
  { cbn [negb]. rewrite !andb_false_r. cbn [andb]. exists (ARaw v). subst name. reflexivity. }
  cbn [negb]. rewrite !andb_true_r.
  assert (Z : forall e f, name = (a ++ e)%string -> e <> "" -> f <> "" -> last_char e <> last_char f -> ends_with f name = false).
  { intros e f En He Hf Hd. destruct (ends_with f name) eqn:X; auto. apply ends_with_iff in X as [b X]. exfalso. apply Hd. eapply two_ends; eauto. }
  assert (S : forall e f, name = (a ++ e)%string -> (ends_with (f ++ e) name = true <-> has_end f a)) by (intros; now apply ends_split).
  assert (NotB : has_end "_list" a -> has_end "_dict" a -> False).
  { intros [b1 B1] [b2 B2]. assert (T : "_list" = "_dict"); [|discriminate].
    assert (L : String.length b1 = String.length b2).
    { apply (f_equal String.length) in B1. apply (f_equal String.length) in B2. rewrite length_app_str in B1, B2. cbn in B1, B2. lia. }
    rewrite B1 in B2. clear -B2 L. revert b2 B2 L. induction b1 as [|c b1 IH]; intros [|d b2] B L; try discriminate. injection B as -> B. injection L as L. eapply IH; eauto. }
  destruct U as [a v|a v Sg On|a l Hl Fl|a e He|a t f Ft Fe|a v ty Sg Dh R|a l ty Hl Dh Fl|a d ty Hd Dh Fl].
  - contradiction.
  - destruct (ends_with "_list_ref" (a ++ "_ref")) eqn:X1; [exfalso; apply (proj1 Sg); apply (S "_ref" "_list" eq_refl); exact X1|].
    destruct (ends_with "_dict_ref" (a ++ "_ref")) eqn:X2; [exfalso; apply (proj2 Sg); apply (S "_ref" "_dict" eq_refl); exact X2|].
    rewrite (Z "_ref" "_list_object"), (Z "_ref" "_dict_object") by (auto; discriminate). cbn [andb].
    assert (X3 : ends_with "_ref" (a ++ "_ref") = true) by (apply ends_with_iff; now exists a). rewrite X3 in *.
    destruct (lookup_ok objs v On) as [o ->]; [|cbn; eauto]. intros s ->. destruct On as (s' & [= <-] & Pl & _). apply H; auto. now left.
  - assert (X3 : ends_with "_ref" (a ++ "_ref") = true) by (apply ends_with_iff; now exists a).
    destruct (map_lookup_ok objs l Fl) as [os Eo].
    { intros s Hs. rewrite Forall_forall in Fl. destruct (Fl _ Hs) as (s' & [= <-] & Pl & _). apply H; auto. right. exists l. auto. }
    destruct (ends_with "_list_ref" (a ++ "_ref")) eqn:X1; [rewrite Eo; cbn; eauto|].
    destruct (ends_with "_dict_ref" (a ++ "_ref")) eqn:X2; [cbn [iter_value bind]; rewrite Eo; cbn; eauto|].
    exfalso. destruct Hl as [Hl|Hl]; [apply (S "_ref" "_list" eq_refl) in Hl; cbn [append] in Hl; congruence|apply (S "_ref" "_dict" eq_refl) in Hl; cbn [append] in Hl; congruence].
  - assert (X : ends_with "_list_ref" (a ++ e) = false /\ ends_with "_dict_ref" (a ++ e) = false /\ ends_with "_ref" (a ++ e) = false).
    { destruct He as [-> | ->]; (split; [|split]); eapply Z; eauto; discriminate. }
    destruct X as (X1 & X2 & X3). rewrite X1, X2, X3. cbn [andb].
    destruct (ends_with "_list_object" (a ++ e)); cbn [andb]; [eauto|]. destruct (ends_with "_dict_object" (a ++ e)); cbn [andb]; [eauto|].
    destruct (ends_with "_data" (a ++ e)) eqn:X4; cbn [andb]; [eauto|]. destruct (ends_with "_object" (a ++ e)) eqn:X5; cbn [andb]; [eauto|].
    exfalso. destruct He as [-> | ->].
    + assert (ends_with "_data" (a ++ "_data") = true) by (apply ends_with_iff; now exists a). congruence.
    + assert (ends_with "_object" (a ++ "_object") = true) by (apply ends_with_iff; now exists a). congruence.
  - rewrite (Z "_data" "_list_ref"), (Z "_data" "_dict_ref"), (Z "_data" "_list_object"), (Z "_data" "_dict_object"), (Z "_data" "_ref") by (auto; discriminate).
    assert (X : ends_with "_data" (a ++ "_data") = true) by (apply ends_with_iff; now exists a). rewrite X. cbn [andb].
    unfold read_data. rewrite Ft. cbn [bind]. rewrite Fe. cbn. eauto.
  - rewrite (Z "_object" "_list_ref"), (Z "_object" "_dict_ref"), (Z "_object" "_ref"), (Z "_object" "_data") by (auto; discriminate).
    destruct (ends_with "_list_object" (a ++ "_object")) eqn:X1; [exfalso; apply (proj1 Sg); apply (S "_object" "_list" eq_refl); exact X1|].
    destruct (ends_with "_dict_object" (a ++ "_object")) eqn:X2; [exfalso; apply (proj2 Sg); apply (S "_object" "_dict" eq_refl); exact X2|].
    assert (X : ends_with "_object" (a ++ "_object") = true) by (apply ends_with_iff; now exists a). rewrite X. cbn [andb]. rewrite Dh.
    destruct (restore_ok _ _ _ R) as [o Eo]. rewrite Eo. destruct R as (s & f & -> & _). cbn. eauto.
  - rewrite (Z "_object" "_list_ref"), (Z "_object" "_dict_ref") by (auto; discriminate).
    assert (X : ends_with "_list_object" (a ++ "_object") = true) by (apply (S "_object" "_list" eq_refl); exact Hl). rewrite X. cbn [andb]. rewrite Dh.
    destruct (map_restore_ok _ _ _ Fl) as [ls ->]. cbn. eauto.
  - rewrite (Z "_object" "_list_ref"), (Z "_object" "_dict_ref") by (auto; discriminate).
    destruct (ends_with "_list_object" (a ++ "_object")) eqn:X1; [exfalso; apply NotB; [apply (S "_object" "_list" eq_refl); exact X1|exact Hd]|].
    assert (X : ends_with "_dict_object" (a ++ "_object") = true) by (apply (S "_object" "_dict" eq_refl); exact Hd). rewrite X. cbn [andb]. rewrite Dh.
    assert (K : exists ls, map_res (fun kv : string * yval => o <- restore E root ty ty (snd kv) ;; Ok (fst kv, o)) d = Ok ls).
    { clear -Fl. induction Fl as [|x l Hx Hl IH]; [cbn; eauto|]. cbn [map_res]. destruct (restore_ok _ _ _ Hx) as [o ->]. cbn [bind]. destruct IH as [os ->]. cbn. eauto. }
    destruct K as [ls ->]. cbn. eauto.
Qed.

Lemma args_ok k objs p : (forall nv, In nv p -> ((fst nv = "class" \/ fst nv = "inputs" \/ fst nv = "outputs") /\ ~ In (fst nv) (c_args k)) \/
    exists a, spells (c_args k) a (fst nv) /\ exists x, one_arg E root k objs true (fst nv) (snd nv) = Ok (Some (a, x))) ->
  forall acc, exists args, fold_res (add_arg E root k objs true) acc p = Ok args /\
    forall a, dmem a args = true <-> dmem a acc = true \/ exists nv, In nv p /\ spells (c_args k) a (fst nv).
Proof.
  induction p as [|nv p IH]; intros H acc.
  - exists acc. split; [reflexivity|]. intros a. split; auto. intros [Q|(nv & [] & _)]; exact Q.
  - destruct (IH (fun nv' Hn => H nv' (or_intror Hn))) with (acc := match one_arg E root k objs true (fst nv) (snd nv) with Ok (Some (q, x)) => dset q x acc | _ => acc end) as (args & A1 & A2).
    exists args. cbn [fold_res]. unfold add_arg at 1. destruct (H nv (or_introl eq_refl)) as [[S1 S2]|(b & S1 & x & S2)].
    + assert (X : one_arg E root k objs true (fst nv) (snd nv) = Ok None).
      { unfold one_arg. assert (M : mem (fst nv) ["class"; "inputs"; "outputs"] = true) by (apply mem_in; cbn; intuition). rewrite M. apply mem_out in S2. rewrite S2. reflexivity. }
      rewrite X in *. cbn [bind]. split; [exact A1|]. intros a. rewrite A2. split.
      * intros [Q|(nv' & Q1 & Q2)]; [now left|right; exists nv'; split; [now right|auto]].
      * intros [Q|(nv' & [<-|Q1] & Q2)]; [now left| |right; eauto]. exfalso. exact (skip_not_spelled _ _ _ S1 S2 Q2).
    + rewrite S2 in *. cbn [bind]. split; [exact A1|]. intros a. rewrite A2. unfold dmem at 1. rewrite dget_dset. fold (dmem a acc). split.
      * intros [Q|(nv' & Q1 & Q2)]; [|right; exists nv'; split; [now right|auto]]. destruct (String.eqb_spec a b) as [Eab|Nab]; [right; exists nv; split; [now left|rewrite Eab; exact S1]|left; exact Q].
      * intros [Q|(nv' & [<-|Q1] & Q2)]; [left| |right; eauto]; [destruct (String.eqb a b); auto|]. left.
        rewrite (spells_unique _ _ _ _ Q2 S1), String.eqb_refl. reflexivity.
Qed.

Lemma global_ok class args : (In "data_dir" args -> exists d, CalFileModel.root_subdir root class = Ok d) -> exists g, global_args root class args = Ok g.
Proof.
  intros H. unfold global_args. destruct (mem "data_dir" args) eqn:M; [|cbn; eauto]. apply mem_in in M. destruct (H M) as [d ->]. cbn. eauto.
Qed.

(* one object *)
Lemma buildable_ok key p objs : buildable E ps root p -> dget key ps = Some p ->
  (forall b v s, In ((b ++ "_ref")%string, v) p -> ref_in v s -> plain s -> exists o, dget s objs = Some o) ->
  exists class k r q o, known E ps key class k r q /\ make E root key class k q objs true = Ok (Some o).
Proof.
  intros (N & Hr & Hd & class & k & Hc & Hk & H) D Hrefs.
  assert (R : exists r q, rank_of p = Ok (r, q) /\ (forall nv, In nv q <-> In nv p /\ (fst nv = "target_rank" -> forall z, snd nv <> YInt z)) /\ NoDup (map fst q)).
  { unfold rank_of. destruct (dget "target_rank" p) as [[]|] eqn:T; cbn in Hr; try contradiction.
    - exists (Some z), (ddel "target_rank" p). split; auto. split; [|now apply NoDup_ddel]. intros [n v]. rewrite In_ddel. cbn. split.
      + intros [A B]. split; auto; intros; contradiction.
      + intros [A B]. split; auto. intros ->. apply (In_dget _ _ _ N) in A. rewrite T in A. injection A as <-. now apply (B eq_refl z).
    - exists None, p. split; auto. split; [|auto]. intros [n v]. split; [|tauto]. intros A. split; auto. cbn. intros -> z ->. apply (In_dget _ _ _ N) in A. congruence. }
  destruct R as (r & q & R & Q & Nq).
  assert (V : device_ok p = Ok tt) by (unfold device_ok; destruct (dget "target_device_idx" p) as [[]|]; cbn in Hd; try contradiction; reflexivity).
  assert (K : known E ps key class k r q) by (exists p; auto).
  assert (T : dget "tag" q = dget "tag" p).
  { destruct (dget "tag" p) as [t|] eqn:G.
    - apply In_dget; auto. apply Q. split; [now apply dget_In|]. discriminate.
    - apply dget_None. apply dget_None in G. intros I. apply G. apply in_map_iff in I as (nv & <- & I). apply in_map. now apply Q. }
  exists class, k, r, q. unfold make. rewrite T. destruct H as [(t & Ht & Rt & Only)|(Ht & Hu & Hg & Hi)].
  - rewrite Ht. assert (L : length (ddel "target_device_idx" q) <= 2).
    { rewrite <- (map_length fst). change 2 with (length ["class"; "tag"]). apply NoDup_incl_length; [now apply NoDup_ddel|].
      intros n I. apply in_map_iff in I as ([n' v] & <- & I). apply In_ddel in I as [I1 I2]. apply Q in I1 as [I1 I3]. cbn [fst snd] in *.
      pose proof (Only _ _ I1) as O. cbn in O. destruct O as [<-|[<-|[<-|[<-|[]]]]]; cbn; auto; try contradiction.
      exfalso. apply (In_dget _ _ _ N) in I1. rewrite I1 in Hr. destruct v; cbn in Hr; try contradiction. now apply (I3 eq_refl z). }
    destruct (Nat.ltb_spec 2 (length (ddel "target_device_idx" q))); [lia|]. destruct (restore_ok _ _ _ Rt) as [l ->]. cbn. eauto.
  - rewrite Ht. 
    destruct (args_ok k objs q) with (acc := @nil (string * argval)) as (args & A1 & A2).
    { intros nv I. apply Q in I as [I1 I2].
      destruct (in_dec string_dec (fst nv) ["class"; "inputs"; "outputs"]) as [Ik|Ik]; [destruct (in_dec string_dec (fst nv) (c_args k)) as [Ia|Ia]|].
      3: right. 1: right. 2:{ left. split; auto. cbn in Ik. intuition. }
      all: assert (Rc : reaches (c_args k) nv) by (split; [intros Sk; first [exact Ia|exfalso; apply Ik; cbn; intuition]|exact I2]).
      2:{ destruct (Hu nv I1 Rc) as (a & S1 & S2). exists a. split; auto. apply usable_ok; auto. intros s Hn Hs Pl. apply ends_with_iff in Hn as [b Eb]. destruct nv as [n v]. cbn in *. subst n. eapply Hrefs; eauto. }
      destruct (Hu nv I1 Rc) as (a & S1 & S2). exists a. split; auto. apply usable_ok; auto. intros s Hn Hs Pl. apply ends_with_iff in Hn as [b Eb]. destruct nv as [n v]. cbn in *. subst n. eapply Hrefs; eauto. }
    rewrite A1. cbn [bind negb]. destruct (global_ok class (c_args k) Hg) as [g Eg]. rewrite Eg. cbn [bind].
    rewrite Hi; [cbn; eauto|]. intros a. pose proof (args_nodup E root k objs true q [] args (NoDup_nil _) A1) as Na.
    unfold dmem at 1. rewrite dupdate_get, dget_rev by auto.
    assert (X : (match match dget a args with Some v => Some v | None => dget a g end with Some _ => true | None => false end) = dmem a args || dmem a g).
    { unfold dmem. destruct (dget a args); auto. }
    rewrite X, orb_true_iff, A2. unfold receives. 
    assert (Y : dmem a g = true <-> In a (c_args k) /\ In a ["data_dir"; "params_dict"; "input_ref_getter"; "output_ref_getter"; "info_getter"]).
    { unfold dmem. split.
      - destruct (dget a g) as [x|] eqn:G; [|discriminate]. intros _. apply (global_facts _ _ _ _ Eg) in G as [G1 G2]. split; auto. destruct G2; cbn; auto 10.
      - intros [I1 I2]. assert (exists x, automatic root class a x) as [x Hx].
        { cbn in I2. destruct I2 as [<-|[<-|[<-|[<-|[<-|[]]]]]]; try (eexists; constructor; fail). destruct (Hg I1) as [d Hd']. exists (ADir d). now constructor. }
        assert (G : dget a g = Some x) by (apply (global_facts _ _ _ _ Eg); auto). rewrite G. reflexivity. }
    rewrite Y. assert (Z : dmem a (@nil (string * argval)) = false) by reflexivity. rewrite Z. 
    assert (W : (exists nv, In nv q /\ spells (c_args k) a (fst nv)) <-> exists nv, In nv p /\ reaches (c_args k) nv /\ spells (c_args k) a (fst nv)).
    { split.
      - intros (nv & I & S). apply Q in I as [I1 I2]. exists nv. split; auto. split; auto. split; auto.
        intros Sk. destruct (in_dec string_dec (fst nv) (c_args k)); auto. exfalso. exact (skip_not_spelled _ _ _ Sk n S).
      - intros (nv & I & [R1 R2] & S). exists nv. split; auto. apply Q. auto. }
    rewrite <- W. intuition discriminate.
Qed.

(* all objects *)
Lemma fold_complete order : (forall k r, uses ps k r -> before order r k) -> NoDup order -> (forall k, In k order <-> declared ps k) ->
  NoDup (map fst ps) -> (forall k p, In (k, p) ps -> buildable E ps root p) ->
  forall done rest st, order = (done ++ rest)%list -> (forall k, In k done -> exists b, dget k (b_objs st) = Some b) ->
  exists st', fold_res (build_one E ps root None) st rest = Ok st'.
Proof.
  intros Hb No Hd Np Hg done rest. revert done. induction rest as [|x rest IH]; intros done st Eo Hdone; [cbn; eauto|].
  assert (Dx : declared ps x) by (apply Hd; rewrite Eo; apply in_or_app; right; now left).
  apply in_map_iff in Dx as ([x' p] & Ex & Ip). cbn in Ex. subst x'. pose proof (In_dget _ _ _ Np Ip) as D.
  destruct (buildable_ok x p (b_objs st) (Hg _ _ Ip) D) as (class & k & r & q & o & K & M).
  { intros b v s Ib Is Pl. apply Hdone. destruct (Hb x s) as (l1 & l2 & l3 & E3).
    { exists p, b, v, s, 0%Z. split; auto. split; auto. split; auto. now apply plain_refers. }
    rewrite Eo in E3. clear -No Eo E3.
    assert (P : forall (l1 l2 m1 m2 : list string) y, NoDup (l1 ++ y :: l2) -> (l1 ++ y :: l2)%list = (m1 ++ y :: m2)%list -> l1 = m1).
    { clear. induction l1 as [|c l1 IH]; intros l2 [|d m1] m2 y N E; cbn in *; auto.
      - injection E as -> E. subst l2. inversion N; subst. exfalso. apply H1. apply in_or_app. right. now left.
      - injection E as -> E. inversion N; subst. exfalso. apply H1. apply in_or_app. right. now left.
      - injection E as -> E. inversion N; subst. f_equal. eapply IH; eauto. }
    rewrite Eo in No. replace (l1 ++ s :: l2 ++ x :: l3)%list with ((l1 ++ s :: l2) ++ x :: l3)%list in E3 by (rewrite <- app_assoc; reflexivity).
    rewrite (P _ _ _ _ _ No E3). apply in_or_app. right. now left. }
  cbn [fold_res]. assert (B : exists st1, build_one E ps root None st x = Ok st1 /\ b_objs st1 = dset x o (b_objs st)).
  { eexists. split; [apply build_one_iff; exists class, k, r, q, (Some o); split; [exact K|]; split; [exact M|reflexivity]|reflexivity]. }
  destruct B as (st1 & -> & B2). cbn [bind]. apply (IH (done ++ [x])%list); [rewrite <- app_assoc; exact Eo|].
  intros y Hy. rewrite B2, dget_dset. destruct (String.eqb_spec y x); [eauto|]. apply in_app_or in Hy as [Hy|[Hy|[]]]; [auto|congruence].
Qed.

Definition mstep (m : option pars) (kp : string * pars) : res (option pars) :=
  match dget "class" (snd kp) with
  | None => Err KeyError
  | Some (YStr c) => Ok (if String.eqb c "SimulParams" then Some (snd kp) else m)
  | Some _ => Ok m
  end.
Lemma mstep_ok p k m : (exists v, dget "class" p = Some v) -> exists m', mstep m (k, p) = Ok m' /\ (~ class_of p "SimulParams" -> m' = m).
Proof.
  intros [v D]. unfold mstep, class_of. cbn [snd]. rewrite D. destruct v; eauto. eexists. split; [reflexivity|].
  intros N. destruct (String.eqb_spec s "SimulParams"); auto. subst. contradiction.
Qed.
Lemma fold_mstep l : forall m, (forall k p, In (k, p) l -> exists v, dget "class" p = Some v) ->
  exists m', fold_res mstep m l = Ok m' /\ ((forall k p, In (k, p) l -> ~ class_of p "SimulParams") -> m' = m).
Proof.
  induction l as [|[k p] l IH]; intros m H; [cbn; eauto|]. cbn [fold_res].
  destruct (mstep_ok p k m (H k p (or_introl eq_refl))) as (m1 & -> & X). cbn [bind].
  destruct (IH m1 (fun k p I => H k p (or_intror I))) as (m' & F & Q). exists m'. split; [exact F|].
  intros N. rewrite (Q (fun k p I => N k p (or_intror I))). apply X. apply (N k). now left.
Qed.
Lemma mstep_app l1 : forall l2 m, fold_res mstep m (l1 ++ l2)%list = (m' <- fold_res mstep m l1 ;; fold_res mstep m' l2).
Proof. induction l1 as [|x l1 IH]; intros l2 m; [reflexivity|]. cbn. destruct (mstep m x); cbn; auto. Qed.

Lemma root_ok : main_root ps root -> root_dir ps = Ok root.
Proof.
  intros (Hc & l1 & k & p & l2 & Ep & Cp & Rp & H2). unfold root_dir. rewrite Ep in *.
  assert (F : main_params (l1 ++ (k, p) :: l2)%list = Ok (Some p)).
  { change (fold_res mstep None (l1 ++ (k, p) :: l2)%list = Ok (Some p)). rewrite mstep_app.
    destruct (fold_mstep l1 None) as (m1 & -> & _); [intros; eapply Hc; apply in_or_app; left; eauto|]. cbn [bind fold_res].
    assert (S1 : mstep m1 (k, p) = Ok (Some p)) by (unfold mstep; cbn [snd]; unfold class_of in Cp; rewrite Cp; reflexivity). rewrite S1. cbn [bind].
    destruct (fold_mstep l2 (Some p)) as (m2 & -> & Q2); [intros; eapply Hc; apply in_or_app; right; right; eauto|]. rewrite (Q2 H2). reflexivity. }
  rewrite F. cbn [bind]. rewrite Rp. reflexivity.
Qed.

(* and back *)
Lemma root_is : root_dir ps = Ok root -> exists k p, In (k, p) ps /\ class_of p "SimulParams" /\ dget "root_dir" p = Some (YStr root) /\ main_root ps root.
Proof.
  unfold root_dir. intros H. inv_bind H. change (fold_res mstep None ps = Ok a) in E0. destruct a as [p|]; [|discriminate].
  assert (G : forall l m m', fold_res mstep m l = Ok m' -> (forall k p, In (k, p) l -> exists v, dget "class" p = Some v) /\
     (m' = m \/ exists p' l1 k l2, m' = Some p' /\ l = (l1 ++ (k, p') :: l2)%list /\ class_of p' "SimulParams" /\ forall k' p'', In (k', p'') l2 -> ~ class_of p'' "SimulParams")).
  { clear. induction l as [|[k p] l IH]; intros m m' H; cbn [fold_res] in H; [injection H as <-; split; auto; intros ? ? []|]. inv_bind H. rename E into M0.
    destruct (IH _ _ H) as [I1 I2]. unfold mstep in M0. cbn [snd] in M0. destruct (dget "class" p) as [v|] eqn:D; [|discriminate]. split.
    { intros k' p' [[= <- <-]|I]; eauto. }
    destruct I2 as [->|(p' & l1 & k' & l2 & Em & El & I2 & I3)].
    2:{ right. exists p', ((k, p) :: l1)%list, k', l2. split; auto. split; [now rewrite El|auto]. }
    destruct v; try (injection M0 as <-; now left). destruct (String.eqb_spec s "SimulParams"); injection M0 as <-; [|now left]. subst s.
    destruct (fold_mstep l (Some p) I1) as (m2 & F & Q). 
    destruct (in_dec bool_dec true (map (fun kp => match dget "class" (snd kp) with Some (YStr c) => String.eqb c "SimulParams" | _ => false end) l)) as [B|B].
    - apply in_map_iff in B as ([k1 p1] & Bb & Bi). cbn [snd] in Bb. destruct (dget "class" p1) as [[| | | |c| |]|] eqn:Dc; try discriminate. apply String.eqb_eq in Bb. subst c.
      assert (Last : exists p' l1 k l2, l = (l1 ++ (k, p') :: l2)%list /\ class_of p' "SimulParams" /\ forall k' p'', In (k', p'') l2 -> ~ class_of p'' "SimulParams").
      { clear -Bi Dc. revert Bi. induction l as [|[k2 p2] l IH] using rev_ind; [intros []|]. intros Bi.
        assert (Cd : class_of p2 "SimulParams" \/ ~ class_of p2 "SimulParams").
        { unfold class_of. destruct (dget "class" p2) as [[| | | |c| |]|]; try (right; discriminate). destruct (string_dec c "SimulParams"); [subst; now left|right; congruence]. }
        destruct Cd as [Cd|Cd]; [exists p2, l, k2, []; split; [reflexivity|]; split; [exact Cd|intros ? ? []]|].
        apply in_app_or in Bi as [Bi|[[= -> ->]|[]]]; [|contradiction]. destruct (IH Bi) as (p' & l1 & k & l2 & -> & X & Y).
        exists p', l1, k, (l2 ++ [(k2, p2)])%list. split; [rewrite <- app_assoc; reflexivity|]. split; auto.
        intros k' p'' I. apply in_app_or in I as [I|[[= -> ->]|[]]]; eauto. }
      destruct Last as (p' & l1 & k' & l2 & -> & X & Y). rewrite mstep_app in H. inv_bind H. cbn [fold_res] in H. inv_bind H.
      unfold mstep in E0. cbn [snd] in E0. unfold class_of in X. rewrite X in E0. cbn in E0. injection E0 as <-.
      destruct (fold_mstep l2 (Some p')) as (m3 & F3 & Q3); [intros; eapply I1; apply in_or_app; right; right; eauto|]. rewrite (Q3 Y) in F3. rewrite F3 in H. injection H as <-.
      right. exists p', ((k, p') :: l1)%list, k', l2. split; auto.
    - right. exists p, [], k, l. split; [reflexivity|]. split; [reflexivity|]. split; [exact D|]. intros k' p'' I C. apply B. apply in_map_iff. exists (k', p''). split; auto. cbn [snd]. unfold class_of in C. rewrite C. reflexivity. }
  destruct (G _ _ _ E0) as [G1 [G2|(p' & l1 & k & l2 & [= <-] & G2 & G3 & G4)]]; [discriminate|].
  destruct (dget "root_dir" p) as [[]|] eqn:R; try discriminate. injection H as ->.
  exists k, p. split; [rewrite G2; apply in_or_app; right; now left|]. split; [exact G3|]. split; [exact R|]. split; [exact G1|]. exists l1, k, p, l2. auto.
Qed.
End B.

Lemma known_placed E ps key class k r q : known E ps key class k r q -> placed E ps key (c_data k) r.
Proof.
  intros (p & D & C & K & V & R). exists p, class, k. split; [exact D|]. split; [exact C|]. split; [exact K|]. split; [reflexivity|]. now apply rank_asked in R as [R _].
Qed.
Lemma placed_fun E ps key d1 r1 d2 r2 : placed E ps key d1 r1 -> placed E ps key d2 r2 -> d1 = d2 /\ r1 = r2.
Proof.
  intros (p & c & k & D & C & K & -> & A) (p' & c' & k' & D' & C' & K' & -> & A'). rewrite D in D'. injection D' as <-. unfold class_of in *.
  rewrite C in C'. injection C' as <-. rewrite K in K'. injection K' as <-. split; auto. unfold asked in *. destruct (dget "target_rank" p) as [[]|]; congruence.
Qed.

(* the parameters without the rank *)
Lemma rank_split p r q : NoDup (map fst p) -> rank_of p = Ok (r, q) ->
  (forall nv, In nv q <-> In nv p /\ (fst nv = "target_rank" -> forall z, snd nv <> YInt z)) /\
  (forall l1 nv l2, p = (l1 ++ nv :: l2)%list -> In nv q -> exists m1 m2, q = (m1 ++ nv :: m2)%list /\ forall x, In x m2 -> In x l2) /\
  dget "tag" q = dget "tag" p.
Proof.
  intros N R. unfold rank_of in R.
  assert (A : forall (l1 l2 : pars), ddel "target_rank" (l1 ++ l2)%list = (ddel "target_rank" l1 ++ ddel "target_rank" l2)%list) by (intros; apply filter_app).
  destruct (dget "target_rank" p) as [[]|] eqn:T; try discriminate; injection R as <- <-.
  1, 3: split; [|split; [intros l1 nv l2 -> _; exists l1, l2; auto|auto]]; intros [n v]; split; [|tauto]; intros I; split; auto; cbn; intros -> z ->; apply (In_dget _ _ _ N) in I; congruence.
  split; [|split].
  - intros [n v]. rewrite In_ddel. cbn. split.
    + intros [I X]. split; auto; intros; contradiction.
    + intros [I X]. split; auto. intros ->. apply (In_dget _ _ _ N) in I. rewrite T in I. injection I as <-. now apply (X eq_refl z).
  - intros l1 [n v] l2 -> I. rewrite A in *. exists (ddel "target_rank" l1), (ddel "target_rank" l2).
    assert (Nn : n <> "target_rank").
    { rewrite <- A in I. apply In_ddel in I. tauto. }
    split; [|intros x; unfold ddel; rewrite filter_In; tauto]. f_equal. cbn [ddel filter fst]. destruct (String.eqb_spec "target_rank" n); [congruence|reflexivity].
  - destruct (dget "tag" p) as [t|] eqn:G.
    + apply In_dget; [now apply NoDup_ddel|]. apply In_ddel. split; [now apply dget_In|discriminate].
    + apply dget_None. apply dget_None in G. intros I. apply G. apply in_map_iff in I as ([n v] & <- & I). apply In_ddel in I as [I _]. apply in_map_iff. exists (n, v). auto.
Qed.
Lemma rank_nodup p r q : NoDup (map fst p) -> rank_of p = Ok (r, q) -> NoDup (map fst q).
Proof.
  intros N R. unfold rank_of in R. destruct (dget "target_rank" p) as [[]|]; try discriminate; injection R as <- <-; auto. now apply NoDup_ddel.
Qed.

(* every parameter is expected, also where the object is not built *)
Lemma args_known E root k objs here p : forall acc args, fold_res (add_arg E root k objs here) acc p = Ok args ->
  forall nv, In nv p -> ((fst nv = "class" \/ fst nv = "inputs" \/ fst nv = "outputs") /\ ~ In (fst nv) (c_args k)) \/ exists a, spells (c_args k) a (fst nv).
Proof.
  induction p as [|nv p IH]; intros acc args H nv' I; [destruct I|]. cbn [fold_res] in H. inv_bind H. destruct I as [<-|I]; [|eauto].
  unfold add_arg in E0. inv_bind E0. unfold one_arg in E1.
  destruct (mem (fst nv) ["class"; "inputs"; "outputs"] && negb (mem (fst nv) (c_args k))) eqn:S.
  - left. apply andb_true_iff in S as [S1 S2]. apply mem_in in S1. apply negb_true_iff, mem_out in S2. split; auto. cbn in S1. intuition.
  - right. destruct (mem (par_name (c_args k) (fst nv)) (c_args k)) eqn:M; [|discriminate]. apply mem_in in M. exists (par_name (c_args k) (fst nv)). now apply par_spells.
Qed.

Lemma run_facts E ps proc st : NoDup (map fst ps) -> build_objects E ps proc = Ok st ->
  exists root, root_dir ps = Ok root /\
  (forall k, ~ declared ps k -> dget k (b_objs st) = None /\ dget k (b_remote st) = None) /\
  forall key, declared ps key -> exists class k r p o objs, known E ps key class k r p /\ sub objs (b_objs st) /\
    make E root key class k p objs (build_here proc (c_data k) r) = Ok o /\ dget key (b_objs st) = o /\
    dget key (b_remote st) = if build_here proc (c_data k) r then None else Some (target r).
Proof.
  intros N H. unfold build_objects in H. inv_bind H. inv_bind H. exists a. split; [exact E0|]. destruct (build_order_sound ps N _ E1) as (No & Hd & _).
  destruct (fold_build E ps a proc a0 (mkB [] []) st No) as (_ & F2 & F3); [auto|exact H|]. split.
  - intros k Hk. apply F2. rewrite Hd. exact Hk.
  - intros key Hk. apply F3. now apply Hd.
Qed.
