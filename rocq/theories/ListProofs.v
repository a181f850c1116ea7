From Coq Require Import String List ZArith Bool Lia.
From Verif Require ParamsProofs.
From Verif Require Import PyBase PyLemmas NamesModel NamesSpec NamesProofs TrigOrderModel ParamsModel TagModel WireModel WireSpec WireProofs WireProofs2 ListSpec.
Import ListNotations.
Local Open Scope string_scope.

Lemma NoDup_dset {A} k (v : A) d : NoDup (map fst d) -> NoDup (map fst (dset k v d)).
Proof.
  induction d as [|[c w] d IH]; cbn; intros N; [repeat constructor; intros []|]. inversion N as [|x y N1 N2]; subst.
  destruct (String.eqb k c) eqn:Q; cbn; [apply String.eqb_eq in Q; subst c; constructor; assumption|]. constructor; [|auto]. intros I. apply N1.
  destruct (in_dec string_dec c (map fst d)) as [J|J]; [exact J|]. exfalso. apply dget_None in J. assert (X : dget c (dset k v d) = None) by (rewrite dget_dset; rewrite String.eqb_sym, Q; exact J).
  apply dget_None in X. contradiction.
Qed.
Lemma dget_ddel {A} k k' (d : dict A) : dget k (ddel k' d) = if String.eqb k k' then None else dget k d.
Proof.
  unfold ddel. induction d as [|[c w] d IH]; cbn; [now destruct (String.eqb k k')|]. destruct (String.eqb_spec k' c) as [<-|N]; cbn.
  - rewrite IH. destruct (String.eqb_spec k k'); reflexivity.
  - rewrite IH. destruct (String.eqb_spec k c) as [<-|N2]; [|reflexivity]. destruct (String.eqb_spec k k'); congruence.
Qed.
Lemma called_fun x m m' : called x m -> called x m' -> m = m'.
Proof.
  intros (s & o & k & d & n & -> & M & C) (s' & o' & k' & d' & n' & X & M' & C'). injection X as <-. destruct (means_fun _ _ _ _ _ _ _ _ _ M M') as (_ & _ & _ & <-).
  destruct C as [->|[-> ->]], C' as [Y|[Y ->]]; congruence.
Qed.
Lemma last_cons x q m z : last_called (x :: q) m z <-> last_called q m z \/ z = x /\ called x m /\ forall y, In y q -> ~ called y m.
Proof.
  split.
  - intros (a & b & E & C & L). destruct a as [|a0 a]; injection E as <- E; [subst; right; auto|]. left. exists a, b. auto.
  - intros [(a & b & -> & C & L)|(-> & C & L)]; [exists (x :: a), b; auto|exists [], q; auto].
Qed.
Lemma last_in l m z : last_called l m z -> In z l /\ called z m.
Proof. intros (a & b & -> & C & _). split; [apply in_or_app; right; now left|exact C]. Qed.
Lemma called_dec x m : called x m \/ ~ called x m.
Proof.
  destruct (split_v x) as [o|e] eqn:S.
  - apply split_means in S as (s & -> & M). destruct (string_dec m (str_opt (o_input o))) as [->|N].
    + left. exists s, (o_obj o), (o_key o), (o_delay o), (o_input o). split; [reflexivity|]. split; [exact M|]. destruct (o_input o); cbn; auto.
    + right. intros C. apply N. eapply called_fun; [exact C|]. exists s, (o_obj o), (o_key o), (o_delay o), (o_input o). split; [reflexivity|]. split; [exact M|]. destruct (o_input o); cbn; auto.
  - right. intros (s & o & k & d & n & -> & M & _). rewrite (means_split _ _ _ _ _ M) in S. discriminate.
Qed.
Lemma last_or l m : (exists x, last_called l m x) \/ forall x, In x l -> ~ called x m.
Proof.
  induction l as [|x l [[z IH]|IH]]; [right; intros x []|left; exists z; apply last_cons; auto|].
  destruct (called_dec x m) as [C|C]; [left; exists x; apply last_cons; auto|right; intros y [<-|I]; auto].
Qed.
Lemma class_ok cs p : is_class cs p = true <-> class_in cs p.
Proof.
  unfold is_class, class_in. destruct (dget "class" p) as [[]|]; try (split; [discriminate|intros (c & X & _); discriminate]).
  split; [intros H; apply ParamsProofs.mem_iff in H; eauto|]. intros (c & X & I). injection X as <-. now apply ParamsProofs.mem_iff.
Qed.

Section P.
Variables T D : Type.
Variable type_of : D -> T.
Variables none_type list_type : T.
Notation sobj := (sobj T D).
Notation value := (value T D).
Notation typed := (typed T D type_of none_type list_type).
Notation suits := (suits T D type_of none_type list_type).
Notation fits := (fits T D type_of none_type list_type).
Notation input_for := (input_for T D type_of none_type list_type).
Notation list_entry := (list_entry T D type_of none_type list_type).

Lemma ref_typed (r : ref D) : typed r (ref_type T D type_of none_type list_type r).
Proof. destruct r; constructor. Qed.
Lemma input_ok r i : input_for r = Ok i -> in_items i = [] /\ suits r (in_type i) (in_list i).
Proof.
  destruct r as [|d|[|x l]]; cbn; intros H; try discriminate; injection H as <-; (split; [reflexivity|]); cbn.
  - apply suits_one; [discriminate|constructor].
  - apply suits_one; [discriminate|constructor].
  - apply suits_list, ref_typed.
Qed.

(* values only grow *)
Definition keep (a b : dict sobj) : Prop := (forall o k r, value a o k r -> value b o k r) /\ forall o, dget o a = None <-> dget o b = None.
Lemma keep_refl a : keep a a.
Proof. split; tauto. Qed.
Lemma keep_trans a b c : keep a b -> keep b c -> keep a c.
Proof. intros [H1 H2] [K1 K2]. split; [auto|]. intros o. rewrite H2. apply K2. Qed.
Lemma fits_keep a b remote x t l : keep a b -> fits a remote x t l -> fits b remote x t l.
Proof. intros [K1 K2] H. inversion H; subst; [eapply fits_here; eauto|eapply fits_far; eauto; now apply K2]. Qed.

Lemma keep_set a key ob pr pr' : dget key a = Some ob -> s_proc ob = Some pr -> (forall k r, dget k (p_outs pr) = Some r -> dget k (p_outs pr') = Some r) ->
  keep a (dset key (mkS (s_self ob) (Some pr')) a).
Proof.
  intros G P O. split.
  - intros o k r V. inversion V as [o1 ob1 G1|o1 ob1 p1 k1 r1 G1 P1 K1]; subst.
    + destruct (String.eqb_spec o key) as [->|N].
      * rewrite G in G1. injection G1 as <-. change (s_self ob) with (s_self (mkS (s_self ob) (Some pr'))) at 2. constructor. now rewrite dget_dset, String.eqb_refl.
      * constructor. rewrite dget_dset. destruct (String.eqb_spec o key); congruence.
    + destruct (String.eqb_spec o key) as [->|N].
      * rewrite G in G1. injection G1 as <-. rewrite P in P1. injection P1 as <-. eapply value_out; [rewrite dget_dset, String.eqb_refl; reflexivity|reflexivity|auto].
      * eapply value_out; [|exact P1|exact K1]. rewrite dget_dset. destruct (String.eqb_spec o key); congruence.
  - intros o. rewrite dget_dset. destruct (String.eqb_spec o key) as [->|]; [|tauto]. split; congruence.
Qed.

Lemma entry_ok remote key objs ins x objs' ins' : list_entry remote key (objs, ins) x = Ok (objs', ins') ->
  exists m, called x m /\ ins' = dset m x ins /\
    match dget key objs with
    | None => objs' = objs
    | Some ob => exists pr t b, s_proc ob = Some pr /\ fits objs remote x t b /\
                   objs' = dset key (mkS (s_self ob) (Some (mkP (p_outs pr) (dset m (mkInp t b []) (p_ins pr)) (p_far pr)))) objs
    end.
Proof.
  unfold list_entry, resolve. intros H. inv_bind H. inv_bind E. inv_bind E. injection E as <-. cbn [fst snd] in H. inv_bind H. injection H as <- <-.
  rename a0 into o0. apply split_means in E0 as (s & -> & M). exists (str_opt (o_input o0)).
  assert (C : called (YStr s) (str_opt (o_input o0))). { exists s, (o_obj o0), (o_key o0), (o_delay o0), (o_input o0). split; [reflexivity|]. split; [exact M|]. destruct (o_input o0); cbn; auto. }
  split; [exact C|]. split; [reflexivity|]. destruct (dget key objs) as [ob|]; [|injection E as <-; reflexivity].
  inv_bind E. inv_bind E. injection E as <-. unfold proc_of in E2. destruct (s_proc ob) as [pr|] eqn:P; [|discriminate]. injection E2 as <-.
  apply input_ok in E0 as [I1 I2]. match goal with I : in_items ?i = [] |- _ => destruct i as [t b its] end. cbn in I1, I2. subst its. exists pr, t, b. split; [reflexivity|]. split; [|reflexivity].
  apply value_of_ok in E1. destruct E1 as [V|(G & R & ->)]; [eapply fits_here; eauto|]. inversion I2; subst. inversion H0; subst. eapply fits_far; eauto.
Qed.

(* what becomes of the object [key] when some entries are processed *)
Definition listed_to remote key (objs objs' : dict sobj) (l : list yval) : Prop :=
  keep objs objs' /\ (forall o, o <> key -> dget o objs' = dget o objs) /\ map fst objs' = map fst objs /\
  forall ob, dget key objs = Some ob -> (s_proc ob = None -> l = [] /\ objs' = objs) /\
    forall pr, s_proc ob = Some pr -> exists pr', dget key objs' = Some (mkS (s_self ob) (Some pr')) /\
      p_far pr' = p_far pr /\ p_outs pr' = p_outs pr /\
      (forall m x, last_called l m x -> exists t b, dget m (p_ins pr') = Some (mkInp t b []) /\ fits objs' remote x t b) /\
      (forall m, (forall x, In x l -> ~ called x m) -> dget m (p_ins pr') = dget m (p_ins pr)).

Lemma listed_nil remote key objs : listed_to remote key objs objs [].
Proof.
  split; [apply keep_refl|]. split; [auto|]. split; [reflexivity|]. intros [self proc] G. split; [auto|]. cbn. intros pr ->. exists pr. repeat split; auto. intros m x L. apply last_in in L as [[] _].
Qed.

Lemma fold_entries remote key : forall l objs ins objs' ins', fold_res (list_entry remote key) (objs, ins) l = Ok (objs', ins') ->
  listed_to remote key objs objs' l /\
  (forall m x, last_called l m x -> dget m ins' = Some x) /\ (forall m, (forall x, In x l -> ~ called x m) -> dget m ins' = dget m ins) /\
  (NoDup (map fst ins) -> NoDup (map fst ins')) /\ (forall x, In x l -> exists m, called x m).
Proof.
  induction l as [|x l IH]; intros objs ins objs' ins' H; cbn [fold_res] in H.
  - injection H as <- <-. split; [apply listed_nil|]. split; [intros m x L; apply last_in in L as [[] _]|]. split; [auto|]. split; [auto|intros x []].
  - inv_bind H. destruct a as [objs1 ins1]. apply entry_ok in E as (m0 & C & -> & Ho). apply IH in H as (L & I1 & I2 & I3 & I4). clear IH.
    assert (St : keep objs objs1 /\ (forall o, o <> key -> dget o objs1 = dget o objs) /\ map fst objs1 = map fst objs).
    { destruct (dget key objs) as [ob|] eqn:G; [|subst; split; [apply keep_refl|auto]]. destruct Ho as (pr & t & b & P & F & ->).
      split; [eapply keep_set; eauto|]. split; [intros o N; rewrite dget_dset; destruct (String.eqb_spec o key); congruence|eapply keys_dset_in; eauto]. }
    destruct St as (K1 & K2 & K3). destruct L as (L1 & L2 & L3 & L4).
    split; [|split; [|split; [|split]]].
    + split; [eapply keep_trans; eauto|]. split; [intros o N; rewrite L2 by auto; auto|]. split; [congruence|]. intros ob G. rewrite G in Ho. destruct Ho as (pr & t & b & P & F & Eo).
      split; [congruence|]. intros pr0 P0. rewrite P in P0. injection P0 as <-.
      assert (G1 : dget key objs1 = Some (mkS (s_self ob) (Some (mkP (p_outs pr) (dset m0 (mkInp t b []) (p_ins pr)) (p_far pr))))) by (rewrite Eo, dget_dset, String.eqb_refl; reflexivity).
      destruct (L4 _ G1) as [_ L5]. destruct (L5 _ eq_refl) as (pr' & G' & F' & O' & Q1 & Q2). exists pr'. cbn [s_self p_far p_outs p_ins] in *. repeat split; auto.
      * intros m z Lc. apply last_cons in Lc as [Lc|(-> & Cz & Nl)]; [auto|]. rewrite <- (called_fun _ _ _ C Cz) in *. exists t, b. split; [rewrite Q2 by assumption; now rewrite dget_dset, String.eqb_refl|].
        eapply fits_keep; [eapply keep_trans; eauto|exact F].
      * intros m Nc. rewrite Q2 by (intros y Iy; apply Nc; now right). rewrite dget_dset. destruct (String.eqb_spec m m0) as [->|]; [|reflexivity]. exfalso. exact (Nc x (or_introl eq_refl) C).
    + intros m z Lc. apply last_cons in Lc as [Lc|(-> & Cz & Nl)]; [auto|]. rewrite <- (called_fun _ _ _ C Cz) in *. rewrite I2 by assumption. now rewrite dget_dset, String.eqb_refl.
    + intros m Nc. rewrite I2 by (intros y Iy; apply Nc; now right). rewrite dget_dset. destruct (String.eqb_spec m m0) as [->|]; [|reflexivity]. exfalso. exact (Nc x (or_introl eq_refl) C).
    + intros N. apply I3, NoDup_dset, N.
    + intros y [<-|Iy]; eauto.
Qed.

Variable fresh_value : string -> D.
Notation set_outputs := (set_outputs T D fresh_value).
Notation list_object := (list_object T D type_of none_type list_type fresh_value).
Notation made := (made T D type_of none_type list_type fresh_value).


Lemma set_outputs_get pr k : dget k (p_outs (set_outputs pr)) =
  if existsb (fun kv => String.eqb k (fst kv ++ "_buffered")) (p_ins pr) then Some (RObj (fresh_value k)) else dget k (p_outs pr).
Proof.
  unfold WireModel.set_outputs. cbn [p_outs]. generalize (p_outs pr). generalize (p_ins pr). clear pr. intros ins. induction ins as [|[i v] ins IH]; intros outs; cbn [fold_left existsb fst]; [reflexivity|].
  rewrite IH, dget_dset. destruct (String.eqb_spec k (i ++ "_buffered")) as [->|]; cbn [orb]; [|reflexivity]. now destruct (existsb _ ins).
Qed.
Lemma set_outputs_iff pr k r : dget k (p_outs (set_outputs pr)) = Some r <->
  (exists i, dget i (p_ins pr) <> None /\ k = i ++ "_buffered" /\ r = RObj (fresh_value k)) \/
  dget k (p_outs pr) = Some r /\ forall i, dget i (p_ins pr) <> None -> k <> i ++ "_buffered".
Proof.
  rewrite set_outputs_get. destruct (existsb (fun kv => String.eqb k (fst kv ++ "_buffered")) (p_ins pr)) eqn:X.
  - apply existsb_exists in X as ([i v] & I & Q). apply String.eqb_eq in Q. cbn in Q.
    assert (G : dget i (p_ins pr) <> None) by (intros G; apply dget_None in G; apply G, in_map_iff; exists (i, v); auto).
    split; [intros H; injection H as <-; left; eauto|]. intros [(i' & _ & _ & ->)|(_ & N)]; [reflexivity|]. exfalso. exact (N i G Q).
  - split.
    + intros H. right. split; [exact H|]. intros i G ->. destruct (dget i (p_ins pr)) as [v|] eqn:Gv; [|congruence]. apply dget_In in Gv.
      assert (Y : existsb (fun kv => String.eqb (i ++ "_buffered") (fst kv ++ "_buffered")) (p_ins pr) = true) by (apply existsb_exists; exists (i, v); split; [exact Gv|apply String.eqb_refl]). congruence.
    + intros [(i & G & -> & ->)|[H _]]; [|exact H]. exfalso. destruct (dget i (p_ins pr)) as [v|] eqn:Gv; [|congruence]. apply dget_In in Gv.
      assert (Y : existsb (fun kv => String.eqb (i ++ "_buffered") (fst kv ++ "_buffered")) (p_ins pr) = true) by (apply existsb_exists; exists (i, v); split; [exact Gv|apply String.eqb_refl]). congruence.
Qed.

Lemma inputs_ok p o : inputs_items p = Ok o <-> match o with Some d => dget "inputs" p = Some (YDict d) | None => dget "inputs" p = None end.
Proof.
  unfold inputs_items. destruct (dget "inputs" p) as [v|]; [destruct v|]; destruct o; try (split; discriminate); split; intros H; try discriminate; try injection H as <-; auto.
Qed.
Lemma has_list_fun p l l' : has_list p l -> has_list p l' -> l = l'.
Proof.
  intros (_ & i & v & A & B & C) (_ & i' & v' & A' & B' & C'). rewrite A in A'. injection A' as <-. rewrite B in B'. injection B' as <-.
  apply iter_iterable in C, C'. congruence.
Qed.

Lemma object_step remote objs done key p objs' done' :
  list_object remote (objs, done) (key, p) = Ok (objs', done') ->
  (class_in ["DataBuffer"] p -> forall ob pr, dget key objs = Some ob -> s_proc ob = Some pr -> p_outs pr = []) ->
  exists p', done' = (done ++ [(key, p')])%list /\ unlisted p p' /\ keep objs objs' /\ (forall o, o <> key -> dget o objs' = dget o objs) /\ map fst objs' = map fst objs /\
    made objs objs' remote key p.
Proof.
  intros H B. unfold WireModel.list_object in H. inv_bind H. destruct a as [objs1 p1].
  (* the list *)
  assert (Y : exists l, entries p l /\ unlisted p p1 /\ listed_to remote key objs objs1 l).
  { destruct (is_class ["DataBuffer"; "DataStore"] p) eqn:C.
    2:{ injection E as <- <-. exists []. assert (Z : forall l, ~ has_list p l) by (intros l [X _]; apply class_ok in X; congruence).
        split; [right; auto|]. split; [|apply listed_nil]. split; [auto|]. split; [intros l Hl; exfalso; exact (Z l Hl)|auto]. }
    apply class_ok in C. inv_bind E. apply inputs_ok in E0.
    assert (None_case : (forall l, ~ has_list p l) -> Ok (objs, p) = Ok (objs1, p1) -> exists l, entries p l /\ unlisted p p1 /\ listed_to remote key objs objs1 l).
    { intros Z X. injection X as <- <-. exists []. split; [right; auto|]. split; [|apply listed_nil]. split; [auto|]. split; [intros l Hl; exfalso; exact (Z l Hl)|auto]. }
    destruct a as [ins|]; [|apply None_case; [intros l (_ & i & v & X & _); congruence|exact E]].
    destruct (dget "input_list" ins) as [v|] eqn:V; [|apply None_case; [intros l (_ & i & v & X & X2 & _); rewrite E0 in X; injection X as <-; congruence|exact E]].
    inv_bind E. inv_bind E. injection E as <- <-. destruct a0 as [o2 i2]. cbn [fst snd]. apply iter_iterable in E1. rename a into l.
    assert (Hl : has_list p l) by (split; [exact C|]; exists ins, v; auto). apply fold_entries in E2 as (L & I1 & I2 & I3 & I4).
    exists l. split; [left; exact Hl|]. split; [|exact L]. split; [intros q Nq; rewrite dget_dset; destruct (String.eqb_spec q "inputs"); congruence|]. split.
    - intros l' Hl'. rewrite <- (has_list_fun _ _ _ Hl Hl') in *. exists ins, (ddel "input_list" i2). split; [exact E0|]. split; [rewrite dget_dset; reflexivity|].
      split; [rewrite dget_ddel; reflexivity|]. split; [intros m x N Lc; rewrite dget_ddel; destruct (String.eqb_spec m "input_list"); [contradiction|auto]|].
      split; [intros m N Nc; rewrite dget_ddel; destruct (String.eqb_spec m "input_list"); [contradiction|auto]|]. intros N. apply NoDup_ddel. auto.
    - intros Z. exfalso. exact (Z l Hl). }
  destruct Y as (l & Hl & U & L1 & L2 & L3 & L4). clear E.
  assert (Cl : dget "class" p1 = dget "class" p) by (destruct U as (U & _); apply U; discriminate).
  assert (IC : forall cs, is_class cs p1 = is_class cs p) by (intros cs; unfold is_class; now rewrite Cl).
  destruct (dget "class" p1) as [cv|] eqn:CV; [|discriminate]. rewrite IC in H.
  assert (El : forall l', entries p l' -> l' = l).
  { intros l' [Hl'|[Z ->]]; destruct Hl as [Hl|[Z' ->]]; auto; [eapply has_list_fun; eauto|exfalso; exact (Z' _ Hl')|exfalso; exact (Z _ Hl)]. }
  destruct (is_class ["DataBuffer"] p) eqn:C; [apply class_ok in C|assert (NC : ~ class_in ["DataBuffer"] p) by (intros X; apply class_ok in X; congruence)].
  - destruct (dget key objs1) as [ob1|] eqn:G1; [|discriminate]. inv_bind H. injection H as <- <-. unfold proc_of in E. destruct (s_proc ob1) as [pr1|] eqn:P1; [|discriminate]. injection E as <-.
    destruct (dget key objs) as [ob|] eqn:G; [|apply (proj2 L1) in G; congruence]. destruct (L4 _ eq_refl) as [La Lb]. destruct (s_proc ob) as [pr|] eqn:P.
    2:{ destruct (La eq_refl) as [_ ->]. congruence. }
    destruct (Lb _ eq_refl) as (pr' & G' & F' & O' & Q1 & Q2). injection G' as ->. cbn in P1. injection P1 as ->.
    assert (Kp : keep objs1 (dset key (mkS (s_self ob) (Some (set_outputs pr1))) objs1)).
    { eapply (keep_set _ _ _ _ (set_outputs pr1) G1 eq_refl). intros k r X. rewrite O', (B C ob pr eq_refl P) in X. discriminate. }
    exists p1. split; [reflexivity|]. split; [exact U|]. split; [eapply keep_trans; eauto|].
    split; [intros o N; rewrite dget_dset; destruct (String.eqb_spec o key); [contradiction|auto]|]. split; [rewrite (keys_dset_in _ _ _ _ G1); exact L3|].
    intros ob0 l0 G0 E0. rewrite G in G0. injection G0 as <-. rewrite (El _ E0). eexists. split; [rewrite dget_dset, String.eqb_refl; reflexivity|]. cbn [s_self s_proc]. split; [reflexivity|]. rewrite P.
    split; [exact F'|]. split; [|split; [exact Q2|split; [contradiction|]]].
    + intros m x Lc. destruct (Q1 m x Lc) as (t & b & X1 & X2). exists t, b. split; [exact X1|]. eapply fits_keep; eauto.
    + intros _ k r. rewrite (set_outputs_iff pr1 k r), O'. reflexivity.
  - injection H as <- <-. exists p1. split; [reflexivity|]. split; [exact U|]. split; [exact L1|]. split; [exact L2|]. split; [exact L3|].
    intros ob0 l0 G0 E0. rewrite (El _ E0). destruct (L4 _ G0) as [La Lb]. destruct (s_proc ob0) as [pr|] eqn:P.
    + destruct (Lb _ eq_refl) as (pr' & G' & F' & O' & Q1 & Q2). eexists. split; [exact G'|]. cbn [s_self s_proc]. split; [reflexivity|]. split; [exact F'|]. split; [exact Q1|]. split; [exact Q2|]. split; [auto|contradiction].
    + destruct (La eq_refl) as [-> ->]. exists ob0. split; [exact G0|]. split; [reflexivity|]. now rewrite P.
Qed.

Lemma made_later remote a b c key p : made a b remote key p -> keep b c -> dget key c = dget key b -> made a c remote key p.
Proof.
  intros M K G ob l Go El. destruct (M ob l Go El) as (ob' & G' & S & X). exists ob'. split; [congruence|]. split; [exact S|]. destruct (s_proc ob), (s_proc ob'); auto.
  destruct X as (X1 & X2 & X3). split; [exact X1|]. split; [|exact X3]. intros m x Lc. destruct (X2 m x Lc) as (t & b0 & Y1 & Y2). exists t, b0. split; [exact Y1|]. eapply fits_keep; eauto.
Qed.
Lemma made_before remote a b c key p : made b c remote key p -> dget key b = dget key a -> made a c remote key p.
Proof. intros M G ob l Go. apply M. congruence. Qed.

Lemma objects_step remote : forall ps objs done objs' done',
  fold_res (list_object remote) (objs, done) ps = Ok (objs', done') -> NoDup (map fst ps) ->
  (forall key p ob pr, In (key, p) ps -> class_in ["DataBuffer"] p -> dget key objs = Some ob -> s_proc ob = Some pr -> p_outs pr = []) ->
  exists ps', done' = (done ++ ps')%list /\ Forall2 (fun kp kp' => fst kp' = fst kp /\ unlisted (snd kp) (snd kp')) ps ps' /\
    keep objs objs' /\ (forall o, ~ In o (map fst ps) -> dget o objs' = dget o objs) /\ map fst objs' = map fst objs /\
    forall key p, In (key, p) ps -> made objs objs' remote key p.
Proof.
  induction ps as [|[key p] ps IH]; intros objs done objs' done' H N B; cbn [fold_res] in H.
  - injection H as <- <-. exists []. rewrite app_nil_r. split; [reflexivity|]. split; [constructor|]. split; [apply keep_refl|]. split; [auto|]. split; [reflexivity|intros ? ? []].
  - inv_bind H. destruct a as [objs1 done1]. cbn [map fst] in N. inversion N as [|x y N1 N2]; subst.
    apply object_step in E as (p' & -> & U & K & O & Ks & M); [|intros C ob pr; apply (B key p ob pr (or_introl eq_refl) C)].
    apply IH in H as (ps' & -> & F & K' & O' & Ks' & M'); [|exact N2|].
    2:{ intros k1 q ob pr I C G. rewrite O in G; [|intros ->; apply N1, in_map_iff; exists (key, q); auto]. eapply B; eauto. now right. }
    exists ((key, p') :: ps'). rewrite <- app_assoc. split; [reflexivity|]. split; [constructor; auto|]. split; [eapply keep_trans; eauto|].
    split; [intros o X; rewrite O' by (intros Y; apply X; now right); apply O; intros ->; apply X; now left|]. split; [congruence|].
    intros k1 q [X|I]; [injection X as <- <-; eapply made_later; eauto|]. eapply made_before; [eauto|]. apply O. intros ->. apply N1, in_map_iff. exists (key, q). auto.
Qed.
End P.
