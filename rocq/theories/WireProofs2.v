From Coq Require Import String List Ascii ZArith Bool Lia.
From Verif Require Import PyBase PyLemmas NamesModel NamesSpec NamesProofs TrigOrderModel ParamsModel TagModel WireModel WireSpec WireProofs.
Import ListNotations.
Local Open Scope string_scope.

Section P.
Variable hash : string -> Z.
Variables T D : Type.
Variable isinst : D -> T -> bool.
Notation sobj := (sobj T D).
Notation wst := (wst T D).
Notation connect_ref := (connect_ref hash T D isinst).
Notation gives := (gives hash T D isinst).
Notation sends := (sends hash T D).
Notation same := (same T D).
Notation apart := (apart T D).
Notation edge_ok := (edge_ok hash T D isinst).

Definition wire (st : wst) (e : string * string * yval) : res wst := connect_ref (fst (fst e)) (snd (fst e)) st (snd e).
Definition at_input (o j : string) (e : string * string * yval) : bool := String.eqb (fst (fst e)) o && String.eqb (snd (fst e)) j.
Definition drawn (e : string * string * yval) (l : link) : Prop :=
  exists s o k dl n, snd e = YStr s /\ means s o k dl n /\ l = mkL o (fst (fst e)) k (snd (fst e)).

Definition wired_up (st : wst) (es : list (string * string * yval)) (st' : wst) : Prop := same st st' /\
  (forall o ob ob' p p', dget o (w_objs st) = Some ob -> dget o (w_objs st') = Some ob' -> s_proc ob = Some p -> s_proc ob' = Some p' ->
    (forall j n, dget j (p_ins p) = Some n -> exists ls, Forall2 (gives st o j (in_type n)) (map snd (filter (at_input o j) es)) ls /\
       dget j (p_ins p') = Some (mkInp (in_type n) (in_list n) (in_items n ++ concat ls)%list)) /\
    exists ls, Forall2 (sends st o) es ls /\ p_far p' = (p_far p ++ concat ls)%list) /\
  exists ls, Forall2 drawn es ls /\ w_links st' = (w_links st ++ ls)%list.

Lemma Forall2_impl {A B} (P Q : A -> B -> Prop) l l' : (forall a b, P a b -> Q a b) -> Forall2 P l l' -> Forall2 Q l l'.
Proof. induction 2; constructor; auto. Qed.
Lemma same_flip_sends st st1 o e l : same st st1 -> sends st1 o e l -> sends st o e l.
Proof.
  intros S H. pose proof (proj1 S) as R. inversion H; subst.
  - apply sends_here. intros X. now apply (same_none T D st st1) in X.
  - eapply sends_other; eauto.
  - eapply sends_none; eauto. apply (proj2 (same_value T D st st1 _ _ _ S)). assumption.
  - eapply sends_far; eauto; [apply (proj2 (same_none T D st st1 _ S)); assumption|apply (proj2 (same_value T D st st1 _ _ _ S)); assumption|congruence].
Qed.

Lemma wire_all es : forall st st', apart st -> fold_res wire st es = Ok st' -> wired_up st es st'.
Proof.
  induction es as [|[[d i] x] es IH]; intros st st' A H; cbn [fold_res] in H.
  - injection H as <-. split; [apply same_refl|]. split.
    + intros o ob ob' p p' X1 X2 X3 X4. rewrite X1 in X2. injection X2 as <-. rewrite X3 in X4. injection X4 as <-. split.
      * intros j n Hn. exists []. cbn. rewrite app_nil_r. split; [constructor|]. destruct n; exact Hn.
      * exists []. cbn. rewrite app_nil_r. auto.
    + exists []. rewrite app_nil_r. auto.
  - inv_bind H. rename a into st1. unfold wire in E. cbn [fst snd] in E. destruct (step T D isinst hash d i st x st1 A E) as [[S G] (s & o0 & k & dl & n0 & -> & M & Lk)].
    pose proof (same_apart T D st st1 S A) as A1. destruct (IH st1 st' A1 H) as (S1 & G1 & (ls & F & Lk1)).
    split; [exact (same_trans T D st st1 st' S S1)|]. split.
    + intros o ob ob' p p' X1 X2 X3 X4. pose proof S as (_ & _ & _ & S'). destruct (S' o ob X1) as (ob1 & Y1 & So). destruct So as [_ So]. rewrite X3 in So.
      destruct (s_proc ob1) as [p1|] eqn:Y3; [|tauto]. clear So. destruct (G o ob ob1 p p1 X1 Y1 X3 Y3) as [Gi (l & Gf & Gs)]. destruct (G1 o ob1 ob' p1 p' Y1 X2 Y3 X4) as [Gi1 (ls1 & Gs1 & Gf1)]. cbn [fst snd] in Gi. split.
      * intros j n Hn. destruct (Gi j n Hn) as (l1 & Z1 & Z2 & Z3). destruct (Gi1 j _ Z1) as (ls2 & F2 & Z4). cbn [in_type in_list in_items] in F2, Z4.
        assert (F3 : Forall2 (gives st o j (in_type n)) (map snd (filter (at_input o j) es)) ls2).
        { eapply Forall2_impl; [|exact F2]. intros a b. apply same_gives. exact S. }
        cbn [filter]. unfold at_input at 1. cbn [fst snd]. destruct (String.eqb_spec d o) as [->|N1]; [destruct (String.eqb_spec i j) as [->|N2]|]; cbn [andb].
        -- exists (l1 :: ls2). cbn [map snd concat]. split; [constructor; auto|]. rewrite Z4, app_assoc. reflexivity.
        -- rewrite Z3 in Z4 by (intros [_ Q]; congruence). rewrite app_nil_r in Z4. eauto.
        -- rewrite Z3 in Z4 by (intros [Q _]; congruence). rewrite app_nil_r in Z4. eauto.
      * exists (l :: ls1). cbn [concat]. split; [constructor; [exact Gs|]|rewrite Gf1, Gf, app_assoc; reflexivity]. eapply Forall2_impl; [|exact Gs1]. intros a b. now apply same_flip_sends.
    + exists (mkL o0 d k i :: ls). split; [constructor; [|exact F]|rewrite Lk1, Lk, <- app_assoc; reflexivity]. exists s, o0, k, dl, n0. auto.
Qed.

(* ------------------------------------------------------------- when it succeeds *)

Lemma step_ok d i st x : apart st -> (exists st', connect_ref d i st x = Ok st') <-> edge_ok st (d, i, x).
Proof.
  intros A. unfold WireModel.connect_ref, WireModel.resolve. split.
  - intros [st' H]. inv_bind H. destruct a as [o r]. inv_bind E. inv_bind E. injection E as -> <-. cbn [fst snd] in H.
    apply split_means in E0 as (s & -> & M). apply value_of_ok in E1. unfold WireModel.connect in H. cbn [w_objs w_remote] in H. rewrite dmem_get in H.
    destruct (dget d (w_objs st)) as [dob|] eqn:Gd.
    + assert (Q : forall r, r <> RNone -> a0 = r -> into_input T D (mkW (w_objs st) (w_remote st) (w_ranks st) (w_links st ++ [mkL (o_obj o) d (o_key o) i])%list) d i (fun n => append T D isinst (in_type n) (in_items n) r) = Ok st' -> edge_ok st (d, i, YStr s)).
      { intros r Nr -> X. apply into_input_ok in X as (ob & p & n & l & G & P & N & F & ->). apply append_ok in F as (lv & L & I & ->). cbn [w_objs] in G.
        destruct E1 as [V|(_ & _ & V)]; [|contradiction]. eapply ok_in; eauto. eapply gives_here; eauto. }
      destruct a0 as [|v|lv].
      * apply into_input_ok in H as (ob & p & n & l & G & P & N & F & _). cbn [w_objs] in G. destruct (dget (o_obj o) (w_remote st)) as [q|] eqn:R; [|discriminate].
        eapply ok_in; eauto. eapply gives_far; eauto. destruct E1 as [V|(V & _)]; [|exact V]. apply value_iff in V as (ob1 & G1 & _). exfalso. rewrite (A (o_obj o)) in R; congruence.
      * apply (Q (RObj v)); [discriminate|reflexivity|exact H].
      * apply (Q (RList lv)); [discriminate|reflexivity|exact H].
    + assert (Q : a0 = RNone \/ exists ob p q, dget (o_obj o) (w_objs st) = Some ob /\ s_proc ob = Some p /\ dget d (w_remote st) = Some q /\ a0 <> RNone).
      { destruct a0 as [|v|lv]; [now left|right|right]; (destruct (dget (o_obj o) (w_objs st)) as [ob|] eqn:G; [|discriminate]; inv_bind H; unfold proc_of in E; destruct (s_proc ob) as [p|] eqn:P; [|discriminate];
        destruct (dget d (w_remote st)) as [q|]; [|discriminate]; exists ob, p, q; repeat split; auto; discriminate). }
      destruct Q as [->|(ob & p & q & G & P & R & Nr)].
      * destruct E1 as [V|(V & W & _)]; [eapply ok_none; eauto|eapply ok_away; eauto].
      * destruct E1 as [V|(_ & _ & V)]; [|contradiction]. eapply ok_out; eauto.
  - intros H. inversion H as [d0 i0 x0 ob p n l G P N Gv|d0 i0 s o k dl n Gd M G R|d0 i0 s o k dl n Gd M V|d0 i0 s o k dl n r ob p q Gd M V G P R]; subst.
    + inversion Gv as [s o k dl m r lv M V L I|s o k dl m q M Go R]; subst.
      * rewrite (means_split _ _ _ _ _ M). cbn [bind]. assert (E1 : value_of T D (w_objs st) (w_remote st) (mkOutput o k dl m) = Ok r) by (apply value_of_ok; left; exact V).
        rewrite E1. cbn [bind fst snd o_obj o_key]. unfold WireModel.connect. cbn [w_objs]. rewrite dmem_get, G.
        assert (E2 : append T D isinst (in_type n) (in_items n) r = Ok (in_items n ++ map Here lv)%list) by (apply append_ok; eauto).
        destruct r as [|v|lr]; [inversion L| |]; (eexists; apply into_input_ok; exists ob, p, n; eexists; split; [exact G|]; split; [exact P|]; split; [exact N|]; split; [exact E2|reflexivity]).
      * rewrite (means_split _ _ _ _ _ M). cbn [bind]. assert (E1 : value_of T D (w_objs st) (w_remote st) (mkOutput o k dl m) = Ok RNone) by (apply value_of_ok; right; cbn [o_obj]; repeat split; congruence).
        rewrite E1. cbn [bind fst snd o_obj o_key]. unfold WireModel.connect. cbn [w_objs]. rewrite dmem_get, G.
        eexists; apply into_input_ok; exists ob, p, n; eexists; split; [exact G|]; split; [exact P|]; split; [exact N|]. cbn [o_obj w_remote]. rewrite R. split; reflexivity.
    + rewrite (means_split _ _ _ _ _ M). cbn [bind]. assert (E1 : value_of T D (w_objs st) (w_remote st) (mkOutput o k dl n) = Ok RNone) by (apply value_of_ok; right; cbn [o_obj]; repeat split; congruence).
      rewrite E1. cbn [bind fst snd]. unfold WireModel.connect. cbn [w_objs]. rewrite dmem_get, Gd. eauto.
    + rewrite (means_split _ _ _ _ _ M). cbn [bind]. assert (E1 : value_of T D (w_objs st) (w_remote st) (mkOutput o k dl n) = Ok RNone) by (apply value_of_ok; left; exact V).
      rewrite E1. cbn [bind fst snd]. unfold WireModel.connect. cbn [w_objs]. rewrite dmem_get, Gd. eauto.
    + rewrite (means_split _ _ _ _ _ M). cbn [bind]. assert (E1 : value_of T D (w_objs st) (w_remote st) (mkOutput o k dl n) = Ok r) by (apply value_of_ok; left; exact V).
      rewrite E1. cbn [bind fst snd]. unfold WireModel.connect. cbn [w_objs o_obj w_remote]. rewrite dmem_get, Gd. unfold proc_of. rewrite G, P, R. cbn [bind]. destruct r; eauto.
Qed.

Lemma same_edge a b e : same a b -> (edge_ok a e <-> edge_ok b e).
Proof.
  intros S. pose proof (proj1 S) as R. split; intros H; inversion H as [d0 i0 x0 ob p n l G P N Gv|d0 i0 s o k dl n Gd M G R0|d0 i0 s o k dl n Gd M V|d0 i0 s o k dl n r ob p q Gd M V G P R0]; subst.
  - pose proof S as (_ & _ & _ & S'). destruct (S' _ _ G) as (ob' & G' & [_ Q]). rewrite P in Q. destruct (s_proc ob') as [p'|] eqn:P'; [|tauto]. destruct Q as (_ & _ & Q).
    destruct (Q _ _ N) as (n' & N' & Tn & _). eapply ok_in; eauto. rewrite Tn. apply (proj1 (same_gives T D isinst hash a b _ _ _ _ _ S)). eauto.
  - eapply ok_away; eauto; [apply (proj1 (same_none T D a b _ S)); assumption|apply (proj1 (same_none T D a b _ S)); assumption|rewrite R; assumption].
  - eapply ok_none; eauto; [apply (proj1 (same_none T D a b _ S)); assumption|apply (proj1 (same_value T D a b _ _ _ S)); assumption].
  - pose proof S as (_ & _ & _ & S'). destruct (S' _ _ G) as (ob' & G' & [_ Q]). rewrite P in Q. destruct (s_proc ob') as [p'|] eqn:P'; [|tauto].
    eapply ok_out; eauto; [apply (proj1 (same_none T D a b _ S)); assumption|apply (proj1 (same_value T D a b _ _ _ S)); eassumption|rewrite R; eassumption].
  - destruct (same_back T D _ _ _ _ S G) as (ob' & G' & [_ Q]). rewrite P in Q. destruct (s_proc ob') as [p'|] eqn:P'; [|tauto]. destruct Q as (_ & K & Q).
    destruct (dget i0 (p_ins p')) as [n'|] eqn:N'; [|apply (proj1 (dget_keys _ _ i0 K)) in N'; congruence].
    destruct (Q _ _ N') as (n2 & N2 & Tn & _). rewrite N in N2. injection N2 as <-. eapply ok_in; [exact G'|exact P'|exact N'|].
    rewrite <- Tn. apply (proj2 (same_gives T D isinst hash a b _ _ _ _ _ S)). eauto.
  - eapply ok_away; eauto; [apply (proj2 (same_none T D a b _ S)); assumption|apply (proj2 (same_none T D a b _ S)); assumption|rewrite <- R; assumption].
  - eapply ok_none; eauto; [apply (proj2 (same_none T D a b _ S)); assumption|apply (proj2 (same_value T D a b _ _ _ S)); assumption].
  - destruct (same_back T D _ _ _ _ S G) as (ob' & G' & [_ Q]). rewrite P in Q. destruct (s_proc ob') as [p'|] eqn:P'; [|tauto].
    eapply ok_out; eauto; [apply (proj2 (same_none T D a b _ S)); assumption|apply (proj2 (same_value T D a b _ _ _ S)); eassumption|rewrite <- R; eassumption].
Qed.

Lemma wire_ok es : forall st, apart st -> (exists st', fold_res wire st es = Ok st') <-> (forall e, In e es -> edge_ok st e).
Proof.
  induction es as [|[[d i] x] es IH]; intros st A; cbn [fold_res]; [split; [intros _ e []|eauto]|]. split.
  - intros [st' H]. inv_bind H. unfold wire in E. cbn [fst snd] in E. destruct (step T D isinst hash d i st x a A E) as [[S _] _].
    intros e [<-|I]; [apply step_ok; eauto|]. apply (same_edge st a e S). apply (proj1 (IH a (same_apart T D st a S A))); eauto.
  - intros H. destruct (proj2 (step_ok d i st x A) (H _ (or_introl eq_refl))) as [st1 E]. unfold wire at 1. cbn [fst snd]. rewrite E. cbn [bind].
    destruct (step T D isinst hash d i st x st1 A E) as [[S _] _]. apply IH; [exact (same_apart T D st st1 S A)|]. intros e I. apply (same_edge st st1 e S). apply H. now right.
Qed.

(* ------------------------------------------------------------- whole configurations *)
Notation connect_objects := (connect_objects hash T D isinst).
Notation connect_object := (connect_object hash T D isinst).
Notation connect_input := (connect_input hash T D isinst).

Lemma same_names_ok a b d p : same a b -> (names_ok T D a d p <-> names_ok T D b d p).
Proof.
  intros S. unfold names_ok. split; intros H v Hv; destruct (H v Hv) as (ins & -> & X); exists ins; (split; [reflexivity|]); intros i x I; destruct (X i x I) as [X1 X2]; (split; [exact X1|]); intros ob G Ni.
  - destruct (same_back T D _ _ _ _ S G) as (ob0 & G0 & [_ Q]). destruct (X2 ob0 G0 Ni) as (pr & n & P & N). rewrite P in Q. destruct (s_proc ob) as [p'|]; [|tauto]. destruct Q as (_ & _ & Q).
    destruct (Q _ _ N) as (n' & N' & _). eauto.
  - pose proof S as (_ & _ & _ & S'). destruct (S' _ _ G) as (ob0 & G0 & [_ Q]). destruct (X2 ob0 G0 Ni) as (pr & n & P & N). rewrite P in Q. destruct (s_proc ob) as [p'|]; [|tauto]. destruct Q as (_ & K & Q).
    destruct (dget i (p_ins p')) as [n'|] eqn:N'; [eauto|apply (proj1 (dget_keys _ _ i K)) in N'; congruence].
Qed.
Lemma same_outputs_ok proc a b d p : same a b -> (outputs_ok T D proc a d p <-> outputs_ok T D proc b d p).
Proof.
  intros S. assert (G : forall x, output_ok T D proc a d x <-> output_ok T D proc b d x).
  { intros x. unfold output_ok. pose proof S as (_ & Rk & _ & S'). destruct (dget d (w_objs a)) as [ob|] eqn:G.
    - destruct (S' _ _ G) as (ob' & G' & [_ Q]). rewrite G'. destruct (s_proc ob) as [p0|], (s_proc ob') as [p1|]; try tauto. destruct Q as (Q & _).
      split; intros (p2 & s & r & P & X & Y); injection P as <-; [exists p1|exists p0]; exists s, r; (split; [reflexivity|]); split; congruence.
    - apply (proj1 (same_none T D a b d S)) in G. rewrite G, Rk. reflexivity. }
  unfold outputs_ok. split; intros H v Hv; destruct (H v Hv) as (l & I & X); exists l; (split; [exact I|]); intros x J; apply G; auto.
Qed.

Lemma iter_iterable v l : iter_value v = Ok l <-> iterable v l.
Proof.
  unfold iterable. assert (C : forall s, chars s = map (fun c => YStr (String c "")) (list_ascii_of_string s)) by (induction s as [|c s IH]; cbn; congruence).
  destruct v; cbn [iter_value]; split; try discriminate;
    try (intros [H|[(d & H & _)|(s' & H & _)]]; discriminate).
  - intros H. injection H as <-. right. right. eexists. split; [reflexivity|apply C].
  - intros [H|[(d & H & _)|(s' & H & ->)]]; try discriminate. injection H as <-. now rewrite C.
  - intros H. injection H as <-. now left.
  - intros [H|[(d & H & _)|(s' & H & _)]]; try discriminate. now injection H as ->.
  - intros H. injection H as <-. right. left. eauto.
  - intros [H|[(d' & H & ->)|(s' & H & _)]]; try discriminate. now injection H as <-.
Qed.
Lemma check_output_ok proc st d x : check_output T D proc st d x = Ok tt <-> output_ok T D proc st d x.
Proof.
  unfold check_output, output_ok, proc_of. destruct (dget d (w_objs st)) as [ob|].
  - destruct (s_proc ob) as [p|]; cbn [bind]; [|split; [discriminate|intros (p & s & r & P & _); discriminate]].
    destruct x; try (split; [discriminate|intros (q & s' & r & P & X & _); discriminate]). rewrite dmem_get. destruct (dget s (p_outs p)) as [r|] eqn:E.
    + split; [intros _; exists p, s, r; auto|reflexivity].
    + split; [discriminate|]. intros (q & s' & r & P & X & Y). injection P as <-. injection X as <-. congruence.
  - destruct (dget d (w_ranks st)) as [z|]; [|split; [discriminate|intros (z & X & _); discriminate]].
    destruct proc as [q|]; [|split; [intros _; exists z; split; [reflexivity|discriminate]|reflexivity]].
    destruct (Z.eqb_spec z q) as [->|N]; split; try discriminate; try reflexivity.
    + intros (z & X & Y). injection X as <-. congruence.
    + intros _. exists z. split; [reflexivity|congruence].
Qed.
Lemma map_res_unit {A} (f : A -> res unit) l : (exists u, map_res f l = Ok u) <-> forall x, In x l -> f x = Ok tt.
Proof.
  induction l as [|x l IH]; cbn [map_res]; [split; [intros _ x []|eauto]|]. split.
  - intros [u H]. inv_bind H. inv_bind H. destruct a. intros y [<-|I]; [exact E|]. apply IH; eauto.
  - intros H. rewrite (H x) by now left. cbn [bind]. destruct (proj2 IH) as [u U]; [intros y I; apply H; now right|]. rewrite U. cbn [bind]. eauto.
Qed.
Lemma outputs_check proc st d p : outputs_ok T D proc st d p <->
  match dget "outputs" p with None => Ok tt | Some v => l <- iter_value v ;; _ <- map_res (check_output T D proc st d) l ;; Ok tt end = Ok tt.
Proof.
  unfold outputs_ok. destruct (dget "outputs" p) as [v|]; [|split; [reflexivity|discriminate]]. split.
  - intros H. destruct (H v eq_refl) as (l & I & X). apply iter_iterable in I. rewrite I. cbn [bind].
    destruct (proj2 (map_res_unit (check_output T D proc st d) l)) as [u U]; [intros x J; apply check_output_ok; auto|]. rewrite U. reflexivity.
  - intros H v' Hv. injection Hv as <-. inv_bind H. inv_bind H. exists a. split; [now apply iter_iterable|]. intros x J. apply check_output_ok. apply (proj1 (map_res_unit _ a)); eauto.
Qed.

Definition item_edges (d : string) (iv : string * yval) : list (string * string * yval) := map (fun x => (d, fst iv, x)) (listed (snd iv)).
Lemma fold_wire d i l : forall st, fold_res (connect_ref d i) st l = fold_res wire st (map (fun x => (d, i, x)) l).
Proof. induction l as [|x l IH]; intros st; cbn [fold_res map]; [reflexivity|]. unfold wire at 1. cbn [fst snd]. destruct (connect_ref d i st x); cbn [bind]; auto. Qed.

Definition item_ok (st : wst) (d : string) (iv : string * yval) : Prop :=
  ((exists s, snd iv = YStr s) \/ (exists l, snd iv = YList l)) /\
  forall ob, dget d (w_objs st) = Some ob -> fst iv <> "input_list" -> exists pr n, s_proc ob = Some pr /\ dget (fst iv) (p_ins pr) = Some n.
Lemma input_wire d st iv st' : connect_input d st iv = Ok st' <-> item_ok st d iv /\ fold_res wire st (item_edges d iv) = Ok st'.
Proof.
  unfold WireModel.connect_input, item_ok, item_edges, proc_of. destruct iv as [i v]. cbn [fst snd]. split.
  - intros H. inv_bind H. inv_bind H. rewrite fold_wire in H. split.
    + split; [destruct v; try discriminate; eauto|]. intros ob G Ni. rewrite G in E. destruct (String.eqb_spec i "input_list"); [contradiction|].
      destruct (s_proc ob) as [p|]; [|discriminate]. cbn [bind] in E. rewrite dmem_get in E. destruct (dget i (p_ins p)) as [m|] eqn:N; [eauto|discriminate].
    + destruct v; try discriminate; injection E0 as <-; exact H.
  - intros [[V X] H]. assert (E : match dget d (w_objs st) with
       | Some ob => if String.eqb i "input_list" then Ok tt else p <- match s_proc ob with Some p => Ok p | None => Err AttributeError end ;; if dmem i (p_ins p) then Ok tt else Err ValueError
       | None => Ok tt end = Ok tt).
    { destruct (dget d (w_objs st)) as [ob|]; [|reflexivity]. destruct (String.eqb_spec i "input_list") as [|Nl]; [reflexivity|]. destruct (X ob eq_refl Nl) as (pr & m & P & N). rewrite P. cbn [bind]. rewrite dmem_get, N. reflexivity. }
    rewrite E. cbn [bind]. destruct V as [[s ->]|[l ->]]; cbn [bind]; rewrite fold_wire; exact H.
Qed.
Lemma same_item_ok a b d iv : same a b -> (item_ok a d iv <-> item_ok b d iv).
Proof.
  intros S. pose proof (same_names_ok a b d [("inputs", YDict [iv])] S) as H. unfold names_ok in H. cbn in H.
  assert (Q : forall w, item_ok w d iv <-> (forall v, Some (YDict [iv]) = Some v -> exists ins, v = YDict ins /\
    forall i x, In (i, x) ins -> ((exists s, x = YStr s) \/ (exists l, x = YList l)) /\
      forall ob, dget d (w_objs w) = Some ob -> i <> "input_list" -> exists pr n, s_proc ob = Some pr /\ dget i (p_ins pr) = Some n)).
  { intros w. unfold item_ok. split.
    - intros X v Hv. injection Hv as <-. eexists. split; [reflexivity|]. intros i x [->|[]]. exact X.
    - intros X. destruct (X _ eq_refl) as (ins & Y & Z). injection Y as <-. destruct iv as [i x]. exact (Z i x (or_introl eq_refl)). }
  rewrite (Q a), (Q b). exact H.
Qed.

Lemma inputs_wire d ins : forall st st', apart st -> fold_res (connect_input d) st ins = Ok st' <-> (forall iv, In iv ins -> item_ok st d iv) /\ fold_res wire st (flat_map (item_edges d) ins) = Ok st'.
Proof.
  induction ins as [|iv ins IH]; intros st st' A; cbn [fold_res flat_map]; [split; [intros H; split; [intros iv []|exact H]|tauto]|]. rewrite fold_res_app. split.
  - intros H. inv_bind H. apply input_wire in E as [E1 E2]. destruct (wire_all _ _ _ A E2) as (S & _). apply IH in H as [H1 H2]; [|exact (same_apart T D st a S A)].
    split; [intros v [<-|I]; [exact E1|apply (same_item_ok st a d v S); auto]|]. rewrite E2. exact H2.
  - intros [H1 H2]. inv_bind H2. assert (E1 : connect_input d st iv = Ok a) by (apply input_wire; split; [apply H1; now left|exact E]). rewrite E1. cbn [bind].
    destruct (wire_all _ _ _ A E) as (S & _). apply IH; [exact (same_apart T D st a S A)|]. split; [|exact H2]. intros v I. apply (same_item_ok st a d v S). apply H1. now right.
Qed.

Lemma edges_item d p : edges_of (d, p) = match dget "inputs" p with Some (YDict ins) => flat_map (item_edges d) ins | _ => [] end.
Proof. reflexivity. Qed.
Lemma object_wire proc dp st st' : apart st -> connect_object proc st dp = Ok st' <->
  outputs_ok T D proc st (fst dp) (snd dp) /\ names_ok T D st (fst dp) (snd dp) /\ fold_res wire st (edges_of dp) = Ok st'.
Proof.
  intros A. destruct dp as [d p]. rewrite edges_item. cbn [fst snd]. unfold WireModel.connect_object. cbn [fst snd]. split.
  - intros H. inv_bind H. destruct a. split; [now apply outputs_check|]. unfold inputs_items in H. unfold names_ok. destruct (dget "inputs" p) as [v|]; cbn [bind] in H.
    + destruct v; try discriminate. cbn [bind] in H. apply inputs_wire in H as [H1 H2]; [|exact A]. split; [|exact H2]. intros v Hv. injection Hv as <-. eexists. split; [reflexivity|]. intros i x I. exact (H1 (i, x) I).
    + split; [discriminate|exact H].
  - intros (O & N & H). apply outputs_check in O. rewrite O. cbn [bind]. unfold inputs_items. destruct (dget "inputs" p) as [v|] eqn:Ei; cbn [bind]; [|exact H].
    destruct (N v Ei) as (ins & -> & X). cbn [bind]. apply inputs_wire; [exact A|]. split; [intros [i x] I; exact (X i x I)|exact H].
Qed.

Theorem objects_wire proc ps : forall st st', apart st -> connect_objects proc st ps = Ok st' <->
  (forall d p, In (d, p) ps -> outputs_ok T D proc st d p /\ names_ok T D st d p) /\ fold_res wire st (edges ps) = Ok st'.
Proof.
  unfold WireModel.connect_objects, edges. induction ps as [|[d p] ps IH]; intros st st' A; cbn [fold_res flat_map]; [split; [intros H; split; [intros d p []|exact H]|tauto]|]. rewrite fold_res_app. split.
  - intros H. inv_bind H. apply object_wire in E as (E1 & E2 & E3); [|exact A]. destruct (wire_all _ _ _ A E3) as (S & _). apply IH in H as [H1 H2]; [|exact (same_apart T D st a S A)].
    split; [|rewrite E3; exact H2]. intros d' p' [X|I]; [injection X as <- <-; auto|]. destruct (H1 d' p' I). split; [now apply (same_outputs_ok proc st a)|now apply (same_names_ok st a)].
  - intros [H1 H2]. inv_bind H2. assert (E1 : connect_object proc st (d, p) = Ok a) by (apply object_wire; [exact A|]; destruct (H1 d p (or_introl eq_refl)); auto).
    rewrite E1. cbn [bind]. destruct (wire_all _ _ _ A E) as (S & _). apply IH; [exact (same_apart T D st a S A)|]. split; [|exact H2].
    intros d' p' I. destruct (H1 d' p' (or_intror I)). split; [now apply (same_outputs_ok proc st a)|now apply (same_names_ok st a)].
Qed.
End P.
