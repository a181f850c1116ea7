(* Proofs about the construction of objects. *)
From Coq Require Import String List Ascii ZArith Bool Arith Lia.
From Verif Require Import PyBase PyLemmas NamesModel NamesSpec TrigOrderModel TrigOrderSpec ParamsModel ParamsSpec ParamsProofs
  BuildModel BuildSpec.
From Verif Require CalFileModel CalFileProofs.
Import ListNotations.
Local Open Scope string_scope.

Lemma mem_in k l : mem k l = true <-> In k l.
Proof.
  unfold mem. rewrite existsb_exists. split.
  - intros (x & H & E). apply String.eqb_eq in E. subst. exact H.
  - intros H. exists k. rewrite String.eqb_refl. auto.
Qed.
Lemma mem_out k l : mem k l = false <-> ~ In k l.
Proof. rewrite <- mem_in. destruct (mem k l); split; intros; auto; try discriminate. now destruct H. Qed.

Lemma app_inj_end (a b e : string) : (a ++ e)%string = (b ++ e)%string -> a = b.
Proof.
  intros H. rewrite <- (drop_last_app a e), <- (drop_last_app b e). now rewrite H.
Qed.

Fixpoint last_char (s : string) : option ascii :=
  match s with EmptyString => None | String c EmptyString => Some c | String _ r => last_char r end.
Lemma last_app a b : b <> "" -> last_char (a ++ b)%string = last_char b.
Proof.
  intros H. induction a as [|c a IH]; [reflexivity|]. cbn [append last_char]. destruct (a ++ b)%string eqn:E; [|exact IH].
  destruct a; [contradiction|discriminate].
Qed.

Lemma has_end_iff e s : ends_with e s = true <-> has_end e s.
Proof. apply ends_with_iff. Qed.

Lemma app_assoc_s (a b c : string) : ((a ++ b) ++ c)%string = (a ++ (b ++ c))%string.
Proof. induction a; simpl; f_equal; auto. Qed.

(* two suffixes *)
Lemma two_ends (x e f a b : string) : x = (a ++ e)%string -> x = (b ++ f)%string -> e <> "" -> f <> "" -> last_char e = last_char f.
Proof. intros -> H E F. apply (f_equal last_char) in H. rewrite !last_app in H; auto. Qed.

(* ------------------------------------------------------------ names of arguments *)

Lemma remove_suffix_end a e : remove_suffix (a ++ e) e = a.
Proof.
  unfold remove_suffix. assert (H : ends_with e (a ++ e) = true) by (apply ends_with_iff; now exists a). rewrite H. apply drop_last_app.
Qed.
Lemma remove_suffix_other s e : ends_with e s = false -> remove_suffix s e = s.
Proof. unfold remove_suffix. now intros ->. Qed.

Lemma spells_par args a name : spells args a name -> par_name args name = a.
Proof.
  intros [Ha [->|[Hn H]]]; unfold par_name.
  - assert (mem a args = true) by now apply mem_in. now rewrite H.
  - assert (M : mem name args = false) by now apply mem_out. rewrite M. cbn [find suffixes].
    assert (K : forall e f, In e suffixes -> In f suffixes -> e <> f -> name = (a ++ e)%string -> mem (remove_suffix name f) args = false).
    { intros e f He Hf Hd En. destruct (ends_with f name) eqn:Ef.
      - apply ends_with_iff in Ef as [b Eb]. exfalso. apply Hd.
        assert (L : last_char e = last_char f).
        { eapply two_ends; [exact En|exact Eb| |]; cbn in He, Hf; intuition (subst; discriminate). }
        cbn in He, Hf. intuition (subst; try reflexivity; discriminate).
      - rewrite remove_suffix_other by auto. exact M. }
    assert (G : forall e, name = (a ++ e)%string -> mem (remove_suffix name e) args = true /\ remove_suffix name e = a).
    { intros e ->. rewrite remove_suffix_end. split; auto. now apply mem_in. }
    destruct H as [H|[H|H]]; destruct (G _ H) as [G1 G2].
    + rewrite G1. exact G2.
    + rewrite (K "_data" "_ref") by (cbn; auto; discriminate). rewrite G1. exact G2.
    + rewrite (K "_object" "_ref"), (K "_object" "_data") by (cbn; auto; discriminate). rewrite G1. exact G2.
Qed.

Lemma par_spells args name : In (par_name args name) args -> spells args (par_name args name) name.
Proof.
  unfold par_name. destruct (mem name args) eqn:M; [intros H; split; auto|].
  destruct (find (fun e => mem (remove_suffix name e) args) suffixes) as [e|] eqn:F.
  2:{ intros H. apply mem_in in H. congruence. }
  apply find_some in F as [F1 F2]. intros H. split; [exact H|]. right. split; [now apply mem_out|].
  destruct (ends_with e name) eqn:Ee.
  - apply ends_with_iff in Ee as [b ->]. rewrite remove_suffix_end. cbn in F1. intuition (subst; auto).
  - rewrite remove_suffix_other in F2 by auto. congruence.
Qed.

(* ------------------------------------------------------------------ one argument *)
Section Build.
Variable E : env.

Definition sub (o o' : dict built) : Prop := forall s b, dget s o = Some b -> dget s o' = Some b.
Lemma lookup_mono o o' x r : sub o o' -> lookup o x = Ok r -> lookup o' x = Ok r.
Proof.
  intros S. destruct x; cbn; auto. destruct (dget s o) eqn:D; [|discriminate]. rewrite (S _ _ D). auto.
Qed.
Lemma map_lookup_mono o o' l r : sub o o' -> map_res (lookup o) l = Ok r -> map_res (lookup o') l = Ok r.
Proof.
  intros S. revert r. induction l as [|x l IH]; intros r H; [exact H|]. cbn [map_res] in *. inv_bind H. inv_bind H.
  rewrite (lookup_mono _ _ _ _ S E0). cbn [bind]. rewrite (IH _ E1). exact H.
Qed.

Lemma one_arg_mono root k o o' here name v r : sub o o' -> one_arg E root k o here name v = Ok r -> one_arg E root k o' here name v = Ok r.
Proof.
  intros S. unfold one_arg. destruct (_ && _); auto. set (p := par_name _ _). destruct (negb (mem p (c_args k))); auto.
  destruct (ends_with "_list_ref" name && _).
  { destruct v; auto. destruct here; auto. intros H. inv_bind H. rewrite (map_lookup_mono _ _ _ _ S E0). exact H. }
  destruct (ends_with "_dict_ref" name && _).
  { intros H. inv_bind H. rewrite E0. cbn [bind]. destruct here; auto. inv_bind H. rewrite (map_lookup_mono _ _ _ _ S E1). exact H. }
  destruct (_ && _ && _); auto. destruct (_ && _ && _); auto.
  destruct (ends_with "_ref" name && _); auto. destruct here; auto. intros H. inv_bind H. rewrite (lookup_mono _ _ _ _ S E0). exact H.
Qed.

Lemma add_args_mono root k o o' here p acc r : sub o o' -> fold_res (add_arg E root k o here) acc p = Ok r ->
  fold_res (add_arg E root k o' here) acc p = Ok r.
Proof.
  intros S. revert acc. induction p as [|nv p IH]; intros acc H; [exact H|]. cbn [fold_res] in *. inv_bind H.
  unfold add_arg in E0. inv_bind E0. unfold add_arg at 1. rewrite (one_arg_mono _ _ _ _ _ _ _ _ S E1). cbn [bind]. injection E0 as <-. apply IH. exact H.
Qed.

Lemma make_mono root key class k p o o' here r : sub o o' -> make E root key class k p o here = Ok r -> make E root key class k p o' here = Ok r.
Proof.
  intros S. unfold make. destruct (dget "tag" p); destruct here; auto; intros H; inv_bind H; rewrite (add_args_mono _ _ _ _ _ _ _ _ S E0); exact H.
Qed.

Lemma make_some root key class k p o here r : make E root key class k p o here = Ok r -> (exists b, r = Some b) <-> here = true.
Proof.
  unfold make. intros H. destruct here.
  - split; auto. intros _. destruct (dget "tag" p).
    + destruct (Nat.ltb _ _); [discriminate|]. inv_bind H. injection H as <-. eauto.
    + inv_bind H. cbn [negb] in H. inv_bind H. inv_bind H. injection H as <-. eauto.
  - split; [|discriminate]. intros [b ->]. destruct (dget "tag" p); inv_bind H; discriminate.
Qed.

(* an object that lives elsewhere is checked less *)
Lemma one_arg_away root k o o' name v r : one_arg E root k o true name v = Ok r -> one_arg E root k o' false name v = Ok None.
Proof.
  unfold one_arg. destruct (_ && _); auto. set (p := par_name _ _). destruct (negb (mem p (c_args k))); [discriminate|].
  destruct (ends_with "_list_ref" name && _). { destruct v; auto; discriminate. }
  destruct (ends_with "_dict_ref" name && _). { intros H. inv_bind H. rewrite E0. reflexivity. }
  rewrite !andb_false_r. intros _. destruct (ends_with "_ref" name && _); reflexivity.
Qed.
Lemma add_args_away root k o o' p : forall acc acc' r, fold_res (add_arg E root k o true) acc p = Ok r ->
  fold_res (add_arg E root k o' false) acc' p = Ok acc'.
Proof.
  induction p as [|nv p IH]; intros acc acc' r H; [reflexivity|]. cbn [fold_res] in *. inv_bind H. unfold add_arg in E0. inv_bind E0.
  unfold add_arg at 1. rewrite (one_arg_away _ _ _ _ _ _ _ E1). cbn [bind]. eapply IH. exact H.
Qed.
Lemma make_away root key class k p o o' r : dget "tag" p = None -> make E root key class k p o true = Ok r -> make E root key class k p o' false = Ok None.
Proof. unfold make. intros -> H. inv_bind H. rewrite (add_args_away _ _ _ o' _ _ [] _ E0). reflexivity. Qed.

(* what one parameter gives *)
Lemma iter_iterates v l : iter_value v = Ok l -> iterates v l.
Proof.
  destruct v; cbn; try discriminate; intros [= <-]; try constructor.
  assert (X : chars s = map (fun c => YStr (String c "")) (list_ascii_of_string s)) by (induction s; cbn; f_equal; auto).
  rewrite X. constructor.
Qed.

Lemma lookup_names o x s b : lookup o x = Ok (s, b) -> x = YStr s /\ dget s o = Some b.
Proof. destruct x; cbn; try discriminate. destruct (dget s0 o) eqn:D; [|discriminate]. intros [= <- <-]. auto. Qed.

Lemma map_res_Forall2 {X Y} (f : X -> res Y) l r : map_res f l = Ok r -> Forall2 (fun x y => f x = Ok y) l r.
Proof.
  revert r. induction l as [|x l IH]; cbn; intros r H; [injection H as <-; constructor|]. inv_bind H. inv_bind H. injection H as <-. constructor; auto.
Qed.

Lemma restore_from root kind type v l : restore E root kind type v = Ok l -> from_file root kind type v l.
Proof.
  unfold restore. destruct v; try (destruct (CalFileModel.filename _ _ _); discriminate). intros H. inv_bind H.
  destruct (e_restore E type a); [|discriminate]. injection H as <-. exists s. cbn. repeat split; auto.
Qed.

Lemma dupdate_get {V} (e : dict V) : forall d k, dget k (dupdate d e) = match dget k (rev e) with Some v => Some v | None => dget k d end.
Proof.
  induction e as [|[a b] e IH]; intros d k; [reflexivity|]. unfold dupdate in *. cbn [fold_left fst snd rev]. rewrite IH.
  assert (X : forall (l1 l2 : dict V), dget k (l1 ++ l2)%list = match dget k l1 with Some v => Some v | None => dget k l2 end).
  { induction l1 as [|[x y] l1 IHl]; intros l2; [reflexivity|]. cbn. destruct (String.eqb k x); auto. }
  rewrite X. destruct (dget k (rev e)); auto. rewrite CalFileProofs.dget_dset. cbn. destruct (String.eqb k a); reflexivity.
Qed.

Lemma dict_of_objects o l os : map_res (lookup o) l = Ok os ->
  (forall x, In x l -> exists b, names o x b) /\
  forall s, (In (YStr s) l -> dget s (dupdate [] os) = dget s o) /\ (~ In (YStr s) l -> dget s (dupdate [] os) = None).
Proof.
  intros H. apply map_res_Forall2 in H. 
  assert (K : forall s b, In (s, b) os -> In (YStr s) l /\ dget s o = Some b).
  { clear -H. induction H as [|x [s' b'] l os H0 H IH]; intros s b Hi; [destruct Hi|]. apply lookup_names in H0 as [-> H0].
    destruct Hi as [Hi|Hi]; [injection Hi as <- <-; split; [left|]; auto|]. destruct (IH _ _ Hi). split; [right|]; auto. }
  assert (K2 : forall x, In x l -> exists s b, x = YStr s /\ dget s o = Some b /\ In (s, b) os).
  { clear -H. induction H as [|x [s' b'] l os H0 H IH]; intros y Hi; [destruct Hi|]. apply lookup_names in H0 as [-> H0].
    destruct Hi as [<-|Hi]; [exists s', b'; cbn; auto|]. destruct (IH _ Hi) as (s & b & ? & ? & ?). exists s, b. cbn. auto. }
  split.
  - intros x Hx. destruct (K2 x Hx) as (s & b & -> & D & _). exists b, s. auto.
  - intros s. rewrite dupdate_get. cbn [dget]. split; intros Hi.
    + destruct (K2 _ Hi) as (s' & b & [= <-] & D & I). destruct (dget s (rev os)) as [b'|] eqn:G.
      * apply dget_In in G. apply in_rev in G. destruct (K _ _ G) as [_ G2]. congruence.
      * apply dget_None in G. exfalso. apply G. apply in_map_iff. exists (s, b). split; auto. now apply in_rev in I.
    + destruct (dget s (rev os)) as [b'|] eqn:G; auto. apply dget_In in G. apply in_rev in G. destruct (K _ _ G). contradiction.
Qed.

Lemma ends_split a e f name : name = (a ++ e)%string -> (ends_with (f ++ e) name = true <-> has_end f a).
Proof.
  intros ->. rewrite ends_with_iff. split.
  - intros [b Hb]. rewrite <- app_assoc_s in Hb. apply app_inj_end in Hb. exists b. exact Hb.
  - intros [b ->]. exists b. now rewrite app_assoc_s.
Qed.

Lemma one_arg_says root k objs name v r : one_arg E root k objs true name v = Ok r ->
  (r = None /\ (name = "class" \/ name = "inputs" \/ name = "outputs") /\ ~ In name (c_args k)) \/
  (exists a x, r = Some (a, x) /\ spells (c_args k) a name /\ says root k objs a name v x).
Proof.
  unfold one_arg. destruct (mem name ["class"; "inputs"; "outputs"] && negb (mem name (c_args k))) eqn:Sk.
  { intros [= <-]. left. split; auto. apply andb_true_iff in Sk as [S1 S2]. apply mem_in in S1. apply negb_true_iff, mem_out in S2.
    split; auto. cbn in S1. intuition. }
  clear Sk. destruct (mem (par_name (c_args k) name) (c_args k)) eqn:Mp; [|discriminate]. cbn [negb]. apply mem_in in Mp.
  pose proof (par_spells _ _ Mp) as Sp. set (p := par_name (c_args k) name) in *. intros H. right.
  destruct (String.eqb_spec p name) as [Ep|Np].
  { cbn [negb] in H. rewrite !andb_false_r in H. cbn [andb] in H. injection H as <-. exists name, (ARaw v).
    split; auto. rewrite Ep in Sp. split; auto. constructor. }
  cbn [negb] in H. rewrite !andb_true_r in H. destruct Sp as [Ia [Sp|[Nn Sp]]]; [congruence|].
  assert (S : spells (c_args k) p name) by (split; auto).
  destruct Sp as [Sp|[Sp|Sp]].
  - (* _ref *)
    pose proof (ends_split p "_ref" "_list" name Sp) as L1. pose proof (ends_split p "_ref" "_dict" name Sp) as L2. cbn [append] in L1, L2.
    destruct (ends_with "_list_ref" name) eqn:X1.
    { destruct v; try discriminate. inv_bind H. injection H as <-. eexists p, _. split; [reflexivity|]. split; auto. rewrite Sp.
      apply says_list_ref; [now apply L1|]. apply map_res_Forall2 in E0. clear -E0. induction E0 as [|x [s b] l os H0 H IH]; [constructor|].
      apply lookup_names in H0 as [-> H0]. constructor; auto. exists s. auto. }
    destruct (ends_with "_dict_ref" name) eqn:X2.
    { inv_bind H. inv_bind H. injection H as <-. eexists p, _. split; [reflexivity|]. split; auto. rewrite Sp.
      destruct (dict_of_objects _ _ _ E1) as [D1 D2]. apply says_dict_ref with a; [now apply L2|now apply iter_iterates|exact D1|exact D2]. }
    assert (X3 : ends_with "_list_object" name = false /\ ends_with "_dict_object" name = false /\ ends_with "_ref" name = true).
    { split; [|split].
      - destruct (ends_with "_list_object" name) eqn:X; auto. apply ends_with_iff in X as [b X]. pose proof (two_ends name _ _ _ _ Sp X) as T. discriminate T; discriminate.
      - destruct (ends_with "_dict_object" name) eqn:X; auto. apply ends_with_iff in X as [b X]. pose proof (two_ends name _ _ _ _ Sp X) as T. discriminate T; discriminate.
      - apply ends_with_iff. exists p. exact Sp. }
    destruct X3 as (X4 & X5 & X3). rewrite X3, X4, X5 in H. cbn [andb] in H. inv_bind H. injection H as <-. destruct a as [s b]. apply lookup_names in E0 as [-> E0].
    eexists p, _. split; [reflexivity|]. split; auto. cbn [snd]. rewrite Sp. apply says_ref; [|exists s; auto].
    split; intros Q; [apply L1 in Q|apply L2 in Q]; discriminate.
  - (* _data *)
    assert (X : forall e, In e ["_list_ref"; "_dict_ref"; "_list_object"; "_dict_object"; "_ref"; "_object"] -> ends_with e name = false).
    { intros e He. destruct (ends_with e name) eqn:X; auto. apply ends_with_iff in X as [b X]. exfalso.
      cbn in He. destruct He as [<-|[<-|[<-|[<-|[<-|[<-|[]]]]]]]; pose proof (two_ends name _ _ _ _ Sp X) as T; discriminate T; discriminate. }
    rewrite !X in H by (cbn; auto 10). cbn [andb] in H. assert (Y : ends_with "_data" name = true) by (apply ends_with_iff; exists p; exact Sp).
    rewrite Y in H. destruct v; try (cbn in H; discriminate).
    + injection H as <-. eexists p, _. split; [reflexivity|]. split; auto. rewrite Sp. apply says_no_data. auto.
    + inv_bind H. injection H as <-. eexists p, _. split; [reflexivity|]. split; auto. rewrite Sp. apply says_data. unfold read_data in E0. inv_bind E0.
      destruct (e_file E a0); [|discriminate]. injection E0 as <-. exact E1.
  - (* _object *)
    pose proof (ends_split p "_object" "_list" name Sp) as L1. pose proof (ends_split p "_object" "_dict" name Sp) as L2. cbn [append] in L1, L2.
    assert (X : forall e, In e ["_list_ref"; "_dict_ref"; "_ref"; "_data"] -> ends_with e name = false).
    { intros e He. destruct (ends_with e name) eqn:X; auto. apply ends_with_iff in X as [b X]. exfalso.
      cbn in He. destruct He as [<-|[<-|[<-|[<-|[]]]]]; pose proof (two_ends name _ _ _ _ Sp X) as T; discriminate T; discriminate. }
    rewrite (X "_list_ref"), (X "_dict_ref"), (X "_ref"), (X "_data") in H by (cbn; auto 10). cbn [andb] in H.
    destruct (ends_with "_list_object" name) eqn:X1.
    { destruct v; try discriminate.
      - injection H as <-. eexists p, _. split; [reflexivity|]. split; auto. rewrite Sp. apply says_no_data. auto.
      - destruct (dget p (c_hints k)) as [[t|t|t|]|] eqn:Dh; try discriminate. inv_bind H. injection H as <-. eexists p, _. split; [reflexivity|]. split; auto.
        rewrite Sp. apply says_list_object with t; [now apply L1|exact Dh|]. apply map_res_Forall2 in E0. clear -E0. induction E0; constructor; auto. now apply restore_from. }
    destruct (ends_with "_dict_object" name) eqn:X2.
    { destruct v; try discriminate.
      - injection H as <-. eexists p, _. split; [reflexivity|]. split; auto. rewrite Sp. apply says_no_data. auto.
      - destruct (dget p (c_hints k)) as [[t|t|t|]|] eqn:Dh; try discriminate. inv_bind H. injection H as <-. eexists p, _. split; [reflexivity|]. split; auto.
        rewrite Sp. apply says_dict_object with t; [now apply L2|exact Dh|]. apply map_res_Forall2 in E0. clear -E0. induction E0 as [|[x1 x2] [y1 y2] l l' H0 H IH]; constructor; auto.
        inv_bind H0. injection H0 as <- <-. cbn [fst snd] in *. split; auto. now apply restore_from. }
    assert (Y : ends_with "_object" name = true) by (apply ends_with_iff; exists p; exact Sp). rewrite Y in H. cbn [andb] in H.
    assert (Sg : single p) by (split; intros Q; [apply L1 in Q|apply L2 in Q]; discriminate).
    destruct v; try (injection H as <-; eexists p, _; split; [reflexivity|]; split; auto; rewrite Sp; apply says_no_data; auto; fail);
      destruct (dget p (c_hints k)) as [[t|t|t|]|] eqn:Dh;
      try (match type of H with context [restore E root p "" ?w] => destruct (restore E root p "" w) as [|[]]; discriminate end); try discriminate;
      inv_bind H; injection H as <-; eexists p, _; (split; [reflexivity|]); split; auto; rewrite Sp; apply says_object with t; auto; now apply restore_from.
Qed.

(* ----------------------------------------------------------------- all arguments *)

Lemma dget_dset {V} k k' (v : V) d : dget k (dset k' v d) = if String.eqb k k' then Some v else dget k d.
Proof. apply CalFileProofs.dget_dset. Qed.

Lemma spells_unique args a b name : spells args a name -> spells args b name -> a = b.
Proof. intros H1 H2. rewrite <- (spells_par _ _ _ H1). now apply spells_par. Qed.

Lemma skip_not_spelled args a name : (name = "class" \/ name = "inputs" \/ name = "outputs") -> ~ In name args -> ~ spells args a name.
Proof.
  intros H N [Ha [->|[_ S]]]; [contradiction|].
  assert (L : last_char name = Some "s"%char) by (destruct H as [->|[->| ->]]; reflexivity).
  destruct S as [S|[S|S]]; apply (f_equal last_char) in S; rewrite L, last_app in S by discriminate; discriminate.
Qed.

Lemma args_facts root k objs p : forall acc args, fold_res (add_arg E root k objs true) acc p = Ok args ->
  (forall a, (forall nv, In nv p -> ~ spells (c_args k) a (fst nv)) -> dget a args = dget a acc) /\
  (forall l1 nv l2 a, p = (l1 ++ nv :: l2)%list -> spells (c_args k) a (fst nv) -> (forall nv', In nv' l2 -> ~ spells (c_args k) a (fst nv')) ->
     exists x, says root k objs a (fst nv) (snd nv) x /\ dget a args = Some x) /\
  (forall nv, In nv p -> ((fst nv = "class" \/ fst nv = "inputs" \/ fst nv = "outputs") /\ ~ In (fst nv) (c_args k)) \/
     exists a x, spells (c_args k) a (fst nv) /\ says root k objs a (fst nv) (snd nv) x).
Proof.
  induction p as [|nv p IH]; intros acc args H; cbn [fold_res] in H.
  - injection H as <-. split; [auto|]. split; [|intros nv []]. intros [|] nv l2 a H; discriminate.
  - inv_bind H. destruct (IH _ _ H) as (I1 & I2 & I3). unfold add_arg in E0. inv_bind E0. injection E0 as <-.
    destruct (one_arg_says _ _ _ _ _ _ E1) as [(-> & S1 & S2)|(b & x & -> & S1 & S2)].
    + split; [|split].
      * intros c Hc. rewrite I1; auto. intros nv' Hn. apply Hc. now right.
      * intros [|m l1] nv' l2 c Hp Hs Hl; cbn in Hp; injection Hp as <- Hp.
        { exfalso. exact (skip_not_spelled _ _ _ S1 S2 Hs). }
        exact (I2 l1 nv' l2 c Hp Hs Hl).
      * intros nv' [<-|Hn]; [left; auto|exact (I3 _ Hn)].
    + split; [|split].
      * intros c Hc. rewrite I1 by (intros nv' Hn; apply Hc; now right). rewrite dget_dset. destruct (String.eqb_spec c b); auto.
        subst. exfalso. apply (Hc nv); auto. now left.
      * intros [|m l1] nv' l2 c Hp Hs Hl; cbn in Hp; injection Hp as <- Hp.
        { subst p. rewrite (spells_unique _ _ _ _ Hs S1) in *. exists x. split; auto. rewrite I1 by auto. rewrite dget_dset, String.eqb_refl. reflexivity. }
        exact (I2 l1 nv' l2 c Hp Hs Hl).
      * intros nv' [<-|Hn]; [right; eauto|exact (I3 _ Hn)].
Qed.

(* the last parameter that writes an argument, if any *)
Lemma last_writer args a (p : pars) : (forall nv, In nv p -> ~ spells args a (fst nv)) \/
  exists l1 nv l2, p = (l1 ++ nv :: l2)%list /\ spells args a (fst nv) /\ forall nv', In nv' l2 -> ~ spells args a (fst nv').
Proof.
  induction p as [|nv p IH] using rev_ind; [left; intros nv []|].
  assert (D : spells args a (fst nv) \/ ~ spells args a (fst nv)).
  { destruct (in_dec string_dec a args) as [Ha|Ha]; [|right; intros [? _]; contradiction].
    destruct (string_dec (par_name args (fst nv)) a) as [Hp|Hp].
    - left. subst a. now apply par_spells.
    - right. intros S. apply Hp. now apply spells_par. }
  destruct D as [D|D].
  - right. exists p, nv, []. repeat split; auto; destruct D; auto.
  - destruct IH as [IH|(l1 & m & l2 & -> & S1 & S2)].
    + left. intros nv' Hn. apply in_app_or in Hn as [Hn|[<-|[]]]; auto.
    + right. exists l1, m, (l2 ++ [nv])%list. split; [rewrite <- app_assoc; reflexivity|]. split; auto.
      intros nv' Hn. apply in_app_or in Hn as [Hn|[<-|[]]]; auto.
Qed.

Lemma keys_dset_nodup {V} k (v : V) d : NoDup (map fst d) -> NoDup (map fst (dset k v d)).
Proof.
  intros N. destruct (in_dec string_dec k (map fst d)) as [H|H].
  - rewrite keys_dset; auto.
  - assert (X : map fst (dset k v d) = (map fst d ++ [k])%list).
    { clear N. induction d as [|[a b] d IH]; [reflexivity|]. cbn in *. destruct (String.eqb_spec k a); [subst; tauto|]. cbn. f_equal. auto. }
    rewrite X. apply NoDup_rev in N. rewrite <- (rev_involutive (map fst d)). change [k] with (rev [k]). rewrite <- rev_app_distr. apply NoDup_rev. cbn. constructor; auto. now rewrite <- in_rev.
Qed.
Lemma args_nodup root k objs here p : forall acc args, NoDup (map fst acc) -> fold_res (add_arg E root k objs here) acc p = Ok args -> NoDup (map fst args).
Proof.
  induction p as [|nv p IH]; intros acc args N H; cbn [fold_res] in H; [injection H as <-; auto|]. inv_bind H. unfold add_arg in E0. inv_bind E0. injection E0 as <-.
  eapply IH; [|exact H]. destruct a0 as [[q x]|]; auto. now apply keys_dset_nodup.
Qed.
Lemma dget_rev {V} k (d : dict V) : NoDup (map fst d) -> dget k (rev d) = dget k d.
Proof.
  intros N. destruct (dget k d) as [v|] eqn:G.
  - apply In_dget; [rewrite map_rev; now apply NoDup_rev|]. rewrite <- in_rev. now apply dget_In.
  - apply dget_None. apply dget_None in G. rewrite map_rev, <- in_rev. exact G.
Qed.

Lemma global_facts root class args g : global_args root class args = Ok g ->
  forall a x, dget a g = Some x <-> In a args /\ automatic root class a x.
Proof.
  unfold global_args. intros H. inv_bind H. injection H as <-.
  assert (X : forall (l1 l2 : dict argval) k, dget k (l1 ++ l2)%list = match dget k l1 with Some v => Some v | None => dget k l2 end).
  { induction l1 as [|[x y] l1 IHl]; intros l2 k; [reflexivity|]. cbn. destruct (String.eqb k x); auto. }
  assert (Y : forall b n v k, dget k (if b : bool then [(n, v)] else []) = if b && String.eqb k n then Some v else None : option argval).
  { intros [|] n v k; cbn; auto. }
  intros c x. rewrite !X, !Y.
  assert (Z : dget c a = if mem "data_dir" args && String.eqb c "data_dir" then match CalFileModel.root_subdir root class with Ok d => Some (ADir d) | Err _ => None end else None).
  { destruct (mem "data_dir" args); [|injection E0 as <-; reflexivity]. inv_bind E0. rewrite E1. injection E0 as <-. cbn. destruct (String.eqb c "data_dir"); reflexivity. }
  assert (Z2 : mem "data_dir" args = true -> exists d, CalFileModel.root_subdir root class = Ok d).
  { intros M. rewrite M in E0. inv_bind E0. eauto. }
  rewrite Z. clear Z E0 X Y.
  assert (F : forall n, c <> n -> String.eqb c n = false) by (intros n; apply String.eqb_neq).
  split.
  - destruct (mem "data_dir" args && String.eqb c "data_dir") eqn:D1.
    { apply andb_true_iff in D1 as [D1 D2]. apply String.eqb_eq in D2. subst c. destruct (Z2 D1) as [d Hd]. rewrite Hd. intros [= <-].
      split; [now apply mem_in|now constructor]. }
    destruct (mem "params_dict" args && String.eqb c "params_dict") eqn:D2.
    { apply andb_true_iff in D2 as [D2 D3]. apply String.eqb_eq in D3. subst c. intros [= <-]. split; [now apply mem_in|constructor]. }
    destruct (mem "input_ref_getter" args && String.eqb c "input_ref_getter") eqn:D3.
    { apply andb_true_iff in D3 as [D3 D4]. apply String.eqb_eq in D4. subst c. intros [= <-]. split; [now apply mem_in|constructor]. }
    destruct (mem "output_ref_getter" args && String.eqb c "output_ref_getter") eqn:D4.
    { apply andb_true_iff in D4 as [D4 D5]. apply String.eqb_eq in D5. subst c. intros [= <-]. split; [now apply mem_in|constructor]. }
    destruct (mem "info_getter" args && String.eqb c "info_getter") eqn:D5; [|discriminate].
    apply andb_true_iff in D5 as [D5 D6]. apply String.eqb_eq in D6. subst c. intros [= <-]. split; [now apply mem_in|constructor].
  - intros [Hc Ha]. apply mem_in in Hc. destruct Ha; rewrite Hc; cbn [String.eqb Ascii.eqb Bool.eqb andb]; rewrite ?andb_false_r; auto.
    rewrite H. reflexivity.
Qed.

(* a new object *)
Lemma made_new root key class k p objs here nm c my : make E root key class k p objs here = Ok (Some (BNew nm c my)) ->
  here = true /\ nm = key /\ c = class /\ dget "tag" p = None /\ e_init E class my = Ok tt /\
  (forall nv, In nv p -> ((fst nv = "class" \/ fst nv = "inputs" \/ fst nv = "outputs") /\ ~ In (fst nv) (c_args k)) \/
     exists a x, spells (c_args k) a (fst nv) /\ says root k objs a (fst nv) (snd nv) x) /\
  (forall l1 nv l2 a, p = (l1 ++ nv :: l2)%list -> spells (c_args k) a (fst nv) -> (forall nv', In nv' l2 -> ~ spells (c_args k) a (fst nv')) ->
     exists x, says root k objs a (fst nv) (snd nv) x /\ dget a my = Some x) /\
  (forall a, (forall nv, In nv p -> ~ spells (c_args k) a (fst nv)) -> forall x, dget a my = Some x <-> In a (c_args k) /\ automatic root class a x).
Proof.
  unfold make. intros H. destruct (dget "tag" p) eqn:T; destruct here.
  - destruct (Nat.ltb _ _); [discriminate|]. inv_bind H. discriminate.
  - inv_bind H. discriminate.
  - inv_bind H. cbn [negb] in H. inv_bind H. inv_bind H. injection H as <- <- <-. destruct a1.
    destruct (args_facts _ _ _ _ _ _ E0) as (F1 & F2 & F3). pose proof (args_nodup _ _ _ _ _ [] _ (NoDup_nil _) E0) as N.
    assert (G : forall b, dget b (dupdate a0 a) = match dget b a with Some v => Some v | None => dget b a0 end).
    { intros b. rewrite dupdate_get, dget_rev by auto. reflexivity. }
    do 4 (split; [first [reflexivity|exact T]|]). split; [exact E2|]. split; [exact F3|]. split.
    + intros l1 nv l2 b Hp Hs Hl. destruct (F2 l1 nv l2 b Hp Hs Hl) as (x & S & D). exists x. split; auto. rewrite G, D. reflexivity.
    + intros b Hb x. rewrite G, F1 by auto. cbn [dget]. now apply global_facts.
  - inv_bind H. discriminate.
Qed.

Lemma made_tag root key class k p objs here nm l : make E root key class k p objs here = Ok (Some (BTag nm l)) ->
  here = true /\ nm = key /\ exists t, dget "tag" p = Some t /\ from_file root class class t l /\ length (ddel "target_device_idx" p) <= 2.
Proof.
  unfold make. intros H. destruct (dget "tag" p) eqn:T; destruct here; try (inv_bind H; try discriminate; cbn [negb] in H; repeat inv_bind H; discriminate).
  destruct (Nat.ltb_spec 2 (length (ddel "target_device_idx" p))); [discriminate|]. inv_bind H. injection H as <- <-. split; auto. split; auto. exists y. split; auto. split; [now apply restore_from|auto].
Qed.

Lemma says_mono root k o o' a name v x : sub o o' -> says root k o a name v x -> says root k o' a name v x.
Proof.
  intros S H. assert (N : forall y b, names o y b -> names o' y b) by (intros y b (s & -> & D); exists s; auto).
  destruct H; econstructor; eauto.
  - clear -N H0. induction H0; constructor; auto.
  - intros y Hy. destruct (H1 y Hy). eauto.
  - intros s. destruct (H2 s) as [A B]. split; auto. intros Hi. rewrite (A Hi). destruct (H1 _ Hi) as (b & s' & [= <-] & D). rewrite D. symmetry. auto.
Qed.

(* ------------------------------------------------------------------- all objects *)

Section Run.
Variables (ps : params) (root : string).

(* the fixed facts about an object *)
Definition known (key class : string) (k : klass) (r : option Z) (p : pars) : Prop :=
  exists p0, dget key ps = Some p0 /\ dget "class" p0 = Some (YStr class) /\ e_class E class = Ok k /\ device_ok p0 = Ok tt /\ rank_of p0 = Ok (r, p).

Lemma known_fun key c1 k1 r1 p1 c2 k2 r2 p2 : known key c1 k1 r1 p1 -> known key c2 k2 r2 p2 -> c1 = c2 /\ k1 = k2 /\ r1 = r2 /\ p1 = p2.
Proof.
  intros (p & A1 & A2 & A3 & _ & A4) (q & B1 & B2 & B3 & _ & B4). rewrite A1 in B1. injection B1 as <-. rewrite A2 in B2. injection B2 as <-.
  rewrite A3 in B3. injection B3 as <-. rewrite A4 in B4. injection B4 as <- <-. auto.
Qed.

Lemma build_one_iff proc st key st' : build_one E ps root proc st key = Ok st' <->
  exists class k r p o, known key class k r p /\ make E root key class k p (b_objs st) (build_here proc (c_data k) r) = Ok o /\
    st' = mkB (match o with Some b => dset key b (b_objs st) | None => b_objs st end)
              (if build_here proc (c_data k) r then b_remote st else dset key (target r) (b_remote st)).
Proof.
  unfold build_one. split.
  - destruct (dget key ps) as [p0|] eqn:D; [|discriminate]. intros H. inv_bind H. inv_bind H. inv_bind H. inv_bind H. inv_bind H. injection H as <-.
    destruct (dget "class" p0) as [[]|] eqn:C; try discriminate. injection E0 as ->. destruct a1. destruct a2 as [r p].
    exists a, a0, r, p, a3. split; [exists p0; auto|]. auto.
  - intros (class & k & r & p & o & (p0 & D & C & K & V & R) & M & ->). rewrite D, C. cbn [bind]. rewrite K. cbn [bind]. rewrite V. cbn [bind]. rewrite R.
    cbn [bind fst snd]. rewrite M. reflexivity.
Qed.

Lemma sub_refl o : sub o o. Proof. intros s b H. exact H. Qed.
Lemma sub_trans o1 o2 o3 : sub o1 o2 -> sub o2 o3 -> sub o1 o3. Proof. intros H1 H2 s b H. auto. Qed.
Lemma sub_dset o k b : dget k o = None -> sub o (dset k b o).
Proof. intros N s c H. rewrite dget_dset. destruct (String.eqb_spec s k); auto. congruence. Qed.

Lemma fold_build proc order : forall st st', NoDup order -> (forall k, In k order -> dget k (b_objs st) = None /\ dget k (b_remote st) = None) ->
  fold_res (build_one E ps root proc) st order = Ok st' ->
  sub (b_objs st) (b_objs st') /\
  (forall k, ~ In k order -> dget k (b_objs st') = dget k (b_objs st) /\ dget k (b_remote st') = dget k (b_remote st)) /\
  forall key, In key order -> exists class k r p o objs, known key class k r p /\ sub objs (b_objs st') /\
    make E root key class k p objs (build_here proc (c_data k) r) = Ok o /\ dget key (b_objs st') = o /\
    dget key (b_remote st') = if build_here proc (c_data k) r then None else Some (target r).
Proof.
  induction order as [|x order IH]; intros st st' N F H; cbn [fold_res] in H.
  - injection H as <-. split; [apply sub_refl|]. split; [auto|]. intros key [].
  - inv_bind H. inversion N; subst. apply build_one_iff in E0 as (class & k & r & p & o & K & M & ->).
    set (st1 := mkB _ _) in H. 
    assert (G : forall y, y <> x -> dget y (b_objs st1) = dget y (b_objs st) /\ dget y (b_remote st1) = dget y (b_remote st)).
    { intros y Hy. unfold st1. cbn [b_objs b_remote]. split.
      - destruct o; auto. rewrite dget_dset. destruct (String.eqb_spec y x); [contradiction|auto].
      - destruct (build_here _ _ _); auto. rewrite dget_dset. destruct (String.eqb_spec y x); [contradiction|auto]. }
    destruct (IH st1 st' H3) as (I1 & I2 & I3); auto.
    { intros y Hy. destruct (G y) as [-> ->]; [intros ->; contradiction|]. apply F. now right. }
    destruct (F x (or_introl eq_refl)) as [Fx1 Fx2].
    assert (S1 : sub (b_objs st) (b_objs st1)) by (unfold st1; cbn; destruct o; [now apply sub_dset|apply sub_refl]).
    split; [exact (sub_trans _ _ _ S1 I1)|]. split.
    + intros y Hy. destruct (I2 y) as [-> ->]; [intros Q; apply Hy; now right|]. apply G. intros ->. apply Hy. now left.
    + intros key [<-|Hk]; [|exact (I3 key Hk)].
      exists class, k, r, p, o, (b_objs st). split; auto. split; [exact (sub_trans _ _ _ S1 I1)|]. split; auto.
      destruct (I2 x H2) as [-> ->]. unfold st1. cbn [b_objs b_remote]. split.
      * destruct o; [rewrite dget_dset, String.eqb_refl; reflexivity|exact Fx1].
      * destruct (build_here _ _ _); [exact Fx2|]. rewrite dget_dset, String.eqb_refl. reflexivity.
Qed.

(* one process and many *)
Definition fresh (st : bst) (order : list string) : Prop := NoDup order /\ forall k, In k order -> dget k (b_objs st) = None.
Lemma fresh_next st st' x order proc : fresh st (x :: order) -> build_one E ps root proc st x = Ok st' -> fresh st' order.
Proof.
  intros [N F] H. inversion N; subst. split; auto. intros y Hy. apply build_one_iff in H as (class & k & r & p & o & K & M & ->). cbn [b_objs].
  destruct o; [rewrite dget_dset; destruct (String.eqb_spec y x); [subst; contradiction|]|]; apply F; now right.
Qed.

Lemma step_sub proc x st0 st st0' st' : dget x (b_objs st0) = None -> sub (b_objs st) (b_objs st0) ->
  build_one E ps root None st0 x = Ok st0' -> build_one E ps root proc st x = Ok st' -> sub (b_objs st') (b_objs st0').
Proof.
  intros Fx S E0 E1.
  apply build_one_iff in E0 as (class & k & r & p & o & K & M & ->). apply build_one_iff in E1 as (class' & k' & r' & p' & o' & K' & M' & ->).
  destruct (known_fun _ _ _ _ _ _ _ _ _ K K') as (<- & <- & <- & <-). cbn [b_objs build_here] in *.
  destruct o' as [b'|].
  - assert (Hh : build_here proc (c_data k) r = true) by (apply (make_some _ _ _ _ _ _ _ _ M'); eauto). rewrite Hh in M'.
    pose proof (make_mono _ _ _ _ _ _ _ _ _ S M') as M2. rewrite M in M2. injection M2 as ->.
    intros s b. rewrite !dget_dset. destruct (String.eqb s x); auto.
  - destruct o as [b|]; [|exact S]. eapply sub_trans; [exact S|]. now apply sub_dset.
Qed.

Lemma fold_sub proc order : forall st0 st st0' st', fresh st0 order -> sub (b_objs st) (b_objs st0) ->
  fold_res (build_one E ps root None) st0 order = Ok st0' -> fold_res (build_one E ps root proc) st order = Ok st' ->
  sub (b_objs st') (b_objs st0').
Proof.
  induction order as [|x order IH]; intros st0 st st0' st' F S H0 H; cbn [fold_res] in *; [injection H0 as <-; injection H as <-; exact S|].
  inv_bind H0. inv_bind H. eapply IH; [|  |exact H0|exact H].
  - exact (fresh_next _ _ _ _ _ F E0).
  - eapply step_sub; eauto. apply F. now left.
Qed.

(* every process succeeds: so does one alone *)
Lemma fold_all (procs : list Z) order : 
  (forall key class k r p, In key order -> known key class k r p -> exists q, In q procs /\ build_here (Some q) (c_data k) r = true) ->
  forall st0 (sts : Z -> bst), fresh st0 order -> procs <> [] -> (forall q, In q procs -> sub (b_objs (sts q)) (b_objs st0)) ->
  (forall q, In q procs -> exists st', fold_res (build_one E ps root (Some q)) (sts q) order = Ok st') ->
  exists st', fold_res (build_one E ps root None) st0 order = Ok st'.
Proof.
  induction order as [|x order IH]; intros Hl st0 sts F Np S H; [cbn; eauto|].
  assert (H1 : forall q, In q procs -> exists st1, build_one E ps root (Some q) (sts q) x = Ok st1 /\ exists st', fold_res (build_one E ps root (Some q)) st1 order = Ok st').
  { intros q Hq. destruct (H q Hq) as [st' Q]. cbn [fold_res] in Q. inv_bind Q. eauto. }
  (* the object exists *)
  destruct procs as [|q0 procs']; [contradiction|]. set (procs := q0 :: procs') in *.
  destruct (H1 q0 (or_introl eq_refl)) as (s1 & B1 & _). apply build_one_iff in B1 as (class & k & r & p & o & K & M & _).
  destruct (Hl x class k r p (or_introl eq_refl) K) as (q & Hq & Hh).
  destruct (H1 q Hq) as (s2 & B2 & _). apply build_one_iff in B2 as (class2 & k2 & r2 & p2 & o2 & K2 & M2 & _).
  destruct (known_fun _ _ _ _ _ _ _ _ _ K K2) as (<- & <- & <- & <-). rewrite Hh in M2.
  pose proof (make_mono _ _ _ _ _ _ _ _ _ (S q Hq) M2) as M3.
  assert (B0 : exists st1, build_one E ps root None st0 x = Ok st1).
  { eexists. apply build_one_iff. exists class, k, r, p, o2. split; [exact K|]. split; [exact M3|reflexivity]. }
  destruct B0 as [st1 B0]. cbn [fold_res]. rewrite B0. cbn [bind].
  apply (IH (fun key c k' r' p' Hi => Hl key c k' r' p' (or_intror Hi)) st1
          (fun q => match build_one E ps root (Some q) (sts q) x with Ok s => s | Err _ => sts q end)).
  - exact (fresh_next _ _ _ _ _ F B0).
  - discriminate.
  - intros q' Hq'. destruct (H1 q' Hq') as (s3 & B3 & _). rewrite B3. eapply step_sub; [|exact (S q' Hq')|exact B0|exact B3]. apply F. now left.
  - intros q' Hq'. destruct (H1 q' Hq') as (s3 & B3 & R). rewrite B3. exact R.
Qed.

(* one alone succeeds: so does a process, when it has what its objects refer to *)

Definition sub_on (P : string -> Prop) (o o' : dict built) : Prop := forall s b, P s -> dget s o = Some b -> dget s o' = Some b.
Lemma lookup_on (P : string -> Prop) o o' x r : sub_on P o o' -> (forall s, x = YStr s -> P s) -> lookup o x = Ok r -> lookup o' x = Ok r.
Proof.
  intros S H. destruct x; cbn; auto. destruct (dget s o) eqn:D; [|discriminate]. rewrite (S _ _ (H s eq_refl) D). auto.
Qed.
Lemma map_lookup_on (P : string -> Prop) o o' l r : sub_on P o o' -> (forall s, In (YStr s) l -> P s) -> map_res (lookup o) l = Ok r -> map_res (lookup o') l = Ok r.
Proof.
  intros S. revert r. induction l as [|x l IH]; intros r Hp H; [exact H|]. cbn [map_res] in *. inv_bind H. inv_bind H.
  rewrite (lookup_on P _ _ _ _ S (fun s Hs => Hp s (or_introl Hs)) E0). cbn [bind]. rewrite (IH _ (fun s Hs => Hp s (or_intror Hs)) E1). exact H.
Qed.
Lemma one_arg_on (P : string -> Prop) k o o' name v r : sub_on P o o' -> (ends_with "_ref" name = true -> forall s, mentions v s -> P s) ->
  one_arg E root k o true name v = Ok r -> one_arg E root k o' true name v = Ok r.
Proof.
  intros S Hp. unfold one_arg. destruct (_ && _); auto. set (p := par_name _ _). destruct (negb (mem p (c_args k))); auto.
  assert (L : forall f, ends_with (f ++ "_ref") name = true -> ends_with "_ref" name = true).
  { intros f H. apply ends_with_iff in H as [b ->]. apply ends_with_iff. exists (b ++ f)%string. now rewrite app_assoc_s. }
  destruct (ends_with "_list_ref" name) eqn:X1; cbn [andb].
  { specialize (Hp (L "_list" X1)). destruct (negb (String.eqb p name)); [|rewrite (L "_list" X1), !andb_false_r; auto].
    destruct v; auto. intros H. inv_bind H. rewrite (map_lookup_on P _ _ _ a S); auto.
    intros s Hs. apply Hp. right. exists l. split; [constructor|auto]. }
  destruct (ends_with "_dict_ref" name) eqn:X2; cbn [andb].
  { specialize (Hp (L "_dict" X2)). destruct (negb (String.eqb p name)); [|rewrite (L "_dict" X2), !andb_false_r; auto].
    intros H. inv_bind H. rewrite E0. cbn [bind]. inv_bind H. rewrite (map_lookup_on P _ _ _ a0 S); auto.
    intros s Hs. apply Hp. right. exists a. split; [now apply iter_iterates|auto]. }
  destruct (_ && _ && _); auto. destruct (_ && _ && _); auto.
  destruct (ends_with "_ref" name && _) eqn:X3; auto. apply andb_true_iff in X3 as [X3 _]. specialize (Hp X3).
  intros H. inv_bind H. rewrite (lookup_on P _ _ _ a S); auto. intros s ->. apply Hp. now left.
Qed.
Lemma make_on (P : string -> Prop) key class k p o o' r : sub_on P o o' -> (forall s, points p s -> P s) ->
  make E root key class k p o true = Ok r -> make E root key class k p o' true = Ok r.
Proof.
  intros S Hp. unfold make. destruct (dget "tag" p); auto. intros H. inv_bind H.
  assert (F : forall q acc c, (forall nv, In nv q -> In nv p) -> fold_res (add_arg E root k o true) acc q = Ok c -> fold_res (add_arg E root k o' true) acc q = Ok c).
  { clear H E0. induction q as [|[n v] q IH]; intros acc c Hq H; [exact H|]. cbn [fold_res] in *. inv_bind H. unfold add_arg in E0. inv_bind E0. injection E0 as <-.
    unfold add_arg at 1. cbn [fst snd] in *. rewrite (one_arg_on P _ _ _ _ _ a1 S); [|intros Hn s Hs|exact E1].
    - cbn [bind]. apply IH; auto. intros nv Hn. apply Hq. now right.
    - apply Hp. apply ends_with_iff in Hn as [b ->]. exists b, v. split; auto. apply Hq. now left. }
  rewrite (F p [] a (fun nv H => H) E0). exact H.
Qed.

Lemma fold_restrict q order : 
  (forall key class k r p, In key order -> known key class k r p -> build_here (Some q) (c_data k) r = false -> dget "tag" p = None) ->
  (forall key class k r p s, In key order -> known key class k r p -> build_here (Some q) (c_data k) r = true -> points p s ->
     forall c' k' r' p', known s c' k' r' p' -> build_here (Some q) (c_data k') r' = true) ->
  forall st0 st st0', fresh st0 order -> 
  (forall s b, dget s (b_objs st0) = Some b -> exists c k r p, known s c k r p /\ (build_here (Some q) (c_data k) r = true -> dget s (b_objs st) = Some b)) ->
  fold_res (build_one E ps root None) st0 order = Ok st0' -> exists st', fold_res (build_one E ps root (Some q)) st order = Ok st'.
Proof.
  induction order as [|x order IH]; intros Ht Hr st0 st st0' F I H; [cbn; eauto|]. cbn [fold_res] in H. inv_bind H.
  pose proof (fresh_next _ _ _ _ _ F E0) as F1.
  pose proof E0 as B0. apply build_one_iff in B0 as (class & k & r & p & o & K & M & Ea). cbn [build_here] in M.
  assert (B : exists st1, build_one E ps root (Some q) st x = Ok st1 /\ (build_here (Some q) (c_data k) r = true -> dget x (b_objs st1) = o)
              /\ forall s, s <> x -> dget s (b_objs st1) = dget s (b_objs st)).
  { destruct (build_here (Some q) (c_data k) r) eqn:Hh.
    - assert (M2 : make E root x class k p (b_objs st) true = Ok o).
      { apply (make_on (points p) x class k p (b_objs st0)); auto.
        intros s b Hs D. destruct (I s b D) as (c' & k' & r' & p' & K' & J). apply J. exact (Hr x class k r p s (or_introl eq_refl) K Hh Hs c' k' r' p' K'). }
      eexists. split; [apply build_one_iff; exists class, k, r, p, o; split; [exact K|]; rewrite Hh; split; [exact M2|reflexivity]|].
      cbn [b_objs]. destruct (proj2 (make_some _ _ _ _ _ _ _ _ M2) eq_refl) as [b ->]. split.
      + intros _. rewrite dget_dset, String.eqb_refl. reflexivity.
      + intros s Hs. rewrite dget_dset. destruct (String.eqb_spec s x); [contradiction|auto].
    - assert (T : dget "tag" p = None) by exact (Ht x class k r p (or_introl eq_refl) K Hh).
      eexists. split; [apply build_one_iff; exists class, k, r, p, None; split; [exact K|]; rewrite Hh; split; [eapply make_away; eauto|reflexivity]|].
      cbn [b_objs]. split; [discriminate|auto]. }
  destruct B as (st1 & B1 & B2 & B3). cbn [fold_res]. rewrite B1. cbn [bind].
  eapply (IH (fun key c k' r' p' Hi => Ht key c k' r' p' (or_intror Hi)) (fun key c k' r' p' s Hi => Hr key c k' r' p' s (or_intror Hi)) a st1 st0' F1); [|exact H].
  intros s b D. subst a. cbn [b_objs] in D. destruct (proj2 (make_some _ _ _ _ _ _ _ _ M) eq_refl) as [b0 Eo]. subst o. rewrite dget_dset in D.
  destruct (String.eqb_spec s x) as [->|Hs].
  - injection D as <-. exists class, k, r, p. split; auto.
  - destruct (I s b D) as (c' & k' & r' & p' & K' & J). exists c', k', r', p'. split; auto. intros Hb. rewrite B3 by auto. auto.
Qed.
End Run.
End Build.
