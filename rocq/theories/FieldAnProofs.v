From Coq Require Import String List Bool Arith ZArith Lia Ascii Decimal DecimalString DecimalNat.
From Verif Require Import PyBase PyLemmas NamesModel NamesSpec NamesProofs TrigOrderModel TrigOrderSpec ParamsModel ParamsSpec ParamsProofs ParamsProofs2 ParamsProofs3 ParamsProofs4 CalFileModel CalFileProofs FieldAnModel.
Import ListNotations.
Local Open Scope string_scope.

(* ---------------------------------------------------------------- texts *)
Lemma str_nat_inj : forall a b, str_nat a = str_nat b -> a = b.
Proof.
  intros a b H. unfold str_nat in H.
  assert (E : Some (Nat.to_uint a) = Some (Nat.to_uint b)) by (rewrite <- !NilEmpty.usu; now f_equal).
  injection E as E. rewrite <- (Unsigned.of_to a), <- (Unsigned.of_to b). now rewrite E.
Qed.
Lemma uint_free : forall c u, is_digit c = false -> has_char c (NilEmpty.string_of_uint u) = false.
Proof.
  intros c u H. induction u; cbn [NilEmpty.string_of_uint has_char]; try reflexivity; rewrite IHu, orb_false_r;
    (match goal with |- Ascii.eqb c ?d = false => destruct (Ascii.eqb_spec c d) as [->|]; [cbv in H; discriminate|reflexivity] end).
Qed.
Lemma str_nat_free : forall c i, is_digit c = false -> has_char c (str_nat i) = false.
Proof. intros. now apply uint_free. Qed.
Lemma app_cancel : forall a b c, a ++ b = a ++ c -> b = c.
Proof. induction a as [|x a IH]; intros b c H; [exact H|]. injection H. apply IH. Qed.
(* a text up to a character it does not contain *)
Lemma cut_at : forall c a a' b b', has_char c a = false -> has_char c a' = false -> a ++ String c b = a' ++ String c b' -> a = a' /\ b = b'.
Proof.
  induction a as [|x a IH]; intros [|x' a'] b b' H H' E; cbn in *.
  - injection E as E. now split.
  - injection E as -> _. now rewrite Ascii.eqb_refl in H'.
  - injection E as -> _. now rewrite Ascii.eqb_refl in H.
  - apply orb_false_iff in H as [_ H], H' as [_ H']. injection E as -> E. destruct (IH a' b b' H H' E). subst. now split.
Qed.
(* number of parts *)
Lemma split_char_len : forall c a b, (length (split_char c (a ++ String c b)) = length (split_char c a) + length (split_char c b))%nat.
Proof.
  induction a as [|x a IH]; intros b.
  - cbn. now rewrite Ascii.eqb_refl.
  - cbn [append split_char]. destruct (Ascii.eqb c x).
    + cbn [length]. now rewrite IH.
    + specialize (IH b). destruct (split_char c (a ++ String c b)) as [|w ws] eqn:E1; destruct (split_char c a) as [|v vs] eqn:E2; cbn [length] in *; try lia.
      * destruct a; cbn in E2; [discriminate|]. destruct (Ascii.eqb c a); [discriminate|]. destruct (split_char c a0); discriminate.
Qed.
Lemma split_char_pos : forall c s, (1 <= length (split_char c s))%nat.
Proof. intros c [|x s]; cbn; [lia|]. destruct (Ascii.eqb c x); cbn; [lia|]. destruct (split_char c s); cbn; lia. Qed.
Lemma has_char_split : forall c s, has_char c s = true -> exists a b, s = a ++ String c b.
Proof.
  intros c s. induction s as [|x s IH]; intros H; [discriminate|]. cbn in H. destruct (Ascii.eqb_spec c x) as [->|N].
  - now exists "", s.
  - destruct (IH H) as [a [b ->]]. now exists (String x a), b.
Qed.
Lemma entry_ok : forall file obj out, has_char ":" file = false -> has_char "-" file = false -> (forall c, In c [":"; "-"; "."]%char -> has_char c obj = false /\ has_char c out = false) ->
  split_output (entry file obj out) = Ok (mkOutput obj (Some out) 0 (Some file)).
Proof.
  intros file obj out H1 H2 H3. apply (split_output_roundtrip0 (Some file) obj (Some out)).
  pose proof (H3 ":"%char (or_introl eq_refl)) as [A1 A2]. pose proof (H3 "-"%char (or_intror (or_introl eq_refl))) as [B1 B2].
  pose proof (H3 "."%char (or_intror (or_intror (or_introl eq_refl)))) as [C1 C2].
  unfold ref_parts_ok, opt_free. rewrite <- !has_char_free. repeat split; assumption.
Qed.
Lemma entry_bad : forall file obj out, has_char ":" (entry file obj out) = false -> has_char "-" file = true -> split_output (entry file obj out) = Err ValueError.
Proof.
  intros file obj out H1 H2. unfold split_output. rewrite H1. cbn [bind fst snd].
  assert (H : has_char "-" (entry file obj out) = true) by (unfold entry; rewrite has_char_app, H2; reflexivity).
  rewrite H. unfold split2.
  assert (L : (3 <= length (split_char "-" (entry file obj out)))%nat).
  { unfold entry. change ("-" ++ obj ++ "." ++ out) with (String "-" (obj ++ "." ++ out)). rewrite split_char_len.
    destruct (has_char_split _ _ H2) as [a [b ->]]. rewrite split_char_len.
    pose proof (split_char_pos "-" a). pose proof (split_char_pos "-" b). pose proof (split_char_pos "-" (obj ++ "." ++ out)). lia. }
  destruct (split_char "-" (entry file obj out)) as [|x [|y [|z r]]]; cbn in L; try lia. reflexivity.
Qed.

(* ---------------------------------------------------------------- dictionaries *)
Lemma fold_dset_get : forall (A B : Type) (key : A -> string) (val : A -> B) l d k,
  NoDup (map key l) ->
  (forall a, In a l -> key a = k -> dget k (fold_left (fun d a => dset (key a) (val a) d) l d) = Some (val a)) /\
  ((forall a, In a l -> key a <> k) -> dget k (fold_left (fun d a => dset (key a) (val a) d) l d) = dget k d).
Proof.
  intros A B key val l. induction l as [|x l IH]; intros d k N; cbn [fold_left map] in *.
  - split; [intros a []|reflexivity].
  - inversion N as [|? ? N1 N2]; subst. destruct (IH (dset (key x) (val x) d) k N2) as [I1 I2]. split.
    + intros a [->|Ha] E; [|now apply I1]. rewrite I2; [rewrite <- E; apply ConnProofs.dget_dset_eq|].
      intros a' Ha' E'. apply N1. rewrite <- E in E'. rewrite <- E'. now apply in_map.
    + intros H. rewrite I2 by (intros a Ha; apply H; now right). apply ConnProofs.dget_dset_neq. apply H. now left.
Qed.
Lemma NoDup_inj : forall (A : Type) (f : nat -> A) l, (forall a b, f a = f b -> a = b) -> NoDup l -> NoDup (map f l).
Proof.
  intros A f l I N. induction N as [|x l Nx N IH]; [constructor|]. cbn. constructor; [|exact IH].
  intros H. apply in_map_iff in H. destruct H as [y [E Hy]]. apply I in E. now subst.
Qed.

(* ---------------------------------------------------------------- the propagation object *)
Lemma set_input_dkeys : forall ps key i v, dkeys (set_input ps key i v) = dkeys ps.
Proof. intros. apply set_input_keys. Qed.
Lemma dset_dkeys : forall (A : Type) k (v : A) d, exists l, dkeys (dset k v d) = (dkeys d ++ l)%list.
Proof.
  intros A k v d. induction d as [|[k' v'] d IH]; cbn.
  - now exists [k].
  - destruct (String.eqb_spec k k') as [->|]; [exists []; cbn; now rewrite app_nil_r|]. destruct IH as [l E]. exists l. unfold dkeys in *. cbn. now rewrite E.
Qed.
Definition extends (st st' : tstate2) : Prop := (exists l, dkeys (snd st') = (dkeys (snd st) ++ l)%list) /\ (NoDup (dkeys (snd st)) -> NoDup (dkeys (snd st'))).
Lemma extends_refl : forall st, extends st st.
Proof. intros st. split; [exists []; now rewrite app_nil_r|auto]. Qed.
Lemma extends_trans : forall a b c, extends a b -> extends b c -> extends a c.
Proof. intros a b c [[l1 E1] N1] [[l2 E2] N2]. split; [exists (l1 ++ l2)%list; now rewrite E2, E1, app_assoc|auto]. Qed.
Definition grows (f : nat) (m : dict (option string)) : Prop := forall st key st', add_key f m st key = Ok st' -> extends st st'.
Lemma items_grow : forall f m key, grows f m -> forall items st st', fold_res (item_step m f key) st items = Ok st' -> extends st st'.
Proof.
  intros f m key G. induction items as [|kx items IH]; intros st st' H; cbn [fold_res] in H.
  - injection H as <-. apply extends_refl.
  - inv_bind H. apply (extends_trans _ a); [|now apply IH]. unfold item_step in E. inv_bind E. cbv zeta in E.
    destruct (dget _ m) as [n|]; [|eapply G; exact E]. inv_bind E. injection E as <-. unfold extends. cbn [snd]. rewrite set_input_dkeys.
    split; [exists []; now rewrite app_nil_r|auto].
Qed.
Lemma refs_grow : forall f m, grows f m -> forall names st st', fold_res (ref_step m f) st names = Ok st' -> extends st st'.
Proof.
  intros f m G. induction names as [|x names IH]; intros st st' H; cbn [fold_res] in H.
  - injection H as <-. apply extends_refl.
  - inv_bind H. apply (extends_trans _ a); [|now apply IH]. unfold ref_step in E. destruct x; try discriminate. exact (G _ _ _ E).
Qed.
Lemma add_key_first : forall f m st key st', grows f m -> add_key (S f) m st key = Ok st' -> dmem key (snd st) = false ->
  (exists l, dkeys (snd st') = (dkeys (snd st) ++ key :: l)%list) /\ (NoDup (dkeys (snd st)) -> NoDup (dkeys (snd st'))).
Proof.
  intros f m st key st' G H M. rewrite add_key_eq, M in H. destruct (dget key (fst st)) as [p|]; [|discriminate].
  inv_bind H. inv_bind H. inv_bind H.
  destruct (extends_trans _ _ _ (items_grow f m key G _ _ _ E0) (refs_grow f m G _ _ _ H)) as [[l L] N]. cbn [snd] in L, N.
  assert (D : dkeys (dset key p (snd st)) = (dkeys (snd st) ++ [key])%list).
  { rewrite dset_new; [unfold dkeys; now rewrite map_app|]. intros C. apply dget_declared in C. destruct C as [v C]. unfold dmem in M. now rewrite C in M. }
  split; [exists l; now rewrite L, D, <- app_assoc|]. intros ND. apply N. apply NoDup_dset. exact ND.
Qed.
Lemma add_key_grows : forall f m, grows f m.
Proof.
  induction f as [|f IH]; intros m st key st' H; [discriminate|].
  destruct (dmem key (snd st)) eqn:M.
  - rewrite add_key_eq, M in H. injection H as <-. apply extends_refl.
  - destruct (add_key_first f m st key st' (IH m) H M) as [[l E] N]. split; [now exists (key :: l)|exact N].
Qed.
Lemma first_of_key : forall c (rp : params) a k l p, NoDup (dkeys rp) -> dkeys rp = (a ++ k :: l)%list ->
  (forall k' p', In k' a -> dget k' rp = Some p' -> has_class c p' = false) -> dget k rp = Some p -> has_class c p = true -> first_of c rp = Some k.
Proof.
  induction rp as [|[k0 p0] rp IH]; intros a k l p N E HA HK HC; cbn in *; [discriminate|].
  inversion N as [|? ? N1 N2]; subst. destruct a as [|a0 a]; cbn in E; injection E as -> E.
  - rewrite String.eqb_refl in HK. injection HK as ->. now rewrite HC.
  - rewrite (HA a0 p0 (or_introl eq_refl)) by now rewrite String.eqb_refl.
    assert (NE : forall x, In x (map fst rp) -> x <> a0) by (intros x Hx ->; contradiction).
    assert (K : k <> a0) by (apply NE; rewrite E; apply in_or_app; right; now left).
    destruct (String.eqb_spec k a0); [contradiction|].
    eapply IH; try eassumption.
    intros k' p' I D. apply (HA k' p' (or_intror I)).
    destruct (String.eqb_spec k' a0) as [->|]; [|exact D]. elim (NE a0); [|reflexivity]. rewrite E. apply in_or_app. now left.
Qed.
Lemma dkeys_mem : forall (A : Type) k (d : dict A), dmem k d = true <-> In k (dkeys d).
Proof. intros. unfold dmem. rewrite (dget_declared k d). destruct (dget k d); split; intros H; try discriminate; eauto. destruct H; discriminate. Qed.

(* the data source of a replay is not a propagation *)
Lemma source_class : forall dir l st st', fold_res (source_step dir) st l = Ok st' ->
  (forall p, dget "data_source" (fst st) = Some p -> has_class "AtmoPropagation" p = false) ->
  (NoDup (dkeys (fst st)) -> NoDup (dkeys (fst st'))) /\ (exists x, dkeys (fst st') = (dkeys (fst st) ++ x)%list /\ incl x ["data_source"]) /\ forall p, dget "data_source" (fst st') = Some p -> has_class "AtmoPropagation" p = false.
Proof.
  intros dir l. induction l as [|kp l IH]; intros st st' H C; cbn [fold_res] in H.
  - injection H as <-. split; [auto|]. split; [exists []; split; [now rewrite app_nil_r|intros x []]|exact C].
  - inv_bind H. unfold source_step in E. inv_bind E. destruct a0.
    + inv_bind E. destruct a0 as [[src objs] m]. injection E as <-.
      assert (CS : has_class "AtmoPropagation" src = false).
      { unfold data_store_to_data_source in E1. inv_bind E1. inv_bind E1. repeat match goal with x : (_ * _)%type |- _ => destruct x end. injection E1 as <- _ _. reflexivity. }
      destruct (IH _ _ H) as [ND [[x [X1 X2]] Y]].
      { cbn [fst]. intros p Hp. rewrite ConnProofs.dget_dset_eq in Hp. injection Hp as <-. exact CS. }
      split; [intros N; apply ND; now apply NoDup_dset|]. split; [|exact Y]. cbn [fst] in X1.
      assert (Z : exists z, dkeys (dset "data_source" src (fst st)) = (dkeys (fst st) ++ z)%list /\ incl z ["data_source"]).
      { clear. induction (fst st) as [|[k v] d IHd]; [exists ["data_source"]; split; [reflexivity|apply incl_refl]|]. cbn [dset].
        destruct (String.eqb_spec "data_source" k) as [<-|]; [exists []; split; [cbn; now rewrite app_nil_r|intros x []]|].
        destruct IHd as [z [Z1 Z2]]. exists z. split; [unfold dkeys in *; cbn; now rewrite Z1|exact Z2]. }
      destruct Z as [z [Z1 Z2]]. exists (z ++ x)%list. split; [now rewrite X1, Z1, app_assoc|]. intros y Hy. apply in_app_or in Hy. destruct Hy; auto.
    + injection E as <-. now apply IH.
Qed.

Lemma prop_first : forall ps dir rp ps', wf_params ps -> ~ declared ps "data_source" -> param ps "prop" "class" = Some (YStr "AtmoPropagation") ->
  build_targeted_replay ps ["prop"] dir = Ok (rp, ps') ->
  first_of "AtmoPropagation" rp = Some "prop" /\ exists p, dget "prop" rp = Some p /\ has_class "AtmoPropagation" p = true.
Proof.
  intros ps dir rp ps' W Nd C H.
  assert (CP : exists p, dget "prop" rp = Some p /\ has_class "AtmoPropagation" p = true).
  { destruct (targeted_spec ps ["prop"] dir rp ps' W Nd H) as (main & _ & _ & T & _ & Q & _).
    pose proof (T "prop" (or_introl eq_refl)) as D. destruct (Q "prop" D ltac:(discriminate)) as (_ & P & _).
    apply dget_declared in D. destruct D as [p D]. exists p. split; [exact D|].
    specialize (P "class" ltac:(discriminate)). unfold param at 1 in P. rewrite D in P. unfold has_class. rewrite P, C. reflexivity. }
  split; [|exact CP]. destruct CP as [p [D CL]].
  pose proof W as W'. apply wf_params_iff in W' as [W1 W2].
  unfold build_targeted_replay in H. inv_bind H. destruct a as [main mp].
  inv_bind H. fold (source_step dir) in E0. destruct a as [rp0 m]. inv_bind H. destruct a as [ps1 rp1]. injection H as <- <-. cbn [fst snd] in *.
  destruct (find_main_in _ _ _ E) as [Fm Cm].
  assert (Gm : dget main ps = Some mp) by (now apply PyLemmas.In_dget).
  assert (Nm : main <> "data_source") by (intros ->; apply Nd; now apply (in_map fst) in Fm).
  assert (Np : main <> "prop").
  { intros ->. unfold param in C. rewrite Gm in C. unfold class_of in Cm. rewrite Cm in C. discriminate. }
  destruct (source_fold dir ps W2 _ _ E0) as (S1 & _). cbn [fst snd] in *.
  destruct (source_class dir ps _ _ E0) as [ND0 [[x [X1 X2]] Y]].
  { cbn [fst]. intros q Hq. cbn [dget] in Hq. destruct (String.eqb_spec "data_source" main); [congruence|discriminate]. }
  cbn [fst dkeys map app] in X1.
  assert (M0 : dget main rp0 = Some mp) by (rewrite S1 by exact Nm; cbn; now rewrite String.eqb_refl).
  assert (I : inv ps m [main; "data_source"] [] (ps, rp0)).
  { split; cbn [fst snd]; [reflexivity|reflexivity|]. intros k Hk. right. left. unfold declared in Hk. rewrite X1 in Hk.
    destruct Hk as [->|Hk]; [now left|]. apply X2 in Hk. right. exact Hk. }
  pose proof E1 as E1'. cbn [fold_res] in E1. inv_bind E1. destruct a as [pa ra]. injection E1 as -> ->.
  assert (NM : dmem "prop" rp0 = false).
  { unfold dmem. rewrite S1 by discriminate. cbn [dget]. destruct (String.eqb_spec "prop" main); [congruence|reflexivity]. }
  destruct (add_key_first (length ps) m (ps, rp0) "prop" (ps1, rp1) (add_key_grows _ m) E2 NM) as [[l L] ND1]. cbn [snd] in L, ND1.
  destruct (targets_inv ps m [main; "data_source"] _ _ _ _ I E1') as (J1 & J2 & J3).
  eapply (first_of_key "AtmoPropagation" rp1 (dkeys rp0) "prop" l p); try eassumption.
  - apply ND1, ND0. cbn. repeat constructor. intros [].
  - intros k' p' Hk Hp.
    assert (Dk : declared rp0 k') by exact Hk.
    destruct (J2 k' Dk) as (_ & G & _). cbn [snd] in G. rewrite G in Hp.
    unfold dkeys in Hk. rewrite X1 in Hk. destruct Hk as [<-|Hk].
    + rewrite M0 in Hp. injection Hp as <-. unfold has_class. unfold class_of in Cm. now rewrite Cm.
    + apply X2 in Hk. destruct Hk as [<-|[]]. now apply Y.
Qed.
