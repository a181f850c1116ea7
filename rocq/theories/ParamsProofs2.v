From Coq Require Import String List Ascii ZArith Bool Arith Lia.
From Verif Require Import PyBase PyLemmas NamesModel NamesSpec NamesProofs TrigOrderModel TrigOrderSpec
  TrigOrderProofs ConnProofs ParamsModel ParamsSpec ParamsProofs.
Import ListNotations.
Local Open Scope string_scope.
Local Open Scope list_scope.

(* -------------------------------------------------------------- simulation indices *)
Lemma last_underscore_some s x y : last_underscore s = Some (x, y) -> s = (x ++ "_" ++ y)%string.
Proof.
  revert x y. induction s as [|a s IH]; [discriminate|]. cbn [last_underscore]. intros x y.
  destruct (last_underscore s) as [[x' y']|].
  - intros H. injection H as <- <-. cbn. f_equal. now apply IH.
  - destruct (Ascii.eqb_spec a "_") as [->|]; [|discriminate]. intros H. injection H as <- <-. reflexivity.
Qed.
Lemma last_underscore_free t : has_char "_" t = false -> last_underscore t = None.
Proof.
  induction t as [|a t IH]; [reflexivity|]. cbn [has_char last_underscore]. intros H.
  apply orb_false_iff in H as [H1 H2]. rewrite (IH H2), Ascii.eqb_sym. now rewrite H1.
Qed.
Lemma last_underscore_app b t : has_char "_" t = false -> last_underscore (b ++ "_" ++ t)%string = Some (b, t).
Proof.
  intros H. induction b as [|a b IH]; cbn [append last_underscore].
  - now rewrite last_underscore_free.
  - cbn [append] in IH. now rewrite IH.
Qed.
Lemma all_digits_iff t : all_digits t = true <-> forall i a, String.get i t = Some a -> is_digit a = true.
Proof.
  induction t as [|a t IH]; cbn.
  - split; [|reflexivity]. intros _ i a. destruct i; discriminate.
  - rewrite andb_true_iff, IH. split.
    + intros [H1 H2] i c Hi. destruct i as [|i]; cbn in Hi; [congruence|]. now apply (H2 i).
    + intros H. split; [now apply (H 0)|]. intros i c Hi. now apply (H (S i)).
Qed.
Lemma digits_no_underscore t : all_digits t = true -> has_char "_" t = false.
Proof.
  induction t as [|a t IH]; [reflexivity|]. cbn [all_digits has_char]. rewrite andb_true_iff. intros [H1 H2]. rewrite (IH H2), orb_false_r.
  destruct (Ascii.eqb_spec "_" a) as [<-|]; [discriminate|reflexivity].
Qed.
Lemma numbered_some name b n : numbered name = Some (b, n) -> exists t, name = (b ++ "_" ++ t)%string /\ digits_of t n.
Proof.
  unfold numbered. destruct (last_underscore name) as [[x y]|] eqn:E; [|discriminate].
  destruct (String.eqb_spec y "") as [->|Ny]; [discriminate|]. cbn [negb andb].
  destruct (all_digits y) eqn:D; [|discriminate]. destruct (int_digits y false 0) as [m|] eqn:I; [|discriminate].
  intros H. injection H as <- <-. exists y. split; [now apply last_underscore_some|].
  split; [exact Ny|]. split; [|exact I]. now apply all_digits_iff.
Qed.
Lemma numbered_digits b t n : digits_of t n -> numbered (b ++ "_" ++ t)%string = Some (b, n).
Proof.
  intros (H1 & H2 & H3). apply all_digits_iff in H2. unfold numbered.
  rewrite last_underscore_app by (now apply digits_no_underscore).
  apply String.eqb_neq in H1. rewrite H1, H2, H3. reflexivity.
Qed.

Definition eff_name (idx : Z) (name : string) : option string :=
  match numbered name with
  | Some (x, n) => if negb (n =? idx)%Z then None else Some x
  | None => Some name
  end.
Lemma eff_name_ok idx name : effective idx name (eff_name idx name).
Proof.
  unfold eff_name. destruct (numbered name) as [[x n]|] eqn:E.
  - apply numbered_some in E as (t & -> & H). destruct (Z.eqb_spec n idx) as [->|N]; cbn [negb].
    + now constructor.
    + now apply (eff_other idx x t n).
  - constructor. intros b t n -> H. rewrite (numbered_digits b t n H) in E. discriminate.
Qed.
Lemma effective_fun idx name o : effective idx name o -> o = eff_name idx name.
Proof.
  unfold eff_name. intros [name' H|b t H|b t n H N].
  - destruct (numbered name') as [[x n]|] eqn:E; [|reflexivity]. apply numbered_some in E as (t & -> & Ht).
    now elim (H x t n eq_refl).
  - rewrite (numbered_digits b t idx H), Z.eqb_refl. reflexivity.
  - rewrite (numbered_digits b t n H). apply Z.eqb_neq in N. now rewrite N.
Qed.

(* ----------------------------------------------------------------------- removal *)
Lemma NoDup_dset {T} k (v : T) d : NoDup (map fst d) -> NoDup (map fst (dset k v d)).
Proof.
  intros H. destruct (in_dec string_dec k (map fst d)) as [Hin|Hin]; [now rewrite keys_dset|].
  assert (E : dset k v d = d ++ [(k, v)]).
  { clear H. induction d as [|[k' v'] d IH]; [reflexivity|]. cbn in *.
    destruct (String.eqb_spec k k') as [->|]; [tauto|]. rewrite IH by tauto. reflexivity. }
  rewrite E, map_app. cbn. apply NoDup_rev in H. rewrite <- (rev_involutive (_ ++ [k])). apply NoDup_rev.
  rewrite rev_app_distr. constructor; [|exact H]. now rewrite <- in_rev.
Qed.

Lemma remove_items_keys o items : forall items', remove_items o items = Ok items' ->
  incl (map fst items') (map fst items) /\ (NoDup (map fst items) -> NoDup (map fst items')).
Proof.
  induction items as [|[k v] r IH]; intros items' H; cbn [remove_items] in H.
  - injection H as <-. split; [easy|auto].
  - assert (X : exists r', remove_items o r = Ok r' /\ (items' = r' \/ exists v', items' = (k, v') :: r')).
    { destruct v; inv_bind H; try (injection H as <-; eauto); inv_bind H; injection H as <-.
      - exists a0. split; [assumption|]. destruct (a =? o)%string; eauto.
      - eauto. }
    destruct X as (r' & Er & Hx). destruct (IH _ Er) as [H1 H2].
    destruct Hx as [->|[v' ->]]; cbn [map fst].
    + split; [intros x Q; right; now apply H1|]. intros N. inversion_clear N. auto.
    + split; [intros x [<-|Q]; [now left|right; now apply H1]|].
      intros N. inversion_clear N as [|? ? N1 N2]. constructor; [|auto]. intros Q. apply N1. now apply H1.
Qed.

Lemma filter_res_filter {A} (p : A -> res bool) l : forall l', filter_res p l = Ok l' ->
  l' = filter (fun x => match p x with Ok b => b | Err _ => false end) l.
Proof.
  induction l as [|x l IH]; cbn; intros l' H; [now injection H as <-|].
  inv_bind H. inv_bind H. injection H as <-. rewrite E. rewrite (IH _ E0). now destruct a.
Qed.

Lemma remove_items_cut o items : NoDup (map fst items) -> forall items', remove_items o items = Ok items' ->
  forall i, cut o (dget i items) (dget i items').
Proof.
  induction items as [|[k v] r IH]; intros ND items' H i.
  { injection H as <-. constructor. }
  inversion_clear ND as [|? ? N1 N2]. cbn [remove_items] in H.
  assert (X : forall r', remove_items o r = Ok r' -> i = k -> dget i r' = None).
  { intros r' Er ->. apply dget_None. intros Q. apply N1. now apply (proj1 (remove_items_keys o r r' Er)). }
  cbn [dget].
  destruct v.
  5:{ inv_bind H. inv_bind H. injection H as <-. destruct (owner_refers _ _ E) as [d Hd].
      destruct (String.eqb_spec a o) as [->|Na].
      - destruct (String.eqb_spec i k) as [Ei|Ni]; [|now apply IH]. rewrite (X a0 E0 Ei). now apply (cut_gone o s d).
      - cbn [dget]. destruct (String.eqb_spec i k) as [Ei|Ni]; [|now apply IH]. now apply (cut_kept o s a d). }
  5:{ inv_bind H. inv_bind H. injection H as <-. cbn [dget].
      destruct (String.eqb_spec i k) as [Ei|Ni]; [|now apply IH]. apply cut_list.
      - intros x. rewrite (filter_res_ok _ _ _ E x). split.
        + intros [H1 H2]. split; [exact H1|]. intros (s & d & -> & Hr). rewrite (owner_v_refers s o d Hr) in H2.
          cbn in H2. rewrite String.eqb_refl in H2. discriminate.
        + intros [H1 H2]. split; [exact H1|].
          assert (Y : exists o', owner_v x = Ok o').
          { clear -E H1. revert a E. induction l as [|y l IHl]; [easy|]. cbn. intros l' E. inv_bind E. inv_bind E.
            destruct H1 as [<-|H1]; [|now apply (IHl H1 a0)]. inv_bind E0. eauto. }
          destruct Y as [o' Eo]. rewrite Eo. cbn. destruct (String.eqb_spec o' o) as [->|]; [|reflexivity].
          elim H2. apply owner_v_ok in Eo as (s & d & -> & Hr). now exists s, d.
      - eexists. apply (filter_res_filter _ _ _ E). }
  all: inv_bind H; injection H as <-; cbn [dget]; (destruct (String.eqb_spec i k) as [Ei|Ni]; [|now apply IH]);
       apply cut_other; discriminate.
Qed.

(* uniqueness of keys in one object *)
Definition wf_pars (p : pars) : Prop :=
  NoDup (map fst p) /\ forall ins, In ("inputs", YDict ins) p -> NoDup (map fst ins).
Lemma wf_params_iff ps : wf_params ps <-> NoDup (map fst ps) /\ forall c p, In (c, p) ps -> wf_pars p.
Proof.
  unfold wf_params, wf_pars. split.
  - intros (H1 & H2 & H3). split; [exact H1|]. intros c p H. split; [eauto|]. intros ins Hi. now apply (H3 c p).
  - intros [H1 H2]. split; [exact H1|]. split; [intros c p H; exact (proj1 (H2 c p H))|].
    intros c p ins H Hi. now apply (proj2 (H2 c p H)).
Qed.

Lemma remove_from_spec o p p' : wf_pars p -> remove_from o p = Ok p' ->
  wf_pars p' /\ map fst p' = map fst p /\ (forall name, name <> "inputs" -> dget name p' = dget name p) /\
  (dget "inputs" p = None -> dget "inputs" p' = None) /\
  (forall i, cut o (match dget "inputs" p with Some (YDict d) => dget i d | _ => None end)
                   (match dget "inputs" p' with Some (YDict d) => dget i d | _ => None end)).
Proof.
  intros [W1 W2] H. unfold remove_from, inputs_items in H. destruct (dget "inputs" p) as [v|] eqn:E.
  - destruct v; try discriminate. cbn [bind] in H. inv_bind H. injection H as <-.
    assert (Hin : In "inputs" (map fst p)) by (apply dget_In in E; now apply (in_map fst) in E).
    pose proof (W2 d (dget_In _ _ _ E)) as Wd.
    split; [|split; [|split; [|split]]].
    + split; [now apply NoDup_dset|]. intros ins Hi. apply In_dset in Hi; [|exact W1].
      destruct Hi as [[_ Hi]|[Hi _]]; [|congruence]. injection Hi as ->. now apply (remove_items_keys o d).
    + now apply keys_dset.
    + intros name Hn. apply dget_dset_neq. congruence.
    + discriminate.
    + intros i. rewrite dget_dset_eq. now apply remove_items_cut.
  - cbn [bind] in H. injection H as <-. rewrite E. split; [now split|]. repeat (split; [reflexivity || auto|]). constructor.
Qed.

Lemma remove_inputs_spec o ps : forall ps', wf_params ps -> remove_inputs o ps = Ok ps' ->
  wf_params ps' /\ map fst ps' = map fst ps /\
  forall k p, dget k ps = Some p -> exists p', dget k ps' = Some p' /\ remove_from o p = Ok p'.
Proof.
  induction ps as [|[k p] r IH]; intros ps' W H; cbn [remove_inputs] in H.
  - injection H as <-. split; [exact W|]. split; [reflexivity|]. easy.
  - inv_bind H. inv_bind H. injection H as <-. apply wf_params_iff in W as [W1 W2].
    inversion_clear W1 as [|? ? N1 N2].
    assert (Wr : wf_params r) by (apply wf_params_iff; split; [exact N2|]; intros c q Q; apply (W2 c q); now right).
    destruct (IH a0 Wr E0) as (I1 & I2 & I3).
    destruct (remove_from_spec o p a (W2 k p (or_introl eq_refl)) E) as (F1 & _).
    apply wf_params_iff in I1 as [I0 I1].
    split; [|split].
    + apply wf_params_iff. split; [cbn; constructor; [now rewrite I2|exact I0]|].
      intros c q [Q|Q]; [congruence|now apply (I1 c q)].
    + cbn. now rewrite I2.
    + intros k' q. cbn. destruct (String.eqb_spec k' k) as [->|]; [|apply I3]. intros Q. injection Q as <-. eauto.
Qed.

Lemma wf_ddel o ps : wf_params ps -> wf_params (ddel o ps).
Proof.
  rewrite !wf_params_iff. intros [H1 H2]. split; [now apply NoDup_ddel|]. intros c p H. apply In_ddel in H as [H _]. now apply (H2 c).
Qed.
Lemma dkeys_ddel {A} o (d : dict A) : dkeys (ddel o d) = filter (fun k => negb (String.eqb o k)) (dkeys d).
Proof.
  unfold dkeys, ddel. induction d as [|[k v] d IH]; [reflexivity|]. cbn. destruct (String.eqb_spec o k); cbn; now rewrite IH.
Qed.
Lemma dget_ddel_neq {A} o k (d : dict A) : k <> o -> dget k (ddel o d) = dget k d.
Proof.
  intros H. unfold ddel. induction d as [|[k' v] d IH]; [reflexivity|]. cbn.
  destruct (String.eqb_spec o k') as [->|N]; cbn.
  - apply String.eqb_neq in H. now rewrite H.
  - destruct (k =? k')%string; [reflexivity|exact IH].
Qed.
Lemma dmem_declared o ps : dmem o ps = true <-> declared ps o.
Proof.
  unfold dmem, declared. destruct (dget o ps) as [p|] eqn:E.
  - apply dget_In in E. apply (in_map fst) in E. tauto.
  - apply dget_None in E. split; [discriminate|contradiction].
Qed.

Lemma remove_one_spec o ps ps' : wf_params ps -> remove_one ps (YStr o) = Ok ps' ->
  wf_params ps' /\ removes o ps ps'.
Proof.
  intros W H. cbn in H. destruct (dmem o ps) eqn:M; [|discriminate]. apply dmem_declared in M.
  destruct (remove_inputs_spec o (ddel o ps) ps' (wf_ddel o ps W) H) as (R1 & R2 & R3).
  split; [exact R1|]. split; [exact M|]. split; [unfold dkeys; rewrite R2; apply dkeys_ddel|].
  intros k Nk. unfold input, param.
  destruct (dget k ps) as [p|] eqn:E.
  - assert (E' : dget k (ddel o ps) = Some p) by (now rewrite dget_ddel_neq).
    destruct (R3 k p E') as (p' & -> & Hp).
    assert (Wp : wf_pars p) by (apply wf_params_iff in W; apply (proj2 W k p), dget_In; exact E).
    destruct (remove_from_spec o p p' Wp Hp) as (_ & _ & F1 & F2 & F3).
    split; [exact F1|]. split; [exact F3|exact F2].
  - assert (E' : dget k ps' = None).
    { apply dget_None. rewrite R2. apply dget_None. now rewrite dget_ddel_neq. }
    rewrite E'. split; [reflexivity|]. split; [constructor|reflexivity].
Qed.

Lemma remove_all_spec l : forall ps ps', wf_params ps -> fold_res remove_one ps l = Ok ps' ->
  exists os, l = map YStr os /\ steps removes os ps ps' /\ wf_params ps'.
Proof.
  induction l as [|x l IH]; cbn [fold_res]; intros ps ps' W H.
  - injection H as <-. exists []. split; [reflexivity|]. split; [constructor|exact W].
  - inv_bind H. destruct x; try discriminate. destruct (remove_one_spec s ps a W E) as [W1 R].
    destruct (IH a ps' W1 H) as (os & -> & St & W2). exists (s :: os). split; [reflexivity|]. split; [|exact W2].
    now apply (steps_cons _ s os ps a ps').
Qed.

(* -------------------------------------------------------------------- overrides *)
Lemma dupdate_get {A} (d e : dict A) k : NoDup (map fst e) ->
  dget k (dupdate d e) = match dget k e with Some v => Some v | None => dget k d end.
Proof.
  unfold dupdate. revert d. induction e as [|[k' v] e IH]; intros d N; [reflexivity|]. inversion_clear N as [|? ? N1 N2].
  cbn [fold_left fst snd]. rewrite (IH _ N2). cbn [dget]. destruct (String.eqb_spec k k') as [->|Nk].
  - rewrite (proj2 (dget_None k' e) N1). apply dget_dset_eq.
  - destruct (dget k e); [reflexivity|]. apply dget_dset_neq. congruence.
Qed.
Lemma dupdate_nodup {A} (e : dict A) : forall d, NoDup (map fst d) -> NoDup (map fst (dupdate d e)).
Proof. unfold dupdate. induction e as [|[k v] e IH]; intros d N; [exact N|]. cbn. apply IH. now apply NoDup_dset. Qed.

Lemma wf_dupdate p d : wf_pars p -> wf_pars d -> wf_pars (dupdate p d).
Proof.
  intros [P1 P2] [D1 D2]. pose proof (dupdate_nodup d p P1) as N. split; [exact N|].
  intros ins Hi. apply (PyLemmas.In_dget _ _ _ N) in Hi. rewrite dupdate_get in Hi by exact D1.
  destruct (dget "inputs" d) as [v|] eqn:E.
  - apply dget_In in E. injection Hi as ->. now apply D2.
  - apply dget_In in Hi. now apply P2.
Qed.
Lemma wf_dset o p ps : wf_params ps -> wf_pars p -> wf_params (dset o p ps).
Proof.
  rewrite !wf_params_iff. intros [W1 W2] Wp. split; [now apply NoDup_dset|]. intros c q H.
  apply In_dset in H; [|exact W1]. destruct H as [[_ ->]|[_ H]]; [exact Wp|now apply (W2 c)].
Qed.
Lemma dset_new {A} k (v : A) d : ~ In k (map fst d) -> dset k v d = d ++ [(k, v)].
Proof.
  induction d as [|[k' v'] d IH]; [reflexivity|]. cbn. intros H. destruct (String.eqb_spec k k') as [->|]; [tauto|].
  now rewrite IH by tauto.
Qed.

(* the dictionaries of an additional file have unique keys *)
Definition wf_file (additional : dict yval) : Prop :=
  forall name d, In (name, YDict d) additional -> wf_pars d.

Lemma combine_entry_spec ps name v ps' : wf_params ps -> (forall d, v = YDict d -> wf_pars d) ->
  (name = "remove" -> exists l, v = YList l) ->
  combine_entry ps name v = Ok ps' -> entry_effect (name, v) ps ps' /\ wf_params ps'.
Proof.
  intros W Wv Hr H. unfold combine_entry in H. destruct (String.eqb_spec name "remove") as [->|Nr].
  { destruct (Hr eq_refl) as [l ->]. cbn [iter_value bind] in H.
    destruct (remove_all_spec l ps ps' W H) as (os & -> & St & W'). split; [now constructor|exact W']. }
  destruct (ends_with "_override" name) eqn:En.
  - apply ends_with_iff in En as [b ->]. change 9 with (String.length "_override") in H.
    rewrite (drop_last_app b "_override") in H.
    destruct (dget b ps) as [p|] eqn:Eb; [|discriminate]. destruct v; try discriminate. injection H as <-.
    specialize (Wv d eq_refl).
    assert (Wp : wf_pars p) by (apply wf_params_iff in W; apply (proj2 W b p), dget_In; exact Eb).
    split; [|apply wf_dset; [exact W|now apply wf_dupdate]].
    apply ee_override; [|exact Nr]. split; [|split; [|split]].
    + apply dmem_declared. unfold dmem. now rewrite Eb.
    + apply keys_dset. apply dget_In in Eb. now apply (in_map fst) in Eb.
    + intros n. unfold param. rewrite dget_dset_eq, Eb. apply dupdate_get. exact (proj1 Wv).
    + intros k Nk. apply dget_dset_neq. congruence.
  - destruct (dmem name ps) eqn:M; [discriminate|]. destruct v; try discriminate. injection H as <-.
    assert (Nd : ~ declared ps name) by (rewrite <- dmem_declared; congruence).
    split; [|apply wf_dset; [exact W|now apply Wv]].
    apply ee_add; [|exact Nr|].
    + split; [exact Nd|]. apply dset_new. exact Nd.
    + intros b ->. assert (Q : ends_with "_override" (b ++ "_override") = true) by (apply ends_with_iff; now exists b). congruence.
Qed.

Theorem combine_effect idx additional : forall ps ps', wf_params ps -> wf_file additional ->
  (forall name v, In (name, v) additional -> effective idx name (Some "remove") -> exists l, v = YList l) ->
  combine_params idx ps additional = Ok ps' -> file_effect idx additional ps ps' /\ wf_params ps'.
Proof.
  induction additional as [|[name v] r IH]; intros ps ps' W Wf Hr H.
  - injection H as <-. split; [constructor|exact W].
  - unfold combine_params in H. cbn [fold_res fst snd] in H. fold (combine_params idx) in H.
    inv_bind H. pose proof (eff_name_ok idx name) as He. unfold eff_name in He.
    assert (Wr : wf_file r) by (intros n d Q; apply (Wf n d); now right).
    assert (Hr' : forall name v, In (name, v) r -> effective idx name (Some "remove") -> exists l, v = YList l)
      by (intros n w Q; apply (Hr n w); now right).
    assert (C : forall n, effective idx name (Some n) -> combine_entry ps n v = Ok a ->
                file_effect idx ((name, v) :: r) ps ps' /\ wf_params ps').
    { intros n Hn Hc. destruct (combine_entry_spec ps n v a W) as [Ee Wa]; [| |exact Hc|].
      - intros d ->. apply (Wf name d). now left.
      - intros ->. apply (Hr name v); [now left|exact Hn].
      - destruct (IH a ps' Wa Wr Hr' H) as [Fe W']. split; [|exact W']. now apply (fe_entry idx name n v r ps a ps'). }
    destruct (numbered name) as [[x n]|].
    + destruct (negb (n =? idx)%Z).
      * injection E as <-. destruct (IH ps ps' W Wr Hr' H) as [Fe W']. split; [|exact W']. now constructor.
      * now apply (C x).
    + now apply (C name).
Qed.

(* rejected entries *)
Lemma combine_app idx a b ps ps1 : combine_params idx ps a = Ok ps1 ->
  combine_params idx ps (a ++ b) = combine_params idx ps1 b.
Proof.
  unfold combine_params. revert ps. induction a as [|x a IH]; intros ps H.
  - injection H as <-. reflexivity.
  - cbn [app fold_res] in *. inv_bind H. rewrite E. cbn [bind]. now apply IH.
Qed.
Lemma combine_one idx ps name v r n : effective idx name (Some n) ->
  combine_params idx ps ((name, v) :: r) = (ps1 <- combine_entry ps n v ;; combine_params idx ps1 r).
Proof.
  intros H. apply effective_fun in H. unfold eff_name in H. unfold combine_params at 1. cbn [fold_res fst snd].
  destruct (numbered name) as [[x m]|].
  - destruct (negb (m =? idx)%Z); [discriminate|]. injection H as <-. reflexivity.
  - injection H as <-. reflexivity.
Qed.
Lemma removes_missing os : forall ps o, ~ declared ps o -> ~ In o os ->
  forall os2 ps', fold_res remove_one ps (map YStr (os ++ o :: os2)) <> Ok ps'.
Proof.
  induction os as [|x os IH]; intros ps o Hd Hi os2 ps' H; cbn [app map fold_res] in H.
  - inv_bind H. cbn in E. destruct (dmem o ps) eqn:M; [apply dmem_declared in M; contradiction|discriminate].
  - inv_bind H. apply (IH a o) in H; [exact H| |intros Q; apply Hi; now right].
    cbn in E. destruct (dmem x ps); [|discriminate].
    assert (K : map fst a = map fst (ddel x ps)).
    { clear -E. revert a E. induction (ddel x ps) as [|[k p] r IHr]; cbn; intros a E; [now injection E as <-|].
      inv_bind E. inv_bind E. injection E as <-. cbn. f_equal. now apply IHr. }
    unfold declared. rewrite K, keys_ddel. unfold declared in Hd. tauto.
Qed.

(* ---------------------------------------------------- command line overrides *)
Lemma split_char_join c l : l <> [] -> Forall (fun s => has_char c s = false) l ->
  split_char c (String.concat (String c "") l) = l.
Proof.
  induction l as [|a l IH]; [congruence|]. intros _ H. inversion_clear H as [|? ? H1 H2].
  destruct l as [|b l]; [cbn [String.concat]; now apply split_char_free|].
  specialize (IH ltac:(congruence) H2). change (String.concat (String c "") (a :: b :: l)) with (a ++ String c "" ++ String.concat (String c "") (b :: l))%string.
  revert H1. induction a as [|x a IHa]; intros H1.
  - cbn [append split_char]. rewrite Ascii.eqb_refl. cbn [append]. now rewrite IH.
  - cbn in H1. apply orb_false_iff in H1 as [H3 H4]. cbn [append split_char]. rewrite H3. cbn [append] in IHa. rewrite IHa by exact H4. reflexivity.
Qed.
Lemma split_char_concat c s : String.concat (String c "") (split_char c s) = s /\ Forall (fun x => has_char c x = false) (split_char c s).
Proof.
  induction s as [|a s [IH1 IH2]]; [split; [reflexivity|repeat constructor]|]. cbn [split_char].
  destruct (Ascii.eqb_spec c a) as [->|N].
  - split; [|constructor; [reflexivity|exact IH2]].
    destruct (split_char a s) as [|w ws] eqn:E; [now elim (split_char_nil a s)|].
    change (String.concat (String a "") ("" :: w :: ws)) with ("" ++ String a "" ++ String.concat (String a "") (w :: ws))%string.
    rewrite IH1. reflexivity.
  - destruct (split_char c s) as [|w ws] eqn:E; [now elim (split_char_nil c s)|].
    inversion_clear IH2 as [|? ? H1 H2]. split.
    + destruct ws as [|b ws]; cbn [String.concat] in *; [now rewrite IH1|]. rewrite <- IH1. reflexivity.
    + constructor; [|exact H2]. cbn. rewrite H1, orb_false_r. now apply Ascii.eqb_neq.
Qed.
