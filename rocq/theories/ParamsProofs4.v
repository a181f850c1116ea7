From Coq Require Import String List Ascii ZArith Bool Arith Lia.
From Verif Require Import PyBase PyLemmas NamesModel NamesSpec NamesProofs TrigOrderModel TrigOrderSpec
  TrigOrderProofs ConnProofs ParamsModel ParamsSpec ParamsProofs ParamsProofs2 ParamsProofs3.
Import ListNotations.
Local Open Scope string_scope.
Local Open Scope list_scope.

Lemma append_assoc_str a b c : (a ++ b ++ c = (a ++ b) ++ c)%string.
Proof. induction a as [|x a IH]; cbn; congruence. Qed.
Lemma app_inj_tail_str a b c : (a ++ c = b ++ c)%string -> a = b.
Proof.
  intros H. assert (L : String.length a = String.length b).
  { apply (f_equal String.length) in H. rewrite !length_app_str in H. lia. }
  revert b L H. induction a as [|x a IH]; intros [|y b] L H; try discriminate; [reflexivity|].
  cbn in L. injection L as L. cbn in H. injection H as -> H. f_equal. now apply IH.
Qed.

(* --------------------------------------------------------------- targeted replay *)
Definition dget_in (p : pars) (i : string) : option yval :=
  match dget "inputs" p with Some (YDict d) => dget i d | _ => None end.

(* the text looked up in the mapping of the stored outputs *)
Definition full_name (o : output) : string :=
  (o_obj o ++ "." ++ match o_key o with Some k => k | None => "None" end)%string.

Lemma dget_declared {A} k (d : dict A) : In k (map fst d) <-> exists v, dget k d = Some v.
Proof.
  split.
  - intros H. destruct (dget k d) as [v|] eqn:E; [now exists v|]. apply dget_None in E. contradiction.
  - intros [v H]. apply dget_In in H. now apply (in_map fst) in H.
Qed.

Lemma set_input_other ps key i v k : k <> key -> dget k (set_input ps key i v) = dget k ps.
Proof.
  intros N. unfold set_input. destruct (dget key ps); [|reflexivity].
  destruct (dget "inputs" _) as [[]|]; try reflexivity. now rewrite dget_dset_neq by congruence.
Qed.
Lemma set_input_same (ps : params) key i v (p : pars) (ins : dict yval) : dget key ps = Some p -> dget "inputs" p = Some (YDict ins) ->
  dget key (set_input ps key i v) = Some (dset "inputs" (YDict (dset i v ins)) p).
Proof. intros H1 H2. unfold set_input. rewrite H1, H2. apply dget_dset_eq. Qed.
Lemma set_input_keys ps key i v : map fst (set_input ps key i v) = map fst ps.
Proof.
  unfold set_input. destruct (dget key ps) as [p|] eqn:E; [|reflexivity].
  destruct (dget "inputs" _) as [[]|]; try reflexivity. now apply (dset_keys_some _ _ p).
Qed.

Section Targeted.
Variable ps0 : params.
Variable m : dict (option string).
Variable base : list string.

(* the input [i] of the object whose parameters were [p] and are now [p'] *)
Definition input_done (rp : params) (items : list (string * yval)) (p p' : pars) (i : string) : Prop :=
  (dget_in p' i = dget_in p i /\
   forall x, In (i, x) items -> exists o, split_v x = Ok o /\ dget (full_name o) m = None /\ declared rp (o_obj o)) \/
  (exists n x o, dget_in p' i = Some (YStr ("data_source." ++ n)) /\
     In (i, x) items /\ split_v x = Ok o /\ dget (full_name o) m = Some (Some n)).

Definition frame_of (p p' : pars) : Prop :=
  map fst p' = map fst p /\ forall name, name <> "inputs" -> dget name p' = dget name p.

Definition done (rp : params) (k : string) : Prop :=
  exists p p' items names, dget k ps0 = Some p /\ dget k rp = Some p' /\ frame_of p p' /\
    iterate_inputs p = Ok items /\ ref_names p = Ok names /\
    (forall i, input_done rp items p p' i) /\
    (forall x, In x names -> exists s, x = YStr s /\ declared rp s).

Record inv (X : list string) (st : tstate2) : Prop := {
  inv_new : forall k, ~ declared (snd st) k -> dget k (fst st) = dget k ps0;
  inv_keys : map fst (fst st) = map fst ps0;
  inv_done : forall k, declared (snd st) k -> In k X \/ In k base \/ done (snd st) k
}.

Definition mono (st st' : tstate2) : Prop :=
  forall k, declared (snd st) k -> declared (snd st') k /\
    dget k (snd st') = dget k (snd st) /\ dget k (fst st') = dget k (fst st).

Lemma mono_refl st : mono st st.
Proof. intros k H. auto. Qed.
Lemma mono_trans a b c : mono a b -> mono b c -> mono a c.
Proof.
  intros H1 H2 k Hk. destruct (H1 k Hk) as (A & B & C). destruct (H2 k A) as (D & E & F).
  split; [exact D|]. split; congruence.
Qed.

Lemma done_weaken rp rp' k : (forall j, declared rp j -> declared rp' j) -> dget k rp' = dget k rp -> done rp k -> done rp' k.
Proof.
  intros H1 H2 (p & p' & items & names & A & B & C & D & E & F & G).
  exists p, p', items, names. rewrite H2. repeat (split; [assumption|]). split.
  - intros i. destruct (F i) as [[F1 F2]|F2]; [left|right; exact F2]. split; [exact F1|].
    intros x Hx. destruct (F2 x Hx) as (o & Q1 & Q2 & Q3). exists o. auto.
  - intros x Hx. destruct (G x Hx) as (s & Q1 & Q2). exists s. auto.
Qed.

Lemma declared_dset (rp : params) key p k : declared (dset key p rp) k <-> k = key \/ declared rp k.
Proof.
  unfold declared. rewrite !dget_declared. destruct (string_dec k key) as [->|N].
  - rewrite dget_dset_eq. split; [auto|]. intros _. now exists p.
  - rewrite dget_dset_neq by congruence. split; [auto|]. now intros [?|?].
Qed.

Lemma inv_start X st key p : inv X st -> ~ declared (snd st) key -> dget key (fst st) = Some p ->
  inv (key :: X) (fst st, dset key p (snd st)).
Proof.
  intros [I1 I2 I3] N Hp. split; cbn [fst snd].
  - intros k Hk. apply I1. intros Q. apply Hk. apply declared_dset. auto.
  - exact I2.
  - intros k Hk. destruct (string_dec k key) as [->|Nk]; [left; now left|]. apply declared_dset in Hk as [?|Hk]; [contradiction|].
    destruct (I3 k Hk) as [Q|[Q|Q]]; [left; now right|right; now left|]. right. right.
    revert Q. apply done_weaken; [intros j Hj; apply declared_dset; auto|]. now rewrite dget_dset_neq by congruence.
Qed.

Lemma inv_set X st key i v : inv X st -> declared (snd st) key -> In key X ->
  inv X (set_input (fst st) key i v, set_input (snd st) key i v).
Proof.
  intros [I1 I2 I3] H HX. split; cbn [fst snd].
  - intros k Hk. unfold declared in Hk. rewrite set_input_keys in Hk. rewrite set_input_other; [now apply I1|]. intros ->. contradiction.
  - now rewrite set_input_keys.
  - intros k Hk. unfold declared in Hk. rewrite set_input_keys in Hk. destruct (string_dec k key) as [->|N]; [now left|].
    destruct (I3 k Hk) as [Q|[Q|Q]]; [auto|auto|]. right. right. revert Q. apply done_weaken.
    + intros j. unfold declared. now rewrite set_input_keys.
    + now rewrite set_input_other by assumption.
Qed.

Definition item_step (f : nat) (key : string) (st : tstate2) (kx : string * yval) : res tstate2 :=
  o <- split_v (snd kx) ;;
  let full := (o_obj o ++ "." ++ match o_key o with Some k => k | None => "None" end)%string in
  match dget full m with
  | Some n => v <- from_source n ;;
              Ok (set_input (fst st) key (fst kx) v, set_input (snd st) key (fst kx) v)
  | None => add_key f m st (o_obj o)
  end.
Definition ref_step (f : nat) (st : tstate2) (x : yval) : res tstate2 :=
  match x with YStr s => add_key f m st s | _ => Err KeyError end.

Lemma add_key_eq f st key : add_key (S f) m st key =
  if dmem key (snd st) then Ok st
  else match dget key (fst st) with
       | None => Err KeyError
       | Some p =>
           items <- iterate_inputs p ;;
           st1 <- fold_res (item_step f key) (fst st, dset key p (snd st)) items ;;
           names <- ref_names p ;;
           fold_res (ref_step f) st1 names
       end.
Proof. reflexivity. Qed.

Definition good_call (f : nat) : Prop := forall X st key st', inv X st -> add_key f m st key = Ok st' ->
  inv X st' /\ mono st st' /\ declared (snd st') key.

Lemma items_inv f key p X (st0 : tstate2) items : good_call f -> In key X ->
  inv X st0 -> dget key (fst st0) = Some p -> dget key (snd st0) = Some p ->
  (items <> [] -> exists ins, dget "inputs" p = Some (YDict ins)) ->
  forall st1, fold_res (item_step f key) st0 items = Ok st1 ->
  inv X st1 /\
  (forall k, k <> key -> declared (snd st0) k -> declared (snd st1) k /\
     dget k (snd st1) = dget k (snd st0) /\ dget k (fst st1) = dget k (fst st0)) /\
  exists p', dget key (fst st1) = Some p' /\ dget key (snd st1) = Some p' /\ frame_of p p' /\
    (items <> [] -> exists ins, dget "inputs" p' = Some (YDict ins)) /\
    forall i, input_done (snd st1) items p p' i.
Proof.
  intros G HX I0 P1 P2. induction items as [|[i x] items IH] using rev_ind; intros Hi st1 H.
  - injection H as <-. split; [exact I0|]. split; [auto|]. exists p. split; [exact P1|]. split; [exact P2|].
    split; [split; [reflexivity|intros ? ?; reflexivity]|]. split; [congruence|]. intros i. left. split; [reflexivity|]. intros x [].
  - rewrite fold_res_app in H. inv_bind H. cbn [fold_res] in H. inv_bind H. injection H as <-. rename a into st. rename a0 into st1.
    destruct Hi as [ins0 Hi]; [now destruct items|].
    destruct (IH (fun _ => ex_intro _ ins0 Hi) st E) as (J1 & J2 & p1 & J3 & J4 & J5 & J6 & J7).
    assert (Hins : exists ins, dget "inputs" p1 = Some (YDict ins)).
    { destruct items as [|it items]; [|apply J6; discriminate]. cbn [fold_res] in E. injection E as <-.
      rewrite P1 in J3. injection J3 as <-. now exists ins0. }
    destruct Hins as [ins Hins].
    unfold item_step in E0. cbn [fst snd] in E0. inv_bind E0. rename a into o. fold (full_name o) in E0.
    assert (Dk : declared (snd st) key) by (apply dget_declared; now exists p1).
    destruct (dget (full_name o) m) as [n|] eqn:Em.
    + inv_bind E0. injection E0 as <-. destruct n as [n|]; [|discriminate]. injection E2 as <-. cbn [fst snd].
      split; [now apply inv_set|]. split.
      { intros k Nk Hk. destruct (J2 k Nk Hk) as (Q1 & Q2 & Q3). split; [unfold declared; now rewrite set_input_keys|].
        rewrite !set_input_other by assumption. auto. }
      exists (dset "inputs" (YDict (dset i (YStr ("data_source." ++ n)) ins)) p1).
      split; [now apply set_input_same|]. split; [now apply set_input_same|].
      split; [split; [rewrite (dset_keys_some _ _ _ _ Hins); apply J5|intros name Nn; rewrite dget_dset_neq by congruence; now apply J5]|].
      split; [intros _; rewrite dget_dset_eq; eauto|]. intros j. destruct (string_dec j i) as [->|Nj].
      * right. exists n, x, o. split; [unfold dget_in; now rewrite dget_dset_eq, dget_dset_eq|].
        split; [apply in_or_app; right; now left|]. auto.
      * assert (Q : dget_in (dset "inputs" (YDict (dset i (YStr ("data_source." ++ n)) ins)) p1) j = dget_in p1 j).
        { unfold dget_in. rewrite dget_dset_eq, Hins. now rewrite dget_dset_neq by congruence. }
        destruct (J7 j) as [[F1 F2]|(n' & x' & o' & F1 & F2 & F3 & F4)].
        -- left. split; [now rewrite Q|]. intros y Hy. apply in_app_or in Hy as [Hy|[Hy|[]]]; [|injection Hy as -> _; contradiction].
           destruct (F2 y Hy) as (o' & R1 & R2 & R3). exists o'. split; [exact R1|]. split; [exact R2|].
           unfold declared. rewrite set_input_keys. exact R3.
        -- right. exists n', x', o'. rewrite Q. split; [exact F1|]. split; [apply in_or_app; now left|]. auto.
    + destruct (G X st (o_obj o) st1 J1 E0) as (K1 & K2 & K3). split; [exact K1|]. split.
      { intros k Nk Hk. destruct (J2 k Nk Hk) as (Q1 & Q2 & Q3). destruct (K2 k Q1) as (Q4 & Q5 & Q6).
        split; [exact Q4|]. split; congruence. }
      destruct (K2 key Dk) as (Q4 & Q5 & Q6). exists p1. split; [congruence|]. split; [congruence|]. split; [exact J5|].
      split; [intros _; now exists ins|]. intros j.
      destruct (J7 j) as [[F1 F2]|(n' & x' & o' & F1 & F2 & F3 & F4)].
      * left. split; [exact F1|]. intros y Hy. apply in_app_or in Hy as [Hy|[Hy|[]]].
        -- destruct (F2 y Hy) as (o' & R1 & R2 & R3). exists o'. split; [exact R1|]. split; [exact R2|]. now apply (K2 _ R3).
        -- injection Hy as -> ->. exists o. auto.
      * right. exists n', x', o'. split; [exact F1|]. split; [apply in_or_app; now left|]. auto.
Qed.

Lemma refs_inv f X names : good_call f -> forall st st', inv X st -> fold_res (ref_step f) st names = Ok st' ->
  inv X st' /\ mono st st' /\ forall x, In x names -> exists s, x = YStr s /\ declared (snd st') s.
Proof.
  intros G. induction names as [|x names IH]; cbn [fold_res]; intros st st' I H.
  - injection H as <-. split; [exact I|]. split; [apply mono_refl|]. easy.
  - inv_bind H. destruct x; try discriminate. cbn [ref_step] in E. destruct (G X st s a I E) as (K1 & K2 & K3).
    destruct (IH a st' K1 H) as (L1 & L2 & L3). split; [exact L1|]. split; [now apply (mono_trans _ a)|].
    intros y [<-|Hy]; [|now apply L3]. exists s. split; [reflexivity|]. now apply (L2 s K3).
Qed.

Lemma inputs_nonempty p items : iterate_inputs p = Ok items -> items <> [] ->
  exists ins, dget "inputs" p = Some (YDict ins).
Proof.
  unfold iterate_inputs, inputs_items. destruct (dget "inputs" p) as [v|]; cbn [bind].
  - destruct v; try discriminate. intros _ _. now exists d.
  - intros H. injection H as <-. contradiction.
Qed.

Lemma add_key_good f : good_call f.
Proof.
  induction f as [|f IH]; intros X st key st' I H; [discriminate|]. rewrite add_key_eq in H.
  destruct (dmem key (snd st)) eqn:M.
  - injection H as <-. split; [exact I|]. split; [apply mono_refl|]. now apply dmem_declared.
  - assert (Nk : ~ declared (snd st) key) by (rewrite <- dmem_declared; congruence).
    destruct (dget key (fst st)) as [p|] eqn:Ep; [|discriminate]. inv_bind H. inv_bind H. inv_bind H.
    rename a into items, a0 into st1, a1 into names.
    assert (I0 := inv_start X st key p I Nk Ep).
    destruct (items_inv f key p (key :: X) _ items IH (or_introl eq_refl) I0 Ep (dget_dset_eq _ _ _)
                (inputs_nonempty p items E) st1 E0) as (J1 & J2 & p1 & J3 & J4 & J5 & J6 & J7).
    destruct (refs_inv f (key :: X) names IH st1 st' J1 H) as (L1 & L2 & L3).
    assert (Dk : declared (snd st1) key) by (apply dget_declared; now exists p1).
    destruct (L2 key Dk) as (Q1 & Q2 & Q3).
    assert (D : done (snd st') key).
    { exists p, p1, items, names. split; [rewrite <- Ep; symmetry; now apply (inv_new X st I)|]. split; [congruence|].
      split; [exact J5|]. split; [exact E|]. split; [exact E1|]. split; [|exact L3].
      intros i. destruct (J7 i) as [[F1 F2]|F2]; [left|right; exact F2]. split; [exact F1|].
      intros x Hx. destruct (F2 x Hx) as (o & R1 & R2 & R3). exists o. split; [exact R1|]. split; [exact R2|]. now apply (L2 _ R3). }
    split; [|split; [|exact Q1]].
    + destruct L1 as [A B C]. split; [exact A|exact B|]. intros k Hk. destruct (C k Hk) as [[<-|Q]|[Q|Q]]; auto.
    + intros k Hk. assert (k <> key) by (intros ->; contradiction).
      destruct (J2 k H0) as (R1 & R2 & R3); [apply declared_dset; auto|]. destruct (L2 k R1) as (R4 & R5 & R6).
      split; [exact R4|]. cbn [fst snd] in R2, R3. rewrite dget_dset_neq in R2 by congruence. split; congruence.
Qed.

(* ----------------------------------------------------------------- termination *)
Definition missing (st : tstate2) : nat := length (filter (fun k => negb (dmem k (snd st))) (map fst ps0)).

Lemma filter_le {A} (f g : A -> bool) l : (forall x, In x l -> f x = true -> g x = true) ->
  length (filter f l) <= length (filter g l).
Proof.
  induction l as [|a l IH]; intros H; [reflexivity|]. cbn. specialize (IH (fun x Hx => H x (or_intror Hx))).
  pose proof (H a (or_introl eq_refl)). destruct (f a); [rewrite H0 by reflexivity; cbn; lia|]. destruct (g a); cbn; lia.
Qed.
Lemma filter_lt {A} (f g : A -> bool) l x : (forall x, In x l -> f x = true -> g x = true) ->
  In x l -> f x = false -> g x = true -> length (filter f l) < length (filter g l).
Proof.
  induction l as [|a l IH]; intros H Hx F Gx; [destruct Hx|]. cbn. destruct Hx as [->|Hx].
  - rewrite F, Gx. cbn. pose proof (filter_le f g l (fun y Hy => H y (or_intror Hy))). lia.
  - specialize (IH (fun y Hy => H y (or_intror Hy)) Hx F Gx). pose proof (H a (or_introl eq_refl)).
    destruct (f a); [rewrite H0 by reflexivity; cbn; lia|]. destruct (g a); cbn; lia.
Qed.

Lemma missing_le st st' : (forall k, declared (snd st) k -> declared (snd st') k) -> missing st' <= missing st.
Proof.
  intros H. apply filter_le. intros k _. rewrite !negb_true_iff. intros Q. destruct (dmem k (snd st)) eqn:M; [|reflexivity].
  apply dmem_declared, H, dmem_declared in M. congruence.
Qed.
Lemma missing_lt st key p : ~ declared (snd st) key -> In key (map fst ps0) ->
  missing (fst st, dset key p (snd st)) < missing st.
Proof.
  intros N Hk. apply filter_lt with (x := key).
  - intros k _. rewrite !negb_true_iff. cbn [snd]. intros Q. destruct (dmem k (snd st)) eqn:M; [|reflexivity].
    apply dmem_declared in M. assert (dmem k (dset key p (snd st)) = true); [|congruence]. apply dmem_declared, declared_dset. auto.
  - exact Hk.
  - cbn [snd]. apply negb_false_iff, dmem_declared, declared_dset. auto.
  - apply negb_true_iff. destruct (dmem key (snd st)) eqn:M; [|reflexivity]. apply dmem_declared in M. contradiction.
Qed.

Lemma fold_err {A B} (F : B -> A -> res B) l : forall s e, fold_res F s l = Err e ->
  exists l1 x l2 s1, l = l1 ++ x :: l2 /\ fold_res F s l1 = Ok s1 /\ F s1 x = Err e.
Proof.
  induction l as [|x l IH]; cbn [fold_res]; intros s e H; [discriminate|].
  destruct (F s x) as [s1|e1] eqn:E; cbn [bind] in H.
  - destruct (IH s1 e H) as (l1 & y & l2 & s2 & -> & H1 & H2). exists (x :: l1), y, l2, s2. cbn. rewrite E. auto.
  - injection H as <-. exists [], x, l, s. auto.
Qed.

Lemma py_int_fuel s : py_int s <> Err OutOfFuel.
Proof.
  unfold py_int. destruct (rstrip (lstrip s)); [discriminate|]. cbn zeta.
  match goal with |- match ?x with _ => _ end <> _ => destruct x; discriminate end.
Qed.
Lemma split2_fuel c s : split2 c s <> Err OutOfFuel.
Proof. unfold split2. destruct (split_char c s) as [|? [|? [|]]]; discriminate. Qed.
Lemma split_output_fuel s : split_output s <> Err OutOfFuel.
Proof.
  unfold split_output. intros H.
  assert (B : forall {A B} (r : res A) (k : A -> res B), bind r k = Err OutOfFuel -> r = Err OutOfFuel \/ exists a, r = Ok a /\ k a = Err OutOfFuel).
  { intros A B [a|e] k Q; [right; now exists a|left; cbn in Q; congruence]. }
  apply B in H as [H|(bd & _ & H)].
  - destruct (has_char ":" s); [|discriminate]. apply B in H as [H|(ab & _ & H)]; [now apply split2_fuel in H|].
    apply B in H as [H|(d & _ & H)]; [now apply py_int_fuel in H|discriminate].
  - apply B in H as [H|(ir & _ & H)].
    + destruct (has_char "-" (fst bd)); [|discriminate]. apply B in H as [H|(ab & _ & H)]; [now apply split2_fuel in H|discriminate].
    + apply B in H as [H|(ok & _ & H)]; [|discriminate].
      destruct (has_char "." (snd ir)); [|discriminate]. apply B in H as [H|(ab & _ & H)]; [now apply split2_fuel in H|discriminate].
Qed.
Lemma split_v_fuel v : split_v v <> Err OutOfFuel.
Proof. destruct v; try discriminate. apply split_output_fuel. Qed.
Lemma iterate_fuel p : iterate_inputs p <> Err OutOfFuel.
Proof.
  unfold iterate_inputs, inputs_items. destruct (dget "inputs" p) as [v|]; [|discriminate]. destruct v; try discriminate.
  cbn [bind]. destruct (dget "input_list" d) as [v|]; [destruct v; discriminate|discriminate].
Qed.
Lemma ref_names_fuel p : ref_names p <> Err OutOfFuel.
Proof.
  unfold ref_names. match goal with |- context[map_res ?f p] => set (g := f) end.
  assert (G : forall kv, g kv <> Err OutOfFuel).
  { intros kv. unfold g. destruct (ends_with "_list_ref" (fst kv) || ends_with "_dict_ref" (fst kv)).
    - destruct (snd kv); discriminate.
    - destruct (ends_with "_ref" (fst kv)); discriminate. }
  assert (M : map_res g p <> Err OutOfFuel).
  { induction p as [|kv p IH]; [discriminate|]. cbn [map_res]. specialize (G kv). destruct (g kv) as [a|e]; cbn [bind]; [|congruence].
    destruct (map_res g p) as [l|e]; cbn [bind]; [discriminate|congruence]. }
  destruct (map_res g p) as [l|e]; cbn [bind]; [discriminate|congruence].
Qed.

Lemma add_key_fuel f : forall X st key, inv X st -> missing st < f -> add_key f m st key <> Err OutOfFuel.
Proof.
  induction f as [|f IH]; intros X st key I Hf; [lia|]. rewrite add_key_eq.
  destruct (dmem key (snd st)) eqn:M; [discriminate|].
  assert (Nk : ~ declared (snd st) key) by (rewrite <- dmem_declared; congruence).
  destruct (dget key (fst st)) as [p|] eqn:Ep; [|discriminate].
  assert (Hk : In key (map fst ps0)).
  { rewrite <- (inv_keys X st I). apply dget_declared. now exists p. }
  pose proof (missing_lt st key p Nk Hk) as L0.
  assert (I0 := inv_start X st key p I Nk Ep).
  pose proof (iterate_fuel p) as F1. destruct (iterate_inputs p) as [items|e] eqn:E; cbn [bind]; [|congruence].
  destruct (fold_res (item_step f key) (fst st, dset key p (snd st)) items) as [st1|e] eqn:E0; cbn [bind].
  - destruct (items_inv f key p (key :: X) _ items (add_key_good f) (or_introl eq_refl) I0 Ep (dget_dset_eq _ _ _)
                (inputs_nonempty p items E) st1 E0) as (J1 & J2 & p1 & J3 & J4 & _).
    assert (L1 : missing st1 <= missing (fst st, dset key p (snd st))).
    { apply missing_le. intros k Hk'. destruct (string_dec k key) as [->|Nk']; [apply dget_declared; now exists p1|].
      now apply (J2 k Nk' Hk'). }
    pose proof (ref_names_fuel p) as F2. destruct (ref_names p) as [names|e]; cbn [bind]; [|congruence].
    intros Q. destruct (fold_err _ _ _ _ Q) as (l1 & x & l2 & s1 & -> & Q1 & Q2).
    destruct (refs_inv f (key :: X) l1 (add_key_good f) st1 s1 J1 Q1) as (K1 & K2 & _).
    destruct x; try discriminate. cbn [ref_step] in Q2. revert Q2. apply (IH (key :: X)); [exact K1|].
    assert (missing s1 <= missing st1) by (apply missing_le; intros k Hk'; now apply K2). lia.
  - intros Q. injection Q as ->. destruct (fold_err _ _ _ _ E0) as (l1 & x & l2 & s1 & El & Q1 & Q2).
    assert (Hne : l1 <> [] -> exists ins, dget "inputs" p = Some (YDict ins)).
    { intros _. apply (inputs_nonempty p items E). rewrite El. now destruct l1. }
    destruct (items_inv f key p (key :: X) _ l1 (add_key_good f) (or_introl eq_refl) I0 Ep (dget_dset_eq _ _ _)
                Hne s1 Q1) as (J1 & J2 & p1 & J3 & J4 & _).
    assert (L1 : missing s1 <= missing (fst st, dset key p (snd st))).
    { apply missing_le. intros k Hk'. destruct (string_dec k key) as [->|Nk']; [apply dget_declared; now exists p1|].
      now apply (J2 k Nk' Hk'). }
    unfold item_step in Q2. pose proof (split_v_fuel (snd x)) as F2. destruct (split_v (snd x)) as [o|e]; cbn [bind] in Q2; [|congruence].
    cbn zeta in Q2. destruct (dget _ m) as [n|].
    + destruct n; discriminate.
    + revert Q2. apply (IH (key :: X)); [exact J1|]. lia.
Qed.

Lemma targets_inv f targets : forall st st', inv [] st -> fold_res (add_key f m) st targets = Ok st' ->
  inv [] st' /\ mono st st' /\ forall t, In t targets -> declared (snd st') t.
Proof.
  induction targets as [|t ts IH]; cbn [fold_res]; intros st st' I H.
  - injection H as <-. split; [exact I|]. split; [apply mono_refl|]. easy.
  - inv_bind H. destruct (add_key_good f [] st t a I E) as (K1 & K2 & K3). destruct (IH a st' K1 H) as (L1 & L2 & L3).
    split; [exact L1|]. split; [now apply (mono_trans _ a)|]. intros y [<-|Hy]; [now apply (L2 t)|now apply L3].
Qed.

Lemma targets_fuel f targets st : inv [] st -> missing st < f -> fold_res (add_key f m) st targets <> Err OutOfFuel.
Proof.
  intros I Hf Q. destruct (fold_err _ _ _ _ Q) as (l1 & x & l2 & s1 & _ & Q1 & Q2).
  destruct (targets_inv f l1 st s1 I Q1) as (K1 & K2 & _). revert Q2. apply (add_key_fuel f []); [exact K1|].
  assert (missing s1 <= missing st) by (apply missing_le; intros k Hk'; now apply K2). lia.
Qed.

(* an object that is done is self-contained *)
Lemma ref_names_spec p names nv r : ref_names p = Ok names -> In nv p -> names_obj nv r -> In (YStr r) names.
Proof.
  unfold ref_names. intros H Hin Hn. inv_bind H. injection H as <-. destruct (map_res_ok _ _ _ E nv Hin) as (l & Hl & Hla).
  apply in_concat. exists l. split; [exact Hla|]. clear E Hla Hin.
  assert (EW : forall a b, ends_with b (a ++ b)%string = true) by (intros; apply ends_with_iff; now eexists).
  inversion Hn; subst nv r; cbn [fst snd] in Hl.
  - assert (L1 : ends_with "_list_ref" (b ++ "_ref") = false).
    { destruct (ends_with "_list_ref" (b ++ "_ref")) eqn:Q; [|reflexivity]. apply ends_with_iff in Q as [c Q].
      change "_list_ref" with ("_list" ++ "_ref")%string in Q. rewrite append_assoc_str in Q. apply app_inj_tail_str in Q. exfalso. exact (H c Q). }
    assert (L2 : ends_with "_dict_ref" (b ++ "_ref") = false).
    { destruct (ends_with "_dict_ref" (b ++ "_ref")) eqn:Q; [|reflexivity]. apply ends_with_iff in Q as [c Q].
      change "_dict_ref" with ("_dict" ++ "_ref")%string in Q. rewrite append_assoc_str in Q. apply app_inj_tail_str in Q. exfalso. exact (H0 c Q). }
    rewrite L1, L2, EW in Hl. cbn in Hl. injection Hl as <-. now left.
  - rewrite EW in Hl. cbn in Hl. injection Hl as <-. assumption.
  - rewrite EW, orb_true_r in Hl. cbn in Hl. injection Hl as <-. assumption.
  - rewrite EW, orb_true_r in Hl. cbn in Hl. injection Hl as <-. apply in_map_iff in H as ([k v] & <- & Hk).
    apply in_map_iff. now exists (k, v).
Qed.

End Targeted.

(* the stored outputs, whatever the number of data stores *)
Definition stored_by (ps : params) (t : string) (nm : option string) : Prop :=
  exists ds p o key, In (ds, p) ps /\ class_of p "DataStore" /\ stores p o key nm /\ t = (o ++ "." ++ key)%string.

Definition source_step (dir : option string) (st : params * dict (option string)) (kp : string * pars) :=
  b <- class_is "DataStore" (snd kp) ;;
  if b then
    d <- data_store_to_data_source (snd kp) dir ;;
    let '(src, _, m) := d in
    Ok (dset "data_source" src (fst st), dupdate (snd st) m)
  else Ok st.

Lemma source_refs p dir d objs m : data_store_to_data_source p dir = Ok (d, objs, m) ->
  exists outs, store_refs p = Ok (outs, objs, m) /\ dget "class" d = Some (YStr "DataSource").
Proof.
  unfold data_store_to_data_source. intros H. inv_bind H. inv_bind H. destruct a0 as [[outs objs'] m']. injection H as <- <- <-.
  exists outs. split; [exact E0|]. reflexivity.
Qed.

Lemma store_refs_nodup p outs objs m : store_refs p = Ok (outs, objs, m) -> NoDup (map fst m).
Proof.
  unfold store_refs. intros H. inv_bind H. fold store_step in H. clear E.
  assert (G : forall items outs objs m outs' objs' m', NoDup (map fst m) ->
    fold_res store_step (outs, objs, m) items = Ok (outs', objs', m') -> NoDup (map fst m')).
  { clear. induction items as [|x items IH]; cbn [fold_res]; intros outs objs m outs' objs' m' N H; [now injection H as <- <- <-|].
    inv_bind H. unfold store_step in E. inv_bind E. destruct (o_key a0); [|discriminate]. injection E as <-.
    revert H. apply IH. now apply NoDup_dset. }
  exact (G a [] [] [] outs objs m (NoDup_nil _) H).
Qed.

Lemma source_fold dir l : (forall k p, In (k, p) l -> wf_pars p) -> forall st st', fold_res (source_step dir) st l = Ok st' ->
  (forall k, k <> "data_source" -> dget k (fst st') = dget k (fst st)) /\
  (declared (fst st) "data_source" -> declared (fst st') "data_source") /\
  (declared (fst st') "data_source" -> declared (fst st) "data_source" \/ exists ds p, In (ds, p) l /\ class_of p "DataStore") /\
  (forall ds p, In (ds, p) l -> class_of p "DataStore" -> declared (fst st') "data_source") /\
  (forall t nm, dget t (snd st') = Some nm -> dget t (snd st) = Some nm \/ stored_by l t nm) /\
  (forall t, dget t (snd st) <> None -> dget t (snd st') <> None) /\
  (forall t nm, stored_by l t nm -> dget t (snd st') <> None).
Proof.
  induction l as [|[k p] l IH]; cbn [fold_res]; intros W st st' H.
  - injection H as <-. repeat (split; [now auto|]). intros t nm (ds & q & o & key & [] & _).
  - inv_bind H. unfold source_step in E. cbn [snd] in E. inv_bind E.
    specialize (IH (fun k' p' Q => W k' p' (or_intror Q)) a st' H) as (I1 & I2 & I3 & I4 & I5 & I6 & I7).
    assert (SB : forall t nm, stored_by l t nm -> stored_by ((k, p) :: l) t nm).
    { intros t nm (ds & q & o & key & Q1 & Q2). exists ds, q, o, key. split; [now right|exact Q2]. }
    pose proof (class_is_ok _ _ _ E0) as C. destruct a0.
    + inv_bind E. destruct a0 as [[src objs] m']. injection E as <-. destruct (source_refs _ _ _ _ _ E1) as (outs & R & _).
      pose proof (store_refs_nodup _ _ _ _ R) as N. pose proof (W k p (or_introl eq_refl)) as Wp.
      destruct (store_refs_spec p outs objs m' Wp R) as (R1 & R2 & R3 & _). cbn [fst snd] in *.
      assert (D : declared (fst st') "data_source") by (apply I2, declared_dset; auto).
      split; [intros j Nj; rewrite I1 by assumption; now rewrite dget_dset_neq by congruence|].
      split; [auto|]. split; [intros _; right; exists k, p; split; [now left|now apply C]|]. split; [auto|]. split; [|split].
      * intros t nm Ht. destruct (I5 t nm Ht) as [Q|Q]; [|right; auto]. rewrite dupdate_get in Q by exact N.
        destruct (dget t m') as [nm'|] eqn:E; [|auto]. injection Q as ->. destruct (R2 t nm E) as (o & key & Q1 & Q2).
        right. exists k, p, o, key. split; [now left|]. split; [now apply C|]. auto.
      * intros t Ht. apply I6. rewrite dupdate_get by exact N. destruct (dget t m'); [discriminate|exact Ht].
      * intros t nm (ds & q & o & key & [Q|Q] & Q1 & Q2 & Q3).
        -- injection Q as <- <-. apply I6. rewrite dupdate_get by exact N. subst t. pose proof (R3 o key nm Q2).
           destruct (dget _ m'); [discriminate|contradiction].
        -- apply (I7 t nm). exists ds, q, o, key. auto.
    + injection E as <-. assert (C' : ~ class_of p "DataStore") by (intros Q; apply C in Q; discriminate).
      split; [exact I1|]. split; [exact I2|]. split.
      { intros Q. destruct (I3 Q) as [?|(ds & q & Q1 & Q2)]; [auto|]. right. exists ds, q. split; [now right|exact Q2]. }
      split. { intros ds q [Q|Q] Q2; [injection Q as <- <-; contradiction|]. now apply (I4 ds q). }
      split. { intros t nm Q. destruct (I5 t nm Q); auto. }
      split; [exact I6|]. intros t nm (ds & q & o & key & [Q|Q] & Q1 & Q2); [injection Q as <- <-; contradiction|].
      apply (I7 t nm). exists ds, q, o, key. auto.
Qed.

Lemma find_main_in ps k p : find_main ps = Ok (k, p) -> In (k, p) ps /\ class_of p "SimulParams".
Proof.
  induction ps as [|[k' p'] ps IH]; cbn [find_main]; [discriminate|]. intros H. inv_bind H. destruct a.
  - injection H as <- <-. split; [now left|]. now apply (class_is_ok _ _ _ E).
  - destruct (IH H). split; [now right|assumption].
Qed.

(* 'input_list', when present, is the only input *)
Definition only_list (ps : params) : Prop :=
  forall k ins, param ps k "inputs" = Some (YDict ins) -> dget "input_list" ins <> None ->
  forall i, In i (map fst ins) -> i = "input_list".

Theorem targeted_spec ps targets dir rp ps' : wf_params ps -> ~ declared ps "data_source" ->
  build_targeted_replay ps targets dir = Ok (rp, ps') ->
  exists main, param ps main "class" = Some (YStr "SimulParams") /\
  declared rp main /\ (forall t, In t targets -> declared rp t) /\
  (declared rp "data_source" <-> exists ds, param ps ds "class" = Some (YStr "DataStore")) /\
  (forall k, declared rp k -> k <> "data_source" -> declared ps k /\
     (forall name, name <> "inputs" -> param rp k name = param ps k name) /\
     (k = main \/ forall i,
        input rp k i = input ps k i \/
        exists n v s o d key, input rp k i = Some (YStr ("data_source." ++ n)) /\
          input ps k i = Some v /\ ref_in v s /\ refers s o d /\ stored_by ps (o ++ "." ++ key) (Some n))) /\
  (forall k, declared rp k -> k <> "data_source" -> k <> main -> only_list ps -> self_contained rp k).
Proof.
  intros W Nd H. apply wf_params_iff in W as [W1 W2]. unfold build_targeted_replay in H. inv_bind H. destruct a as [main mp].
  inv_bind H. fold (source_step dir) in E0. destruct a as [rp0 m]. inv_bind H. destruct a as [ps1 rp1]. injection H as <- <-.
  cbn [fst snd] in *. destruct (find_main_in _ _ _ E) as [Fm Cm].
  destruct (source_fold dir ps W2 _ _ E0) as (S1 & S2 & S3 & S4 & S5 & S6 & S7). cbn [fst snd] in *.
  assert (Gm : dget main ps = Some mp) by (now apply PyLemmas.In_dget).
  assert (Nm : main <> "data_source") by (intros ->; apply Nd; now apply (in_map fst) in Fm).
  assert (I : inv ps m [main; "data_source"] [] (ps, rp0)).
  { split; cbn [fst snd]; [reflexivity|reflexivity|]. intros k Hk. right. left. apply dget_declared in Hk as [q Hq].
    destruct (string_dec k "data_source") as [->|N]; [right; now left|]. rewrite S1 in Hq by exact N. cbn in Hq.
    destruct (String.eqb_spec k main); [left; congruence|discriminate]. }
  destruct (targets_inv ps m [main; "data_source"] _ _ _ _ I E1) as (J1 & J2 & J3). cbn [fst snd] in *.
  assert (M0 : dget main rp0 = Some mp) by (rewrite S1 by exact Nm; cbn; now rewrite String.eqb_refl).
  assert (Dm : declared rp0 main) by (apply dget_declared; now exists mp).
  destruct (J2 main Dm) as (Dm1 & Gm1 & _). cbn [fst snd] in *.
  assert (Src : declared rp1 "data_source" <-> exists ds, param ps ds "class" = Some (YStr "DataStore")).
  { split.
    - intros Q. assert (Q0 : declared rp0 "data_source").
      { destruct (in_dec string_dec "data_source" (map fst rp0)) as [?|N]; [assumption|]. exfalso.
        assert (R : inv ps m [main] [] (ps, rp0)).
        { split; cbn [fst snd]; [reflexivity|reflexivity|]. intros k Hk. right. left. apply dget_declared in Hk as [q Hq].
          destruct (string_dec k "data_source") as [->|N']; [elim N; apply dget_declared; now exists q|].
          rewrite S1 in Hq by exact N'. cbn in Hq. destruct (String.eqb_spec k main); [left; congruence|discriminate]. }
        destruct (targets_inv ps m [main] _ _ _ _ R E1) as (R1 & _ & _). destruct (inv_done _ _ _ _ _ R1 _ Q) as [[]|[[A|[]]|A]]; [contradiction|].
        destruct A as (q & q' & it & nm & A & _). apply Nd. apply dget_declared. now exists q. }
      destruct (S3 Q0) as [[A|[]]|(ds & q & A & B)]; [cbn in A; contradiction|]. exists ds. unfold param.
      apply PyLemmas.In_dget in A; [|exact W1]. now rewrite A.
    - intros [ds Q]. unfold param in Q. destruct (dget ds ps) as [q|] eqn:Eq; [|discriminate].
      assert (Q0 : declared rp0 "data_source") by (apply (S4 ds q); [now apply dget_In|exact Q]). now apply (J2 _ Q0). }
  assert (Dn : forall k, declared rp1 k -> k <> "data_source" -> k <> main -> done ps m rp1 k).
  { intros k Hk N1 N2. destruct (inv_done _ _ _ _ _ J1 _ Hk) as [[]|[[A|[A|[]]]|A]]; [congruence|congruence|exact A]. }
  exists main. split; [unfold param; now rewrite Gm|]. split; [exact Dm1|]. split; [exact J3|]. split; [exact Src|]. split.
  - intros k Hk Ns. destruct (string_dec k main) as [->|Nk].
    + split; [now apply (in_map fst) in Fm|]. split; [|now left]. intros name _. unfold param. now rewrite Gm1, M0, Gm.
    + destruct (Dn k Hk Ns Nk) as (p & p' & items & names & A & B & C & D & F & G & K).
      split; [apply dget_declared; now exists p|]. split; [intros name N; unfold param; rewrite A, B; now apply C|].
      right. intros i. unfold input, param. rewrite A, B. fold (dget_in p' i). fold (dget_in p i).
      destruct (G i) as [[G1 G2]|(n & x & o & G1 & G2 & G3 & G4)]; [now left|]. right.
      apply split_v_ok in G3 as (s & -> & G3).
      assert (Wp := W2 k p (dget_In _ _ _ A)). 
      unfold iterate_inputs, inputs_items in D. unfold dget_in. destruct (dget "inputs" p) as [v|] eqn:Ei; [|injection D as <-; destruct G2].
      destruct v; try discriminate. cbn [bind] in D. destruct Wp as [_ Wp]. pose proof (Wp d (dget_In _ _ _ Ei)) as Wd.
      assert (Vi : exists v, dget i d = Some v /\ In (YStr s) (as_list v)).
      { destruct (dget "input_list" d) as [v|] eqn:El.
        - destruct v; try discriminate. injection D as <-. apply in_map_iff in G2 as (x & Q & Hx). injection Q as <- ->. exists (YList l). auto.
        - injection D as <-. apply in_flat_map in G2 as ([j v] & Q1 & Q2). apply in_map_iff in Q2 as (x & Q2 & Q3).
          cbn in Q2, Q3. injection Q2 as <- ->. exists v. split; [now apply PyLemmas.In_dget|exact Q3]. }
      destruct Vi as (v & Hv & Hs). apply ref_in_as_list in Hs.
      assert (St : stored_by ps (full_name o) (Some n)) by (destruct (S5 _ _ G4) as [Q|Q]; [discriminate|exact Q]).
      exists n, v, s, (o_obj o), (o_delay o), (match o_key o with Some k => k | None => "None" end).
      split; [exact G1|]. split; [exact Hv|]. split; [exact Hs|]. split; [|exact St].
      apply refers_iff. unfold output_owner, output_delay. now rewrite G3.
  - intros k Hk Ns Nk OL. destruct (Dn k Hk Ns Nk) as (p & p' & items & names & A & B & C & D & F & G & K).
    intros q Hq. assert (q = p') as -> by congruence. split.
    + intros nv r Hnv Hr. assert (Hp : In nv p).
      { destruct nv as [name v]. assert (name <> "inputs").
        { intros ->. inversion Hr; match goal with Q : (?b ++ _)%string = "inputs" |- _ => apply (f_equal (ends_with "_ref")) in Q; revert Q end;
          (match goal with |- ?x = _ -> _ => replace x with true end; [discriminate|]); symmetry; apply ends_with_iff.
          - now eexists.
          - exists (b ++ "_list")%string. now rewrite <- append_assoc_str.
          - exists (b ++ "_dict")%string. now rewrite <- append_assoc_str.
          - exists (b ++ "_dict")%string. now rewrite <- append_assoc_str. }
        destruct C as [C0 C]. specialize (C name H). apply dget_In. rewrite <- C. apply PyLemmas.In_dget; [|exact Hnv].
        rewrite C0. exact (proj1 (W2 k p (dget_In _ _ _ A))). }
      destruct (K _ (ref_names_spec p names nv r F Hp Hr)) as (s & Q & Hs). injection Q as <-. exact Hs.
    + intros i v s Hi Hs. unfold input, param in Hi. rewrite B in Hi. fold (dget_in p' i) in Hi.
      destruct (G i) as [[G1 G2]|(n & x & o & G1 & G2 & G3 & G4)].
      * right. rewrite G1 in Hi. assert (Hit : In (i, YStr s) items).
        { unfold iterate_inputs, inputs_items in D. unfold dget_in in Hi. destruct (dget "inputs" p) as [v0|] eqn:Ei; [|discriminate].
          destruct v0; try discriminate. cbn [bind] in D. destruct (dget "input_list" d) as [v1|] eqn:El.
          - assert (i = "input_list") as ->.
            { apply (OL k d); [unfold param; now rewrite A|congruence|]. apply dget_declared. now exists v. }
            rewrite El in Hi. injection Hi as ->. destruct v; try discriminate. injection D as <-. apply in_map_iff. exists (YStr s).
            split; [reflexivity|]. now apply ref_in_as_list in Hs.
          - injection D as <-. apply in_flat_map. exists (i, v). split; [now apply dget_In|]. apply in_map_iff. exists (YStr s).
            split; [reflexivity|]. now apply ref_in_as_list. }
        destruct (G2 _ Hit) as (o & Q1 & Q2 & Q3). exists (o_obj o), (o_delay o). split; [|exact Q3].
        apply refers_iff. cbn in Q1. unfold output_owner, output_delay. now rewrite Q1.
      * left. rewrite G1 in Hi. injection Hi as <-. split; [now exists n|].
        apply Src. destruct (S5 _ _ G4) as [Q|(ds & q & o' & key & Q1 & Q2 & _)]; [discriminate|]. exists ds. unfold param.
        apply PyLemmas.In_dget in Q1; [|exact W1]. now rewrite Q1.
Qed.

Lemma bind_fuel {A B} (r : res A) (k : A -> res B) : r <> Err OutOfFuel -> (forall a, r = Ok a -> k a <> Err OutOfFuel) ->
  bind r k <> Err OutOfFuel.
Proof. destruct r as [a|e]; cbn; intros H1 H2; [now apply H2|congruence]. Qed.
Lemma fold_fuel {A B} (F : B -> A -> res B) l s : (forall s x, F s x <> Err OutOfFuel) -> fold_res F s l <> Err OutOfFuel.
Proof. intros H Q. destruct (fold_err _ _ _ _ Q) as (l1 & x & l2 & s1 & _ & _ & Q2). now apply H in Q2. Qed.
Lemma class_is_fuel c p : class_is c p <> Err OutOfFuel.
Proof. unfold class_is. destruct (dget "class" p) as [v|]; [destruct v; discriminate|discriminate]. Qed.
Lemma store_refs_fuel p : store_refs p <> Err OutOfFuel.
Proof.
  unfold store_refs. apply bind_fuel; [apply iterate_fuel|]. intros items _. apply fold_fuel. intros [[outs objs] m] kx.
  apply bind_fuel; [apply split_v_fuel|]. intros o _. destruct (o_key o); discriminate.
Qed.
Lemma to_source_fuel p dir : data_store_to_data_source p dir <> Err OutOfFuel.
Proof.
  unfold data_store_to_data_source. apply bind_fuel.
  - destruct dir as [d|]; [destruct (d =? "")%string; [|discriminate]|]; destruct (dget "store_dir" p); discriminate.
  - intros v _. apply bind_fuel; [apply store_refs_fuel|]. intros [[outs objs] m] _. discriminate.
Qed.
Lemma find_main_fuel ps : find_main ps <> Err OutOfFuel.
Proof.
  induction ps as [|[k p] ps IH]; [discriminate|]. cbn [find_main]. apply bind_fuel; [apply class_is_fuel|].
  intros [] _; [discriminate|exact IH].
Qed.

Theorem targeted_total ps targets dir : wf_params ps -> build_targeted_replay ps targets dir <> Err OutOfFuel.
Proof.
  intros W. apply wf_params_iff in W as [W1 W2]. unfold build_targeted_replay.
  apply bind_fuel; [apply find_main_fuel|]. intros [main mp] Em. fold (source_step dir). apply bind_fuel.
  - apply fold_fuel. intros s kp. apply bind_fuel; [apply class_is_fuel|]. intros [] _; [|discriminate].
    apply bind_fuel; [apply to_source_fuel|]. intros [[src objs] m] _. discriminate.
  - intros [rp0 m] E0. apply bind_fuel; [|intros [? ?] _; discriminate]. cbn [fst snd].
    apply targets_fuel with (ps0 := ps) (base := [main; "data_source"]).
    + split; cbn [fst snd]; [reflexivity|reflexivity|]. intros k Hk. right. left. apply dget_declared in Hk as [q Hq].
      destruct (source_fold dir ps W2 _ _ E0) as (S1 & _). cbn [fst snd] in S1.
      destruct (string_dec k "data_source") as [->|N]; [right; now left|]. rewrite S1 in Hq by exact N. cbn in Hq.
      destruct (String.eqb_spec k main); [left; congruence|discriminate].
    + unfold missing. clear. generalize (fun k => negb (dmem k (snd (ps, rp0)))). intros f. rewrite <- (map_length fst ps).
      induction (map fst ps) as [|a l IH]; cbn; [lia|]. destruct (f a); cbn; lia.
Qed.
