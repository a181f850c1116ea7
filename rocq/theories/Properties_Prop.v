(* C82: light through layers. *)
From Coq Require Import List ZArith Bool Arith Lia Lqa QArith Qcanon Permutation.
From Verif Require Import PyBase PyLemmas Arith ArithLemmas FilterSpec SumLemmas OpticalModel ExtModel QcTac NpModel NpProofs FitsModel FitsSpec RebinModel RebinSpec RebinProofs CutSpec CutProofs VecModel SlopecModel SlopecSpec SlopecProofs ShProofs FieldModel FieldSpec FieldProofs InterpModel InterpSpec InterpProofs PropModel PropSpec PropProofs Properties_Filter Properties_Field Properties_Interp.
Import ListNotations.
Local Open Scope Qc_scope.

Section P.
Variables (n : nat) (airmass : Qc) (pos : option (Qc * Qc)) (chrom : layer -> Qc).
Hypothesis Hn : (2 <= n)%nat.
Hypothesis Hair : 0 < airmass.
Local Notation arrives := (arrives n airmass pos chrom).
Local Notation inside := (inside n airmass pos chrom).
Local Notation seen_by := (seen_by n airmass pos chrom).
Local Notation centred := (centred pos).

Lemma direct_centred s l : direct pos s l = true <-> centred s l.
Proof.
  unfold direct, PropSpec.centred. rewrite !andb_true_iff, orb_true_iff, andb_true_iff, !is0_true, negb_true_iff, is1_true, <- magnif_zoom. unfold inf.
  destruct (l_shift l) as [sx sy], pos as [p|], (s_height s) as [H|]; cbn [fst snd is_none]; split.
  all: try (intros H1; decompose [and or] H1; congruence || tauto || (repeat split; tauto || congruence)).
  all: intros (H1 & H2 & H3 & H4 & H5); try discriminate; injection H2 as -> ->; tauto.
Qed.
Lemma below_good s l : good s l -> below airmass s l = true.
Proof.
  intros (_ & _ & H0 & HH & _). unfold below. destruct (s_height s) as [H|]; [|qclra]. apply qlt_true.
  assert (P : 0 < (H - l_height l) * airmass). { rewrite <- (Qcmult_0_l airmass). apply Qcmult_lt_compat_r; qclra. }
  exact P.
Qed.
(* Setup accepts a layer when the centre is used or when the ray through the centre of the
   pupil arrives at least half a pupil away from the border. *)
Theorem C82_setup s l : good s l ->
  (centred s l -> layer_setup n airmass pos chrom s l = Ok None) /\
  (~ centred s l -> inside s l -> exists ip, layer_setup n airmass pos chrom s l = Ok (Some ip)) /\
  (~ centred s l -> ~ inside s l -> layer_setup n airmass pos chrom s l = Err ValueError).
Proof.
  intros G. unfold layer_setup. rewrite <- !direct_centred. destruct (interp_ok n airmass pos chrom s l Hn G) as [I1 I2].
  split; [intros ->; reflexivity|]. rewrite (below_good s l G). split; intros N J; (destruct (direct pos s l); [contradiction N; reflexivity|]).
  - destruct (I1 J) as (ip & -> & _). cbn [bind]. now exists ip.
  - now rewrite (I2 J).
Qed.
(* A layer above the source is rejected. *)
Theorem C82_above s l H : s_height s = Some H -> H <= l_height l -> ~ centred s l -> layer_setup n airmass pos chrom s l = Err ValueError.
Proof.
  intros E L N. unfold layer_setup. rewrite <- direct_centred in N. destruct (direct pos s l); [contradiction N; reflexivity|]. unfold below. rewrite E.
  destruct (qlt 0 _) eqn:T; [|reflexivity]. exfalso. assert (P : (H - l_height l) * airmass <= 0 * airmass) by (apply Qcmult_le_compat_r; qclra). qclra.
Qed.

(* Looking through the centre is looking along the rays, if the numbers of pixels of the
   layer and of the pupil are both even or both odd. *)
Theorem C82_centre s l f k a b : good s l -> centred s l -> chrom l = 0 -> side l = (n + 2 * k)%nat -> (a < n)%nat -> (b < n)%nat -> seen_by s l f a b = f (k + a)%nat (k + b)%nat.
Proof.
  intros (_ & Pz & H0 & HH & Ht) (Hc & Hs & Hp & Hr & Hz) Hch Hk Ha Hb. unfold PropSpec.seen_by, through. rewrite Hz, Hs, (Ht Hr). cbn [angle fst snd].
  assert (A : arrives s l = (0, 0)).
  { unfold PropSpec.arrives, PropSpec.place, arrival. rewrite Hp, Hch. cbn [fst snd]. unfold crossing. destruct Hc as [-> | [-> ->]]; [|f_equal; field; exact Pz].
    destruct (s_height s) as [H|]; f_equal; field; try exact Pz; (split; [exact Pz|apply Qc_pos_neq; qclra]) || (split; [apply Qc_pos_neq; qclra|exact Pz]). }
  rewrite A. cbn [fst snd]. assert (C : cone (s_height s) (l_height l) / 1 = 1).
  { unfold cone. destruct Hc as [-> | [-> _]]; [|reflexivity]. destruct (s_height s) as [H|]; [|reflexivity]. field. repeat split; try discriminate. apply Qc_pos_neq. qclra. }
  assert (S : forall u, spot n (side l) (s_height s) (l_height l) 1 0 0 u = qnat (k + u)).
  { intros u. unfold spot. rewrite C, Hk. unfold middle. rewrite !qnat_add. cbn [Nat.mul]. rewrite Nat.add_0_r, qnat_add. field. discriminate. }
  rewrite !S. cbv zeta. unfold seen. cbn [fst snd].
  replace ((qnat (k + b) - middle (side l)) / 1 * 0 + (qnat (k + a) - middle (side l)) / 1 * 1 + middle (side l) + 0) with (qnat (k + a)) by (field; discriminate).
  replace ((qnat (k + b) - middle (side l)) / 1 * 1 - (qnat (k + a) - middle (side l)) / 1 * 0 + middle (side l) + 0) with (qnat (k + b)) by (field; discriminate).
  rewrite !nearest_id; [apply C81_surface_pixel; lia| |]; (split; [change 0 with (qnat 0)|]; apply qnat_le; lia).
Qed.

(* ------------------------------------------------------------------------------ triggers *)
Definition acts (x : efield qc * option (interpolator qc)) (ga gp : nat -> nat -> Qc) : Prop :=
  forall out (amp ph : nat -> nat -> Qc), field (A:=qc) n n amp ph out -> exists o, prop_layer qc n out x = Ok o /\ ef_pitch qc o = ef_pitch qc out /\ ef_S0 qc o = ef_S0 qc out /\
    field (A:=qc) n n (fun a b => amp a b * ga a b) (fun a b => ph a b + gp a b) o.
Lemma acts_fold {X} (x : X -> efield qc * option (interpolator qc)) ga gp l : (forall y, In y l -> acts (x y) (ga y) (gp y)) ->
  forall out (amp ph : nat -> nat -> Qc), field (A:=qc) n n amp ph out -> exists o, fold_res (prop_layer qc n) out (map x l) = Ok o /\ ef_pitch qc o = ef_pitch qc out /\ ef_S0 qc o = ef_S0 qc out /\
    field (A:=qc) n n (fun a b => amp a b * prod_over (A:=qc) (fun y => ga y a b) l) (fun a b => ph a b + sum_over (A:=qc) (fun y => gp y a b) l) o.
Proof.
  induction l as [|y l IH]; intros H out amp ph F.
  - exists out. split; [reflexivity|]. split; [reflexivity|]. split; [reflexivity|]. destruct F as [Fa Fp].
    split; (eapply (image_ext (A:=qc)); [eassumption|]); intros a b _ _; cbn [prod_over sum_over]; qceq; ring.
  - destruct (H y (or_introl eq_refl) out amp ph F) as (o1 & E1 & P1 & S1 & F1). cbn [map fold_res]. rewrite E1. cbn [bind].
    destruct (IH (fun z Hz => H z (or_intror Hz)) o1 _ _ F1) as (o & E & P & S & Fa & Fp). exists o. split; [exact E|]. split; [congruence|]. split; [congruence|].
    split; (eapply (image_ext (A:=qc)); [eassumption|]); intros a b _ _; cbn [prod_over sum_over]; qceq; ring.
Qed.
(* a layer acceptable for the theorem on propagation *)
Definition fine (s : source) (l : layer) : Prop :=
  good s l /\ (inside s l /\ ~ centred s l \/ centred s l /\ chrom l = 0 /\ exists k, side l = (n + 2 * k)%nat).
Lemma acts_layer s l o e : good s l -> fine s l -> layer_setup n airmass pos chrom s l = Ok o -> sized e (side l) (side l) ->
  acts (e, option_map interpolate o) (seen_by s l (amp_at e)) (seen_by s l (ph_at e)).
Proof.
  intros G [_ [[I NC]|(C & Ch & k & Hk)]] E [Sa Sp].
  - destruct (interp_ok n airmass pos chrom s l Hn G) as [I1 _]. destruct (I1 I) as (ip & Eip & R). unfold layer_setup in E. rewrite <- direct_centred in NC.
    destruct (direct pos s l); [contradiction NC; reflexivity|]. rewrite (below_good s l G), Eip in E. cbn [bind] in E. injection E as <-. cbn [option_map].
    intros out amp ph [Fa Fp]. unfold prop_layer. cbn [fst snd]. destruct (R _ _ Sa) as (wa & Ea & Ia). destruct (R _ _ Sp) as (wp & Ep & Ip).
    change (interpolate ip (ef_A qc e)) with (interpolate ip (ef_A qc e)). rewrite Ea. cbn [bind]. rewrite (inplace2_image (A:=qc) mul n n amp _ _ _ Fa Ia). cbn [bind].
    rewrite Ep. cbn [bind]. rewrite (inplace2_image (A:=qc) add n n ph _ _ _ Fp Ip). cbn [bind]. eexists. split; [reflexivity|]. split; [reflexivity|]. split; [reflexivity|].
    split; apply (tab_image (A:=qc)).
  - destruct (C82_setup s l G) as [E0 _]. rewrite (E0 C) in E. injection E as <-. cbn [option_map]. intros out amp ph [Fa Fp]. unfold prop_layer. cbn [fst snd]. unfold ef_rows, ef_cols.
    rewrite (image_r _ _ _ _ Sa), (image_c _ _ _ _ Sa). replace ((Z.of_nat (side l) - Z.of_nat n) / 2)%Z with (Z.of_nat k) by (rewrite Hk; apply Z.div_unique with (r := 0%Z); lia).
    rewrite (product_ok (A:=qc) out e n n (side l) (side l) k k amp ph _ _ (conj Fa Fp) (conj Sa Sp)) by lia. eexists. split; [reflexivity|]. split; [reflexivity|]. split; [reflexivity|].
    split; (eapply (image_ext (A:=qc)); [apply (tab_image (A:=qc))|]); intros a b Ha Hb; cbv beta; now rewrite (C82_centre s l _ k a b G C Ch Hk Ha Hb).
Qed.
(* contents for the layers: fields of the same sizes *)
Definition contents (ls : list layer) (es : list (efield qc)) : Prop := Forall2 (fun l e => sized e (side l) (side l)) ls es.
Definition lit_through (s : source) (ls : list layer) (es : list (efield qc)) (o : efield qc) : Prop :=
  field (A:=qc) n n (fun a b => prod_over (A:=qc) (fun le => seen_by s (fst le) (amp_at (A:=qc) (snd le)) a b) (List.combine ls es))
                    (fun a b => sum_over (A:=qc) (fun le => seen_by s (fst le) (ph_at (A:=qc) (snd le)) a b) (List.combine ls es)) o.
Lemma setup_fine s l : fine s l -> exists o, layer_setup n airmass pos chrom s l = Ok o.
Proof.
  intros [G D]. destruct (C82_setup s l G) as (S1 & S2 & _). destruct D as [[I NC]|(C & _)].
  - destruct (S2 NC I) as (ip & E). eauto.
  - eexists. exact (S1 C).
Qed.
Lemma setups_fine s ls : (forall l, In l ls -> fine s l) -> exists ips, map_res (layer_setup n airmass pos chrom s) ls = Ok ips /\ Forall2 (fun l o => layer_setup n airmass pos chrom s l = Ok o) ls ips.
Proof.
  induction ls as [|l ls IH]; intros H; [exists []; split; [reflexivity|constructor]|]. destruct (setup_fine s l (H l (or_introl eq_refl))) as (o & E). destruct (IH (fun x Hx => H x (or_intror Hx))) as (ips & E2 & F).
  exists (o :: ips). cbn [map_res]. rewrite E. cbn [bind]. rewrite E2. split; [reflexivity|]. now constructor.
Qed.
Lemma combine_app3 {X Y} (a b : list X) (c d : list Y) : length a = length c -> List.combine (a ++ b) (c ++ d) = List.combine a c ++ List.combine b d.
Proof. revert c. induction a as [|x a IH]; intros [|y c] H; cbn in *; try discriminate; [reflexivity|]. f_equal. apply IH. lia. Qed.
Lemma Forall2_length' {X Y} (R : X -> Y -> Prop) l m : Forall2 R l m -> length l = length m.
Proof. induction 1; cbn; congruence. Qed.
Lemma round_ok upwards s common atmo ips ec ea out : (forall l, In l (common ++ atmo) -> fine s l) ->
  Forall2 (fun l o => layer_setup n airmass pos chrom s l = Ok o) (common ++ atmo) ips -> contents common ec -> contents atmo ea -> sized out n n ->
  exists o, prop_round n upwards ips out (ec, ea) = Ok o /\ ef_pitch qc o = ef_pitch qc out /\ ef_S0 qc o = ef_S0 qc out /\ lit_through s (common ++ atmo) (ec ++ ea) o.
Proof.
  intros Hf Hs Cc Ca So. unfold prop_round, prop_trigger. cbn [fst snd].
  assert (Lc : length common = length ec) by exact (Forall2_length' _ _ _ Cc). assert (Li := Forall2_length' _ _ _ Hs). rewrite app_length in Li.
  assert (La : length atmo = length ea) by exact (Forall2_length' _ _ _ Ca).
  set (fs := map (option_map interpolate) ips).
  assert (E1 : List.combine ec (map (option_map interpolate) (firstn (length ec) ips)) ++ List.combine ea (map (option_map interpolate) (skipn (length ec) ips)) = List.combine (ec ++ ea) fs).
  { unfold fs. rewrite <- (firstn_skipn (length ec) ips) at 3. rewrite map_app, combine_app3; [reflexivity|]. rewrite map_length, firstn_length. lia. }
  (* triples *)
  set (trip := List.combine (List.combine (common ++ atmo) (ec ++ ea)) ips).
  assert (E2 : List.combine (ec ++ ea) fs = map (fun t => (snd (fst t), option_map interpolate (snd t))) trip).
  { unfold trip, fs. assert (L : length (common ++ atmo) = length (ec ++ ea)) by (rewrite !app_length; lia). revert L. generalize (common ++ atmo) (ec ++ ea). clear. intros ls es L. revert ls ips L.
    induction es as [|e es IH]; intros [|l ls] [|i ips] L; cbn in *; try discriminate; try reflexivity. f_equal. apply IH. lia. }
  assert (E3 : map fst trip = List.combine (common ++ atmo) (ec ++ ea)).
  { unfold trip. assert (L : length (List.combine (common ++ atmo) (ec ++ ea)) = length ips) by (rewrite combine_length, !app_length; lia). revert L. generalize (List.combine (common ++ atmo) (ec ++ ea)). clear. intros cs L. revert ips L.
    induction cs as [|c cs IH]; intros [|i ips] L; cbn in *; try discriminate; try reflexivity. f_equal. apply IH. lia. }
  assert (T : forall t, In t trip -> fine s (fst (fst t)) /\ layer_setup n airmass pos chrom s (fst (fst t)) = Ok (snd t) /\ sized (snd (fst t)) (side (fst (fst t))) (side (fst (fst t)))).
  { assert (C : contents (common ++ atmo) (ec ++ ea)) by now apply Forall2_app. unfold trip. clear - Hf Hs C. revert Hf Hs C. generalize (common ++ atmo) (ec ++ ea). intros ls es Hf Hs C. revert es C.
    induction Hs as [|l i ls ips E Hs IH]; intros es C; inversion C; subst; cbn [List.combine]; [intros t []|]. intros t [<-|Ht]; cbn [fst snd]; [split; [apply Hf; now left|now split]|].
    eapply IH; [intros; apply Hf; now right|eassumption|exact Ht]. }
  pose (h := fun t : layer * efield qc * option interp => (snd (fst t), option_map interpolate (snd t)) : efield qc * option (interpolator qc)).
  match goal with |- context [if upwards then ?X else rev ?X] => assert (EX : X = map h trip) by (etransitivity; [exact E1|exact E2]); rewrite EX end.
  assert (R : (if upwards then map h trip else rev (map h trip))
     = map h (if upwards then trip else rev trip)) by (destruct upwards; [reflexivity|now rewrite map_rev]). rewrite R.
  destruct (C79_reset (A:=qc) qc_field out n n So) as (F0 & P0 & S0).
  destruct (acts_fold h (fun t => seen_by s (fst (fst t)) (amp_at (A:=qc) (snd (fst t)))) (fun t => seen_by s (fst (fst t)) (ph_at (A:=qc) (snd (fst t)))) (if upwards then trip else rev trip)) with (out := ef_reset qc out) (amp := fun _ _ : nat => 1) (ph := fun _ _ : nat => 0) as (o & Eo & Po & S1 & Fa & Fp).
  { intros t Ht. assert (Ht' : In t trip) by (destruct upwards; [exact Ht|now apply in_rev]). destruct (T t Ht') as (T1 & T2 & T3). exact (acts_layer s _ _ _ (proj1 T1) T1 T2 T3). }
  { exact F0. }
  exists o. split; [exact Eo|]. split; [congruence|]. split; [congruence|].
  assert (Pm : Permutation (if upwards then trip else rev trip) trip) by (destruct upwards; [reflexivity|symmetry; apply Permutation_rev]).
  assert (Mp : forall {Y Z} (g : Z -> Qc) (h : Y -> Z) l, prod_over (A:=qc) (fun y => g (h y)) l = prod_over (A:=qc) g (map h l)) by (intros Y Z g h0 l; induction l; cbn [prod_over map]; congruence).
  assert (Ms : forall {Y Z} (g : Z -> Qc) (h : Y -> Z) l, sum_over (A:=qc) (fun y => g (h y)) l = sum_over (A:=qc) g (map h l)) by (intros Y Z g h0 l; induction l; cbn [sum_over map]; congruence).
  split; (eapply (image_ext (A:=qc)); [eassumption|]); intros a b _ _.
  - cbv beta. rewrite (prod_over_perm (A:=qc) qc_field _ _ _ Pm). rewrite (Mp _ _ (fun le => seen_by s (fst le) (amp_at (A:=qc) (snd le)) a b) fst). rewrite E3. qceq. ring.
  - cbv beta. rewrite (sum_over_perm (A:=qc) qc_field _ _ _ Pm). rewrite (Ms _ _ (fun le => seen_by s (fst le) (ph_at (A:=qc) (snd le)) a b) fst). rewrite E3. qceq. ring.
Qed.
(* After any triggers, upwards or downwards: the amplitude is the product, and the phase the
   sum, of what is seen through the layers with their last contents. *)
Theorem C82_propagate upwards pitch S0 s common atmo hist ec ea : common ++ atmo <> [] -> (forall l, In l (common ++ atmo) -> fine s l) ->
  (forall r, In r (hist ++ [(ec, ea)]) -> contents common (fst r) /\ contents atmo (snd r)) ->
  exists o, propagate n airmass pos chrom upwards pitch S0 s common atmo (hist ++ [(ec, ea)]) = Ok o /\ ef_pitch qc o = pitch /\ ef_S0 qc o = S0 /\
    lit_through s (common ++ atmo) (ec ++ ea) o.
Proof.
  intros Ne Hf Hc. unfold propagate, prop_setup. replace (Nat.eqb n 0) with false by (symmetry; apply Nat.eqb_neq; lia).
  unfold new_ef. replace ((Z.of_nat n <? 0) || (Z.of_nat n <? 0))%Z with false by (symmetry; apply orb_false_iff; split; apply Z.ltb_ge; lia). cbn [bind].
  replace (Nat.eqb (length atmo + length common) 0) with false by (symmetry; apply Nat.eqb_neq; destruct common, atmo; cbn in *; try lia; congruence).
  destruct (setups_fine s (common ++ atmo) Hf) as (ips & Ei & Fi). rewrite Ei. cbn [bind fst snd]. rewrite !Nat2Z.id.
  set (o0 := mkEF qc _ _ _ _). assert (S : sized o0 n n) by (apply (sized_of (A:=qc) n n (fun _ _ => 1) (fun _ _ => 0) o0); split; apply (tab_image (A:=qc))).
  assert (P0 : ef_pitch qc o0 = pitch) by reflexivity. assert (Q0 : ef_S0 qc o0 = S0) by reflexivity. clearbody o0. revert o0 S P0 Q0 Hc.
  induction hist as [|[hc ha] hist IH]; intros o0 So P0 Q0 Hc.
  - destruct (Hc (ec, ea)) as [Cc Ca]; [now left|]. destruct (round_ok upwards s common atmo ips ec ea o0 Hf Fi Cc Ca So) as (o & E & P & S & T). cbn [app fold_res]. rewrite E. cbn [bind].
    exists o. split; [reflexivity|]. split; [congruence|]. split; [congruence|exact T].
  - destruct (Hc (hc, ha)) as [Cc Ca]; [now left|]. destruct (round_ok upwards s common atmo ips hc ha o0 Hf Fi Cc Ca So) as (o & E & P & S & T). cbn [app fold_res]. rewrite E. cbn [bind].
    apply IH; [exact (sized_of (A:=qc) n n _ _ o T)|congruence|congruence|]. intros r Hr. apply Hc. now right.
Qed.
(* The result does not depend on the direction, the past, or which layers are common. *)
Theorem C82_order up1 up2 pitch S0 s common atmo common' atmo' h1 h2 ec ea ec' ea' o o' :
  common ++ atmo <> [] -> (forall l, In l (common ++ atmo) -> fine s l) ->
  (forall r, In r (h1 ++ [(ec, ea)]) -> contents common (fst r) /\ contents atmo (snd r)) ->
  (forall r, In r (h2 ++ [(ec', ea')]) -> contents common' (fst r) /\ contents atmo' (snd r)) ->
  Permutation (List.combine (common ++ atmo) (ec ++ ea)) (List.combine (common' ++ atmo') (ec' ++ ea')) ->
  propagate n airmass pos chrom up1 pitch S0 s common atmo (h1 ++ [(ec, ea)]) = Ok o ->
  propagate n airmass pos chrom up2 pitch S0 s common' atmo' (h2 ++ [(ec', ea')]) = Ok o' -> o = o'.
Proof.
  intros Ne Hf C1 C2 Pm E1 E2.
  assert (L1 : length (common ++ atmo) = length (ec ++ ea)) by (destruct (C1 (ec, ea)) as [X Y]; [apply in_or_app; right; now left|]; apply (Forall2_length' _ _ _ (Forall2_app X Y))).
  assert (L2 : length (common' ++ atmo') = length (ec' ++ ea')) by (destruct (C2 (ec', ea')) as [X Y]; [apply in_or_app; right; now left|]; apply (Forall2_length' _ _ _ (Forall2_app X Y))).
  assert (PL : Permutation (common ++ atmo) (common' ++ atmo')).
  { assert (F : forall (X Y : Type) (a : list X) (b : list Y), length a = length b -> map fst (List.combine a b) = a). { intros X Y a. induction a as [|x a IH]; intros [|y b] H; cbn in *; try discriminate; [reflexivity|]. f_equal. apply IH. lia. }
    rewrite <- (F _ _ _ _ L1), <- (F _ _ _ _ L2). now apply Permutation_map. }
  destruct (C82_propagate up1 pitch S0 s common atmo h1 ec ea Ne Hf C1) as (o1 & X1 & P1 & S1 & T1). rewrite X1 in E1. injection E1 as <-.
  destruct (C82_propagate up2 pitch S0 s common' atmo' h2 ec' ea') as (o2 & X2 & P2 & S2 & T2); [|intros l Hl; apply Hf; exact (Permutation_in _ (Permutation_sym PL) Hl)|exact C2|].
  { intros Z. rewrite Z in PL. apply Permutation_sym, Permutation_nil in PL. contradiction. }
  rewrite X2 in E2. injection E2 as <-. destruct T1 as [A1 F1], T2 as [A2 F2].
  destruct o1 as [a1 f1 p1 s1], o2 as [a2 f2 p2 s2]. cbn [ef_A ef_ph ef_pitch ef_S0] in *. f_equal; try congruence.
  - eapply (image_eq (A:=qc)); [exact A1|]. eapply (image_ext (A:=qc)); [exact A2|]. intros a b _ _. cbv beta. symmetry. now apply (prod_over_perm (A:=qc) qc_field).
  - eapply (image_eq (A:=qc)); [exact F1|]. eapply (image_ext (A:=qc)); [exact F2|]. intros a b _ _. cbv beta. symmetry. now apply (sum_over_perm (A:=qc) qc_field).
Qed.

(* Without shift, rotation or magnification, what is seen is the layer where the ray to each
   pixel of the pupil crosses it, and the ray is inside the layer. *)
Theorem C82_rays s l f a b : good s l -> inside s l -> chrom l = 0 -> l_shift l = (0, 0) -> l_turned l = false -> zoom (l_mag l) = 1 -> (pos = None \/ n < side l)%nat -> (a < n)%nat -> (b < n)%nat ->
  let pitch := ef_pitch qc (l_ef l) in let P := match pos with Some p => p | None => (0, 0) end in
  let at_ theta p k := ray n (side l) pitch airmass (s_height s) theta (l_height l) p k in
  let y := at_ (s_r s * snd (s_dir s)) (snd P) a in let x := at_ (s_r s * fst (s_dir s)) (fst P) b in
  seen_by s l f a b = surface (side l) (side l) f y x /\ within (side l) y /\ within (side l) x.
Proof.
  intros (Sz & Pz & H0 & HH & Ht) [Ix Iy] Hch Hs Hr Hz Hp Ha Hb pitch P at_ y x.
  assert (HP : PropSpec.place n pos l = P). { unfold PropSpec.place, P. destruct pos as [p|]; [|reflexivity]. destruct Hp as [Hp|Hp]; [discriminate|]. now replace (n <? side l)%nat with true by (symmetry; now apply Nat.ltb_lt). }
  set (K := cone (s_height s) (l_height l)). assert (K0 : 0 <= K /\ K <= 1).
  { unfold K, cone. destruct (s_height s) as [H|]; [|split; vm_compute; discriminate]. assert (Hp' : 0 < H) by qclra.
    assert (Q : 0 <= l_height l / H /\ l_height l / H <= 1). { split; [apply Qc_div_nonneg|apply Qc_div_le1]; qclra. } destruct Q. split; qclra. }
  assert (SY : forall theta p k, spot n (side l) (s_height s) (l_height l) 1 0 (arrival airmass (s_height s) theta (l_height l) p 0 pitch) k = at_ theta p k).
  { intros theta p k. unfold at_, ray, pixels, spot, arrival, metres, crossing, cone. destruct (s_height s) as [H|]; field; repeat split; try exact Pz; try discriminate; apply Qc_pos_neq; qclra. }
  assert (W : forall theta p k, (k < n)%nat -> at_most (arrival airmass (s_height s) theta (l_height l) p 0 pitch) ((qnat (side l) - qnat n) / (1 + 1)) -> within (side l) (at_ theta p k)).
  { intros theta p k Hk M. rewrite <- SY. set (r := arrival _ _ _ _ _ _ _) in *. unfold spot. fold K. destruct M as [M1 M2]. rewrite div2 in M1, M2. unfold within.
    assert (Ns : (n <= side l)%nat).
    { destruct (Nat.le_gt_cases n (side l)) as [L|L]; [exact L|]. exfalso. apply qnat_lt in L. qclra. }
    rewrite qnat_sub by lia. change (qnat 1) with 1. unfold middle. rewrite !div2. replace (K / 1) with K by (field; discriminate).
    (* |k - middle| * K <= (n - 1)/2 *)
    assert (B : -(qnat n * Q2Qc (1 # 2) - Q2Qc (1 # 2)) <= (qnat k - (qnat n - 1) * Q2Qc (1 # 2)) * K /\ (qnat k - (qnat n - 1) * Q2Qc (1 # 2)) * K <= qnat n * Q2Qc (1 # 2) - Q2Qc (1 # 2)).
    { assert (Kk := qnat_le (S k) n Hk). rewrite qnat_S in Kk. assert (K1 := qnat_le 0 k ltac:(lia)). change (qnat 0) with 0 in K1. set (t := qnat k - (qnat n - 1) * Q2Qc (1 # 2)) in *.
      assert (T : at_most t (qnat n * Q2Qc (1 # 2) - Q2Qc (1 # 2))) by (unfold at_most, t; split; qclra). revert T. generalize (qnat n * Q2Qc (1 # 2) - Q2Qc (1 # 2)). clearbody t. clear - K0. intros u [T1 T2]. destruct K0 as [K0 K1].
      assert (U : 0 <= u) by qclra. assert (X1 : t * K <= u * K) by (now apply Qcmult_le_compat_r). assert (X2 : (- u) * K <= t * K) by (now apply Qcmult_le_compat_r).
      assert (X3 : K * u <= 1 * u) by (now apply Qcmult_le_compat_r). assert (X4 : (- u) * K = - (K * u)) by ring. assert (X5 : u * K = K * u) by ring. rewrite X4 in X2. rewrite X5 in X1.
      split; [|qclra]. qclra. }
    destruct B as [B1 B2]. split; qclra. }
  assert (AX : fst (arrives s l) = arrival airmass (s_height s) (s_r s * fst (s_dir s)) (l_height l) (fst P) 0 pitch) by (unfold PropSpec.arrives; rewrite HP; reflexivity).
  assert (AY : snd (arrives s l) = arrival airmass (s_height s) (s_r s * snd (s_dir s)) (l_height l) (snd P) 0 pitch) by (unfold PropSpec.arrives; rewrite HP, Hch; reflexivity).
  rewrite AX in Ix. rewrite AY in Iy. assert (Wy : within (side l) y) by (now apply W). assert (Wx : within (side l) x) by (now apply W).
  split; [|now split]. unfold PropSpec.seen_by, through. rewrite Hz, Hs, (Ht Hr), AX, AY. cbn [angle fst snd]. rewrite !SY. cbv zeta. unfold seen. cbn [fst snd]. fold y x.
  replace ((x - middle (side l)) / 1 * 0 + (y - middle (side l)) / 1 * 1 + middle (side l) + 0) with y by (field; discriminate).
  replace ((x - middle (side l)) / 1 * 1 - (y - middle (side l)) / 1 * 0 + middle (side l) + 0) with x by (field; discriminate).
  now rewrite !nearest_id.
Qed.
End P.

(* With mergeLayersContrib=False a trigger always fails. *)
Theorem C82_separate {A : arith} upwards size (outs : list (efield A)) common atmo : exists e, prop_separate A upwards size outs common atmo = Err e.
Proof. unfold prop_separate. destruct (prop_each _ _ _ _ _) as [o|e]; cbn; eauto. Qed.

Definition sky4 : efield qc := mkEF qc (img [[1; 1; 1; 1]; [1; 1; 1; 1]; [1; 1; 1; 1]; [1; 1; 1; 1]]%Z) (img [[0; 1; 2; 3]; [10; 11; 12; 13]; [20; 21; 22; 23]; [30; 31; 32; 33]]%Z) (qi 1) (qi 1).
Definition stop2 : efield qc := mkEF qc (img [[1; 0]; [1; 1]]%Z) (img [[0; 0]; [0; 5]]%Z) (qi 1) (qi 1).
Definition plain (e : efield qc) (h : Qc) : layer := mkLayer e h (0, 0) false None 1.
Definition star : source := mkSource None 0 (1, 0).
(* a source at infinity, and one at height 4, seen 1/2 pixel per unit of height away along x *)
Definition away : source := mkSource None (qf 1 2) (1, 0).
Definition near : source := mkSource (Some (qi 4)) 0 (1, 0).
Definition no_chrom : layer -> Qc := fun _ => 0.
Definition run s common atmo := propagate 2 1 None no_chrom false (qi 1) (qi 7) s common atmo [(map l_ef common, map l_ef atmo)].
Example C82_example :
  see_ef (run star [plain stop2 0] [plain sky4 (qi 1)]) = Ok ([[1; 0]; [1; 1]]%Q, [[11; 12]; [21; 27]]%Q, 1%Q, 7%Q) /\
  see_ef (run away [plain stop2 0] [plain sky4 (qi 1); plain sky4 (qi 2)]) = Ok ([[1; 0]; [1; 1]]%Q, [[47 # 2; 51 # 2]; [87 # 2; 101 # 2]]%Q, 1%Q, 7%Q) /\
  see_ef (run near [plain stop2 0] [plain sky4 (qi 2)]) = Ok ([[1; 0]; [1; 1]]%Q, [[55 # 4; 57 # 4]; [75 # 4; 97 # 4]]%Q, 1%Q, 7%Q) /\
  see_ef (run away [plain stop2 0] [plain sky4 (qi 3)]) = Err ValueError /\ see_ef (run near [] [plain sky4 (qi 4)]) = Err ValueError /\ see_ef (run star [] []) = Err ValueError.
Proof. repeat (split; [vm_compute; reflexivity|]). vm_compute. reflexivity. Qed.
(* the hypotheses of the theorem on these layers *)
Lemma good_plain s e L h : sized e L L -> ef_pitch qc e <> 0 -> 0 <= h -> (match s_height s with None => True | Some H => h < H end) -> good s (plain e h).
Proof. intros S P H0 HH. assert (X : side (plain e h) = L) by exact (sized_rows (A:=qc) e L L S). unfold good. rewrite X. cbn. auto. Qed.
Ltac size_tac := split; (split; [reflexivity|]; split; [reflexivity|]; split; [intros x Hx; cbn in Hx; decompose [or] Hx; subst; try reflexivity; contradiction|reflexivity]).
Example C82_fine : fine 2 1 None no_chrom star (plain stop2 0) /\ fine 2 1 None no_chrom away (plain sky4 (qi 2)).
Proof.
  split.
  - split; [apply (good_plain star stop2 2); [size_tac|discriminate|vm_compute; discriminate|exact I]|]. right. split; [|split; [reflexivity|exists 0%nat; reflexivity]].
    split; [now left|]. repeat split.
  - split; [apply (good_plain away sky4 4); [size_tac|discriminate|vm_compute; discriminate|exact I]|]. left. split; [split; split; vm_compute; discriminate|].
    intros ([H|[_ H]] & _); vm_compute in H; discriminate.
Qed.

(* Claim: an on-axis star is displaced by the chromatic shift of a high layer. *)
Theorem C82_chromatic_refuted : exists chrom l v, chrom l = ef_pitch qc (l_ef l) /\ l_height l = 1 /\ arrives 2 1 None chrom star l <> (0, 0) /\
  see_ef (propagate 2 1 None chrom false (qi 1) (qi 7) star [] [l] [([], [l_ef l])]) = Ok v /\ see_ef (run star [] [l]) = Ok v.
Proof. exists (fun _ => 1), (plain sky4 1). eexists. split; [reflexivity|]. split; [reflexivity|]. split; [vm_compute; discriminate|]. split; vm_compute; reflexivity. Qed.
Definition sky3 : efield qc := mkEF qc (img [[1; 1; 1]; [1; 1; 1]; [1; 1; 1]]%Z) (img [[0; 1; 2]; [10; 11; 12]; [20; 21; 22]]%Z) (qi 1) (qi 1).
Definition pixel (r : res (efield qc)) (a b : nat) : option Q := match r with Ok o => Some (this (ph_at (A:=qc) o a b)) | Err _ => None end.
(* Claim: on axis the centre of the layer is seen, whatever the numbers of pixels. *)
Theorem C82_parity_refuted : exists l, good star l /\ pixel (run star [] [l]) 0 0 = Some 0%Q /\ seen_by 2 1 None no_chrom star l (ph_at (A:=qc) (l_ef l)) 0 0 = qf 11 2.
Proof.
  exists (plain sky3 1). split; [apply (good_plain star sky3 3); [size_tac|discriminate|vm_compute; discriminate|exact I]|]. split; [vm_compute; reflexivity|]. qceq. vm_compute. reflexivity.
Qed.
(* Claim: a layer accepted at setup covers the whole pupil. *)
Theorem C82_shift_refuted : exists l ip, good star l /\ layer_setup 2 1 None no_chrom star l = Ok (Some ip) /\
  (spot 2 (side l) (s_height star) (l_height l) 1 (fst (l_shift l)) (fst (arrives 2 1 None no_chrom star l)) 0 < 0) /\
  (spot 2 (side l) (s_height star) (l_height l) 1 (fst (l_shift l)) (fst (arrives 2 1 None no_chrom star l)) 1 < 0).
Proof.
  exists (mkLayer sky4 1 (qi 9, 0) false None 1). eexists. split.
  { split; [change (sized sky4 4 4); size_tac|]. split; [discriminate|]. split; [vm_compute; discriminate|]. split; [exact I|]. reflexivity. }
  split; [vm_compute; reflexivity|]. split; vm_compute; reflexivity.
Qed.
(* Claim: a layer smaller than the pupil is rejected. *)
Theorem C82_small_refuted : exists l, side l = 2%nat /\ see_ef (propagate 3 1 None no_chrom false (qi 1) (qi 7) star [l] [] [([l_ef l], [])]) = Ok ([[1; 1; 1]; [1; 1; 1]; [1; 1; 1]]%Q, [[5; 5; 5]; [5; 5; 5]; [5; 5; 5]]%Q, 1%Q, 7%Q).
Proof. exists (plain stop2 0). split; [reflexivity|]. vm_compute. reflexivity. Qed.
Definition wide4 : efield qc := mkEF qc (img [[1; 1; 1; 1]; [1; 1; 1; 1]]%Z) (img [[4; 1; 1; 4]; [4; 1; 1; 4]]%Z) (qi 1) (qi 1).
(* Claim: on axis, a layer symmetric from left to right is seen symmetric. *)
Theorem C82_rectangle_refuted : exists l, (forall i j, (i < 2)%nat -> (j < 4)%nat -> ph_at (A:=qc) (l_ef l) i (3 - j) = ph_at (A:=qc) (l_ef l) i j) /\
  pixel (run near [] [l]) 0 0 = Some (29 # 8)%Q /\ pixel (run near [] [l]) 0 1 = Some (11 # 8)%Q.
Proof.
  exists (plain wide4 1). split.
  - intros i j Hi Hj. do 2 (destruct i as [|i]; [do 4 (destruct j as [|j]; [reflexivity|]); lia|]). lia.
  - split; vm_compute; reflexivity.
Qed.

Print Assumptions C82_setup.
Print Assumptions C82_above.
Print Assumptions C82_centre.
Print Assumptions C82_propagate.
Print Assumptions C82_order.
Print Assumptions C82_rays.
Print Assumptions C82_separate.
Print Assumptions C82_chromatic_refuted.
Print Assumptions C82_parity_refuted.
Print Assumptions C82_shift_refuted.
Print Assumptions C82_small_refuted.
Print Assumptions C82_rectangle_refuted.
