(* C86: resampling of electric fields with extrapolation of the phase *)
From Coq Require Import List ZArith Bool Arith Lia QArith Qcanon.
From Verif Require Import PyBase PyLemmas Arith FilterSpec OpticalModel ExtModel NpModel FitsModel RebinModel RebinProofs CutModel CutSpec CutProofs VecModel SlopecModel SlopecSpec SumLemmas QcTac
  FieldModel FieldSpec FieldProofs InterpModel InterpSpec InterpProofs ExtrapModel ExtrapSpec ExtrapEdge ExtrapProofs Properties_Filter Properties_Field Properties_Interp.
Import ListNotations.
Local Open Scope Qc_scope.

(* the pixels of the pupil, and the phase there *)
Definition pupil_is (e : efield qc) (n : nat) (thr : Qc) (P : Z * Z -> bool) : Prop :=
  forall y x, P (y, x) = true <-> (0 <= y < Z.of_nat n)%Z /\ (0 <= x < Z.of_nat n)%Z /\ thr <= amp_at e (Z.to_nat y) (Z.to_nat x).
Definition phase_is (e : efield qc) (P : Z * Z -> bool) (f : Z * Z -> Qc) : Prop :=
  forall y x, P (y, x) = true -> f (y, x) = ph_at e (Z.to_nat y) (Z.to_nat x).
(* something is asked for *)
Definition changed (n m : nat) (rot : option (Qc * Qc)) (x y mag : Qc) : Prop := n <> m \/ rot <> None \/ x <> 0 \/ y <> 0 \/ mag <> 1.
(* the point of the input seen at a pixel of the output: the angle is opposite, the first shift
   goes down, and the grid of m points covers n - 1 pixels *)
Definition opposite (rot : option (Qc * Qc)) : Qc * Qc := match rot with Some p => (fst p, - snd p) | None => (1, 0) end.
Definition where_from (n m : nat) (rot : option (Qc * Qc)) (x y mag : Qc) (a b : nat) : Qc * Qc :=
  let p := seen n n (opposite rot) mag x y (qnat a * (qnat (n - 1) / qnat m)) (qnat b * (qnat (n - 1) / qnat m)) in
  (nearest n (fst p), nearest n (snd p)).
Definition nearly (v k : Qc) : Prop := - Q2Qc (1 # 1000) < v - k /\ v - k < Q2Qc (1 # 1000).
Definition two_valued (e : efield qc) (n : nat) : Prop := forall i j, (i < n)%nat -> (j < n)%nat -> nearly (amp_at e i j) 0 \/ nearly (amp_at e i j) 1.
Definition bit (v : Qc) : Qc := if Qclt_le_dec half v then 1 else 0.

Lemma sized_A e r c : sized e r c -> a_r (ef_A qc e) = r /\ a_c (ef_A qc e) = c /\ a_r (ef_ph qc e) = r /\ a_c (ef_ph qc e) = c.
Proof. intros [(A1 & A2 & _) (B1 & B2 & _)]. auto. Qed.
Lemma pupil_lit e n thr P : sized e n n -> pupil_is e n thr P -> forall q, P q = pupil_of thr (ef_A qc e) q.
Proof.
  intros Hs HP [y x]. destruct (sized_A _ _ _ Hs) as (A1 & A2 & _). unfold pupil_of, lit. cbn [fst snd].
  change (@a_r (car qc)) with (@a_r Qc) in A1. change (@a_c (car qc)) with (@a_c Qc) in A2. rewrite A1, A2. apply Bool.eq_iff_eq_true. rewrite (HP y x), !andb_true_iff, negb_true_iff.
  assert (Q : qlt (ent qc (ef_A qc e) (Z.to_nat y) (Z.to_nat x)) thr = false <-> thr <= amp_at e (Z.to_nat y) (Z.to_nat x)) by (rewrite qlt_false; reflexivity).
  rewrite Q, !Z.leb_le, !Z.ltb_lt. tauto.
Qed.
Lemma close_nearly v k : close v k = true <-> nearly v k.
Proof.
  unfold close, nearly. destruct (qlt (v - k) 0) eqn:E; rewrite qlt_true; (split; [intros H; split|intros [H1 H2]]).
  all: unfold Qclt in *; rewrite ?this_opp, ?this_sub, ?this_q in *; try (apply qlt_true in E); try (apply qlt_false in E); rewrite ?this_sub in E; change (this 0) with 0%Q in E; Lqa.lra.
Qed.
Lemma binary_two e n : sized e n n -> (binary (ef_A qc e) = true <-> two_valued e n).
Proof.
  intros [(A1 & A2 & L & V) _]. unfold binary, two_valued. rewrite forallb_forall. split.
  - intros H i j Hi Hj. assert (I : In (nth i (a_rows (ef_A qc e)) []) (a_rows (ef_A qc e))) by (apply nth_In; unfold a_r in A1; lia).
    specialize (H _ I). rewrite forallb_forall in H. assert (J : In (nth j (nth i (a_rows (ef_A qc e)) []) 0) (nth i (a_rows (ef_A qc e)) [])) by (apply nth_In; rewrite (L _ I); lia).
    specialize (H _ J). apply orb_true_iff in H. rewrite !close_nearly in H. exact H.
  - intros H row Hrow. apply forallb_forall. intros v Hv. apply (In_nth _ _ []) in Hrow as (i & Hi & <-). pose proof (L _ (nth_In _ [] Hi)) as Hl. apply (In_nth _ _ 0) in Hv as (j & Hj & <-). pose proof (Nat.lt_le_trans _ _ _ Hj (Nat.eq_le_incl _ _ Hl)) as Hj'.
    apply orb_true_iff. rewrite !close_nearly. apply (H i j); [unfold a_r in A1; pose proof (Nat.lt_le_trans _ _ _ Hi (Nat.eq_le_incl _ _ A1)); assumption|exact Hj'].
Qed.

(* an interpolator from n x n to m x m pixels, made for the amplitudes [amp] *)
Definition ready (n m : nat) (rot : option (Qc * Qc)) (x y mag thr pitch : Qc) (amp : arr2 Qc) (st : efi) : Prop :=
  fi_thr st = thr /\ (exists k, fi_inner st = Some k /\ interp_init n n m m (negated rot) x y mag None None = Ok (in_ip k)) /\
  (fi_table st = None \/ fi_table st = Some (edge_table thr amp, binary amp)) /\ sized (fi_out st) m m /\ ef_pitch qc (fi_out st) = pitch.

Lemma qnat_pos n : (0 < n)%nat -> qnat n <> 0.
Proof. intros Hn Z. pose proof (qnat_lt 0 n Hn) as L. rewrite Z in L. vm_compute in L. discriminate L. Qed.
Lemma tiny_nz mag : tiny <= mag -> mag <> 0. Proof. intros H ->. now apply H. Qed.
Lemma angle_negated rot : angle (negated rot) = opposite rot. Proof. now destruct rot as [[c s]|]. Qed.
Lemma inner_value n m rot x y mag ip v f : (0 < n)%nat -> (0 < m)%nat -> mag <> 0 -> changed n m rot x y mag -> interp_init n n m m (negated rot) x y mag None None = Ok ip -> image (A:=qc) n n f v ->
  exists w, interpolate ip v = Ok w /\ image (A:=qc) m m (fun a b => let p := where_from n m rot x y mag a b in surface n n f (fst p) (snd p)) w.
Proof.
  intros Hn Hm Hg Hc Hi Iv. destruct (C81_value n n m m (negated rot) x y mag None None None v f Hn Hn Hm Hm Hg Iv) as (w & E & I); [now left| |].
  { intros (N1 & _ & N3 & N4 & N5 & N6 & _). destruct Hc as [C|[C|[C|[C|C]]]]; try contradiction. destruct rot; [discriminate|contradiction]. }
  exists w. split; [|].
  - unfold resample in E. assert (Er : @a_r Qc v = n) by exact (image_r _ _ _ _ Iv). assert (Ec : @a_c Qc v = n) by exact (image_c _ _ _ _ Iv). rewrite Er, Ec, Hi in E. exact E.
  - eapply image_ext; [exact I|]. intros a b Ha Hb. cbv zeta. unfold where_from. cbn [grid_of fst snd]. rewrite angle_negated. reflexivity.
Qed.
Lemma inner_same n m rot x y mag ip v f : ~ changed n m rot x y mag -> interp_init n n m m (negated rot) x y mag None None = Ok ip -> image (A:=qc) n n f v -> interpolate ip v = Ok v.
Proof.
  intros N Hi Iv. unfold changed in N. destruct (Nat.eq_dec n m) as [<-|]; [|tauto]. destruct rot; [exfalso; apply N; right; left; discriminate|].
  destruct (Qc_eq_dec x 0) as [->|]; [|tauto]. destruct (Qc_eq_dec y 0) as [->|]; [|tauto]. destruct (Qc_eq_dec mag 1) as [->|]; [|tauto].
  unfold interp_init in Hi. rewrite !Nat.eqb_refl in Hi. cbn [negated option_map is_none andb] in Hi. unfold is1 in Hi. cbn in Hi. injection Hi as <-. unfold interpolate. cbn [ip_in ip_grid fst snd].
  unfold shape_is. assert (Er : @a_r Qc v = n) by exact (image_r _ _ _ _ Iv). assert (Ec : @a_c Qc v = n) by exact (image_c _ _ _ _ Iv). rewrite Er, Ec, !Nat.eqb_refl. reflexivity.
Qed.
(* g is f seen through the interpolator *)
Definition sampled (n m : nat) (rot : option (Qc * Qc)) (x y mag : Qc) (f g : nat -> nat -> Qc) : Prop :=
  (changed n m rot x y mag -> forall a b, (a < m)%nat -> (b < m)%nat -> g a b = let p := where_from n m rot x y mag a b in surface n n f (fst p) (snd p)) /\
  (~ changed n m rot x y mag -> n = m /\ forall a b, (a < m)%nat -> (b < m)%nat -> g a b = f a b).
Lemma changed_dec n m rot x y mag : changed n m rot x y mag \/ ~ changed n m rot x y mag.
Proof.
  unfold changed. destruct (Nat.eq_dec n m) as [<-|]; [|tauto]. destruct rot; [left; right; left; discriminate|].
  destruct (Qc_eq_dec x 0) as [->|]; [|tauto]. destruct (Qc_eq_dec y 0) as [->|]; [|tauto]. destruct (Qc_eq_dec mag 1) as [->|]; [|tauto]. right. intros [H|[H|[H|[H|H]]]]; now apply H.
Qed.
Lemma unchanged_same n m rot x y mag : ~ changed n m rot x y mag -> n = m.
Proof. unfold changed. destruct (Nat.eq_dec n m); tauto. Qed.
Lemma inner_any n m rot x y mag ip v f : (0 < n)%nat -> (0 < m)%nat -> mag <> 0 -> interp_init n n m m (negated rot) x y mag None None = Ok ip -> image (A:=qc) n n f v ->
  exists w g, interpolate ip v = Ok w /\ image (A:=qc) m m g w /\ sampled n m rot x y mag f g.
Proof.
  intros Hn Hm Hg Hi Iv. destruct (changed_dec n m rot x y mag) as [C|C].
  - destruct (inner_value n m rot x y mag ip v f Hn Hm Hg C Hi Iv) as (w & E & I). eexists w, _. split; [exact E|]. split; [exact I|]. split; [reflexivity|contradiction].
  - exists v, f. split; [now apply (inner_same n m rot x y mag ip v f)|]. pose proof (unchanged_same _ _ _ _ _ _ C) as <-. split; [exact Iv|]. split; [contradiction|auto].
Qed.
Definition out_amp (b : bool) (g : nat -> nat -> Qc) (i j : nat) : Qc := if b then bit (g i j) else g i j.

Lemma once n m rot x y mag thr pitch st e : (0 < n)%nat -> (0 < m)%nat -> mag <> 0 -> sized e n n -> ready n m rot x y mag thr pitch (ef_A qc e) st ->
  exists st' ga gp, efi_interpolate st e = Ok st' /\ ready n m rot x y mag thr pitch (ef_A qc e) st' /\
    fi_out st' = mkEF qc (tab qc m m (out_amp (binary (ef_A qc e)) ga)) (tab qc m m gp) pitch (ef_S0 qc e) /\
    sampled n m rot x y mag (amp_at e) ga /\
    sampled n m rot x y mag (fun i j => extension (pupil_of thr (ef_A qc e)) (value_of (ef_ph qc e)) (Z.of_nat i, Z.of_nat j)) gp.
Proof.
  intros Hn Hm Hg Hs (T & (k & K & Ki) & Tb & (Oa & Op) & Pi). destruct (sized_A _ _ _ Hs) as (A1 & A2 & A3 & A4).
  destruct Hs as [Ia Ip]. destruct (inner_any n m rot x y mag (in_ip k) (ef_A qc e) (amp_at e) Hn Hm Hg Ki Ia) as (wa & ga & Ea & Iwa & Sa).
  pose proof (extrapolated_image thr (ef_A qc e) (ef_ph qc e) n n A1 A2 A3 A4) as Ix.
  destruct (inner_any n m rot x y mag (in_ip k) _ _ Hn Hm Hg Ki Ix) as (wp & gp & Ep & Iwp & Sp).
  set (tb := (edge_table thr (ef_A qc e), binary (ef_A qc e))).
  assert (Et : match fi_table st with Some t => t | None => (edge_table (fi_thr st) (ef_A qc e), binary (ef_A qc e)) end = tb) by (destruct Tb as [-> | ->]; [now rewrite T|reflexivity]).
  assert (Ef : efi_interpolate st e = Ok (mkEFI thr (Some k) (Some tb) (mkEF qc (tab qc m m (out_amp (binary (ef_A qc e)) ga)) (tab qc m m gp) pitch (ef_S0 qc e)))).
  { unfold efi_interpolate. rewrite K, Et, T. cbv zeta. rewrite Ea. cbn [bind]. rewrite (assign2_image m m _ ga _ _ Oa Iwa). cbn [bind fst snd tb]. rewrite Ep. cbn [bind].
    rewrite (assign2_image m m _ gp _ _ Op Iwp). cbn [bind]. rewrite Pi. do 3 f_equal. unfold out_amp. destruct (binary (ef_A qc e)); [|reflexivity].
    eapply image_eq; [apply (each_image (A:=qc)); apply tab_image|]. eapply image_ext; [apply tab_image|]. intros i j _ _. cbn beta. unfold bit, qlt. destruct (Qclt_le_dec half (ga i j)); reflexivity. }
  eexists _, ga, gp. split; [exact Ef|]. split; [|auto].
  split; [reflexivity|]. cbn [fi_inner fi_table fi_out]. split; [exists k; auto|]. split; [right; reflexivity|]. split; [|reflexivity]. split; cbn [ef_A ef_ph]; eapply image_own; apply tab_image.
Qed.

Lemma init_ready n m rot x y mag thr force e : (0 < n)%nat -> (0 < m)%nat -> tiny <= mag -> sized e n n -> changed n m rot x y mag \/ force = true ->
  exists st, efi_init e m m rot x y mag thr force = Ok st /\ forall amp, ready n m rot x y mag thr (ef_pitch qc e * qnat n / qnat m) amp st.
Proof.
  intros Hn Hm Hg Hs Hc. destruct (sized_A _ _ _ Hs) as (A1 & A2 & _). unfold efi_init, ef_rows, ef_cols. change (@a_r (car qc)) with (@a_r Qc) in *. change (@a_c (car qc)) with (@a_c Qc) in *. rewrite A1, A2.
  replace (Nat.eqb n 0) with false by (symmetry; apply Nat.eqb_neq; lia). cbn [orb]. rewrite (Nat.eqb_refl (m * n)). cbn [negb].
  replace (qlt mag tiny) with false by (symmetry; apply qlt_false; exact Hg).
  set (skip := _ && _ && _ && _ && _ && _ && _). assert (Es : skip = false).
  { destruct skip eqn:E; [|reflexivity]. exfalso. unfold skip in E. rewrite !andb_true_iff in E. destruct E as ((((((E0 & _) & E2) & E3) & E4) & E5) & E6). apply Nat.eqb_eq in E0. apply is0_true in E3, E4. apply is1_true in E5.
    destruct force; [discriminate|]. destruct Hc as [[C|[C|[C|[C|C]]]]|C]; try contradiction; [destruct rot; [discriminate E2|contradiction]|discriminate C]. }
  rewrite Es. replace (Nat.eqb m 0) with false by (symmetry; apply Nat.eqb_neq; lia). unfold new_ef. replace (Z.of_nat m <? 0)%Z with false by (symmetry; apply Z.ltb_ge; lia). cbn [orb bind]. rewrite Nat2Z.id.
  unfold new_inner. assert (Hi : exists ip, interp_init n n m m (negated rot) x y mag None None = Ok ip).
  { unfold interp_init. match goal with |- context [if ?b then Ok (mkInterp _ _ None) else _] => destruct b end; [eexists; reflexivity|]. replace (Nat.eqb m 0) with false by (symmetry; apply Nat.eqb_neq; lia). cbn [orb bind]. eexists; reflexivity. }
  destruct Hi as [ip Hi]. rewrite Hi. cbn [bind]. eexists. split; [reflexivity|]. intros amp. split; [reflexivity|]. cbn [fi_inner fi_table fi_out]. split; [eexists; split; [reflexivity|exact Hi]|]. split; [now left|].
  split; [split; cbn [ef_A ef_ph]; eapply image_own; apply tab_image|]. cbn [ef_pitch]. change qn with qnat. qceq. field. split; now apply qnat_pos.
Qed.
Lemma nothing_init n rot x y mag thr e : (0 < n)%nat -> sized e n n -> ~ changed n n rot x y mag -> efi_init e n n rot x y mag thr false = Ok (mkEFI thr None None e).
Proof.
  intros Hn Hs C. destruct (sized_A _ _ _ Hs) as (A1 & A2 & _). unfold changed in C. destruct rot; [exfalso; apply C; right; left; discriminate|].
  destruct (Qc_eq_dec x 0) as [->|]; [|tauto]. destruct (Qc_eq_dec y 0) as [->|]; [|tauto]. destruct (Qc_eq_dec mag 1) as [->|]; [|tauto].
  unfold efi_init, ef_rows, ef_cols. change (@a_r (car qc)) with (@a_r Qc) in *. change (@a_c (car qc)) with (@a_c Qc) in *. rewrite A1, A2. replace (Nat.eqb n 0) with false by (symmetry; apply Nat.eqb_neq; lia). cbn [orb]. rewrite !Nat.eqb_refl. reflexivity.
Qed.
Lemma extension_pupil_phase e n thr P f : sized e n n -> pupil_is e n thr P -> phase_is e P f ->
  forall p, extension (pupil_of thr (ef_A qc e)) (value_of (ef_ph qc e)) p = extension P f p.
Proof.
  intros Hs HP Hf p. rewrite <- (extension_pupil P) by (now apply (pupil_lit e n)). apply extension_ext. intros [u v] Hq. symmetry. exact (Hf u v Hq).
Qed.
Lemma sampled_ext n m rot x y mag f f' g : sampled n m rot x y mag f g -> (forall i j, (i < n)%nat -> (j < n)%nat -> f i j = f' i j) -> sampled n m rot x y mag f' g.
Proof.
  intros [S1 S2] H. split.
  - intros C a b Ha Hb. rewrite (S1 C a b Ha Hb). cbv zeta. now apply surface_ext.
  - intros C. destruct (S2 C) as [<- S3]. split; [reflexivity|]. intros a b Ha Hb. rewrite S3 by assumption. now apply H.
Qed.

(* Amplitude and phase of the output.  The phase is that of the pupil and of its extension by
   one pixel; amplitudes that were zero or one stay so. *)
Theorem C86_field n m rot x y mag thr force e P f : (0 < n)%nat -> (0 < m)%nat -> tiny <= mag -> sized e n n -> changed n m rot x y mag \/ force = true -> pupil_is e n thr P -> phase_is e P f ->
  exists o ga gp, resample_ef e m m rot x y mag thr force = Ok o /\ sized o m m /\
    sampled n m rot x y mag (amp_at e) ga /\ sampled n m rot x y mag (fun i j => extension P f (Z.of_nat i, Z.of_nat j)) gp /\
    (two_valued e n -> forall a b, (a < m)%nat -> (b < m)%nat -> amp_at o a b = bit (ga a b)) /\ (~ two_valued e n -> forall a b, (a < m)%nat -> (b < m)%nat -> amp_at o a b = ga a b) /\
    (forall a b, (a < m)%nat -> (b < m)%nat -> ph_at o a b = gp a b) /\
    ef_pitch qc o * qnat m = ef_pitch qc e * qnat n /\ ef_S0 qc o = ef_S0 qc e.
Proof.
  intros Hn Hm Hg Hs Hc HP Hf. destruct (init_ready n m rot x y mag thr force e Hn Hm Hg Hs Hc) as (st & Ei & R). destruct (once n m rot x y mag thr _ st e Hn Hm (tiny_nz _ Hg) Hs (R _)) as (st' & ga & gp & E1 & R' & Eo & Sa & Sp).
  exists (fi_out st'), ga, gp. split.
  { unfold resample_ef. rewrite Ei. cbn [bind]. rewrite E1. cbn [bind]. unfold efi_out. destruct R' as (_ & (k & -> & _) & _). reflexivity. }
  split; [apply R'|]. split; [exact Sa|]. split; [eapply sampled_ext; [exact Sp|]; intros; now apply (extension_pupil_phase e n)|]. rewrite Eo.
  assert (Ea : forall a b, (a < m)%nat -> (b < m)%nat -> amp_at (mkEF qc (tab qc m m (out_amp (binary (ef_A qc e)) ga)) (tab qc m m gp) (ef_pitch qc e * qnat n / qnat m) (ef_S0 qc e)) a b = out_amp (binary (ef_A qc e)) ga a b).
  { intros a b Ha Hb. apply (image_ent m m _ _ a b (tab_image (A:=qc) m m _)); assumption. }
  split; [|split; [|split]].
  - intros T a b Ha Hb. rewrite Ea by assumption. apply (binary_two e n Hs) in T. unfold out_amp. now rewrite T.
  - intros T a b Ha Hb. rewrite Ea by assumption. unfold out_amp. destruct (binary (ef_A qc e)) eqn:B; [|reflexivity]. exfalso. apply T. now apply (binary_two e n Hs).
  - intros a b Ha Hb. apply (image_ent m m _ _ a b (tab_image (A:=qc) m m _)); assumption.
  - cbn [ef_pitch ef_S0]. split; [|reflexivity]. qceq. field. now apply qnat_pos.
Qed.

(* Phases outside the pupil never matter. *)
Theorem C86_outside n m rot x y mag thr force e1 e2 : (0 < n)%nat -> (0 < m)%nat -> tiny <= mag -> sized e1 n n -> sized e2 n n -> changed n m rot x y mag \/ force = true ->
  ef_A qc e1 = ef_A qc e2 -> ef_S0 qc e1 = ef_S0 qc e2 -> ef_pitch qc e1 = ef_pitch qc e2 -> (forall i j, (i < n)%nat -> (j < n)%nat -> thr <= amp_at e1 i j -> ph_at e1 i j = ph_at e2 i j) ->
  resample_ef e1 m m rot x y mag thr force = resample_ef e2 m m rot x y mag thr force.
Proof.
  intros Hn Hm Hg Hs1 Hs2 Hc EA ES EP H. destruct (init_ready n m rot x y mag thr force e1 Hn Hm Hg Hs1 Hc) as (st1 & Ei1 & R1). destruct (init_ready n m rot x y mag thr force e2 Hn Hm Hg Hs2 Hc) as (st2 & Ei2 & R2).
  assert (X : extrapolated thr (edge_table thr (ef_A qc e1)) (ef_A qc e1) (ef_ph qc e1) = extrapolated thr (edge_table thr (ef_A qc e1)) (ef_A qc e1) (ef_ph qc e2)).
  { destruct (sized_A _ _ _ Hs1) as (A1 & A2 & A3 & A4). destruct (sized_A _ _ _ Hs2) as (B1 & B2 & B3 & B4).
    eapply (image_eq (A:=qc)); [exact (extrapolated_image thr _ _ n n A1 A2 A3 A4)|]. eapply (image_ext (A:=qc)); [exact (extrapolated_image thr _ _ n n A1 A2 B3 B4)|]. intros i j Hi Hj. cbn beta. apply extension_ext. intros [u v] Q.
    unfold pupil_of, lit in Q. cbn [fst snd] in Q. change (@a_r (car qc)) with (@a_r Qc) in *. change (@a_c (car qc)) with (@a_c Qc) in *. rewrite A1, A2 in Q. rewrite !andb_true_iff, negb_true_iff, !Z.leb_le, !Z.ltb_lt in Q. destruct Q as ((((Q1 & Q2) & Q3) & Q4) & Q5).
    symmetry. apply H; cbn [fst snd]; [lia|lia|]. apply qlt_false in Q5. exact Q5. }
  assert (Est : st1 = st2).
  { clear -Ei1 Ei2 EA EP Hs1 Hs2 Hc. assert (Ex : efi_init e1 m m rot x y mag thr force = efi_init e2 m m rot x y mag thr force \/ exists a b, efi_init e1 m m rot x y mag thr force = Ok (mkEFI thr None a b)).
    { unfold efi_init, ef_rows, ef_cols. rewrite EA, EP. repeat match goal with |- (if ?b then _ else _) = _ \/ _ => destruct b; [solve [left; reflexivity | right; eauto]|] end. left. reflexivity. }
    destruct Ex as [Ex|(a & b & Ex)]; [rewrite Ei1, Ei2 in Ex; congruence|]. exfalso.
    destruct (sized_A _ _ _ Hs1) as (A1 & A2 & _). unfold efi_init, ef_rows, ef_cols in Ex. change (@a_r (car qc)) with (@a_r Qc) in *. change (@a_c (car qc)) with (@a_c Qc) in *. rewrite A1, A2 in Ex.
    repeat match type of Ex with (if ?b then _ else _) = _ => destruct b eqn:?; try discriminate Ex end.
    - match goal with K : _ && _ && _ && _ && _ && _ && _ = true |- _ => rewrite !andb_true_iff in K; destruct K as ((((((E0 & _) & E2) & E3) & E4) & E5) & E6) end. apply Nat.eqb_eq in E0. apply is0_true in E3, E4. apply is1_true in E5.
      destruct force; [discriminate|]. destruct Hc as [[C|[C|[C|[C|C]]]]|C]; try contradiction; [destruct rot; [discriminate E2|contradiction]|discriminate C].
    - inv_bind Ex. inv_bind Ex. discriminate Ex. }
  unfold resample_ef. rewrite Ei1, Ei2, Est. cbn [bind]. destruct (R2 (ef_A qc e2)) as (T & (k & K & _) & Tb & _).
  unfold efi_interpolate. rewrite K. rewrite EA in X. rewrite EA, ES. destruct (R1 (ef_A qc e1)) as (_ & _ & Tb1 & _). rewrite Est in Tb1.
  assert (Et : forall amp, match fi_table st2 with Some t => t | None => (edge_table (fi_thr st2) amp, binary amp) end = (edge_table thr amp, binary amp)).
  { intros amp. destruct (R2 amp) as (_ & _ & [-> | ->] & _); [now rewrite T|reflexivity]. }
  rewrite Et. cbn [fst snd]. rewrite T, X. destruct (interpolate (in_ip k) (ef_A qc e2)); cbn [bind]; [|reflexivity]. destruct (assign2 _ _ _); cbn [bind]; [|reflexivity]. destruct (interpolate _ _); cbn [bind]; [|reflexivity]. destruct (assign2 _ _ _); reflexivity.
Qed.

(* the input pixels on which a pixel of the output depends *)
Definition reaches (n m : nat) (rot : option (Qc * Qc)) (x y mag : Qc) (a b i j : nat) : Prop :=
  (i < n)%nat /\ (j < n)%nat /\ touches (fst (where_from n m rot x y mag a b)) (snd (where_from n m rot x y mag a b)) i j.
(* A constant phase stays constant as far as one pixel outside the pupil. *)
Theorem C86_constant n m rot x y mag thr force e P k : (0 < n)%nat -> (0 < m)%nat -> tiny <= mag -> sized e n n -> changed n m rot x y mag -> pupil_is e n thr P -> phase_is e P (fun _ => k) ->
  exists o, resample_ef e m m rot x y mag thr force = Ok o /\
    forall a b, (a < m)%nat -> (b < m)%nat -> (forall i j, reaches n m rot x y mag a b i j -> let p := (Z.of_nat i, Z.of_nat j) in P p = true \/ beside P p = true) -> ph_at o a b = k.
Proof.
  intros Hn Hm Hg Hs Hc HP Hf. destruct (C86_field n m rot x y mag thr force e P _ Hn Hm Hg Hs (or_introl Hc) HP Hf) as (o & ga & gp & E & _ & _ & [S _] & _ & _ & Ph & _). exists o. split; [exact E|].
  intros a b Ha Hb H. rewrite Ph, S by assumption. cbv zeta. rewrite (surface_local n n _ (fun _ _ => k)).
  - unfold where_from. cbv zeta. cbn [fst snd]. apply surface_const; auto; apply nearest_within.
  - intros i j Hi Hj T. apply extension_const. apply H. now split.
Qed.
(* So does a plane, where the pupil is two pixels deep. *)
Theorem C86_plane n m rot x y mag thr force e P k0 ky kx : (0 < n)%nat -> (0 < m)%nat -> tiny <= mag -> sized e n n -> changed n m rot x y mag -> pupil_is e n thr P ->
  phase_is e P (fun p => plane k0 ky kx (qz (fst p)) (qz (snd p))) ->
  exists o, resample_ef e m m rot x y mag thr force = Ok o /\
    forall a b, (a < m)%nat -> (b < m)%nat -> (forall i j, reaches n m rot x y mag a b i j -> let p := (Z.of_nat i, Z.of_nat j) in P p = true \/ beside P p = true /\ deep P p) ->
      ph_at o a b = let p := where_from n m rot x y mag a b in plane k0 ky kx (fst p) (snd p).
Proof.
  intros Hn Hm Hg Hs Hc HP Hf. destruct (C86_field n m rot x y mag thr force e P _ Hn Hm Hg Hs (or_introl Hc) HP Hf) as (o & ga & gp & E & _ & _ & [S _] & _ & _ & Ph & _). exists o. split; [exact E|].
  intros a b Ha Hb H. rewrite Ph, S by assumption. cbv zeta. rewrite (surface_local n n _ (fun i j => k0 + ky * qnat i + kx * qnat j)).
  - unfold where_from, plane. cbv zeta. cbn [fst snd]. apply surface_flat; auto; apply nearest_within.
  - intros i j Hi Hj T. change (extension P (flat k0 ky kx) (Z.of_nat i, Z.of_nat j) = flat k0 ky kx (Z.of_nat i, Z.of_nat j)). apply extension_flat. apply H. now split.
Qed.

(* As long as the amplitudes stay the same, only the last field matters. *)
Theorem C86_last n m rot x y mag thr force e0 es e st0 : (0 < n)%nat -> (0 < m)%nat -> tiny <= mag -> sized e0 n n -> changed n m rot x y mag \/ force = true ->
  (forall u, In u (es ++ [e]) -> sized u n n /\ ef_A qc u = ef_A qc e0) -> ef_pitch qc e = ef_pitch qc e0 -> efi_init e0 m m rot x y mag thr force = Ok st0 ->
  exists st, fold_res efi_interpolate st0 (es ++ [e]) = Ok st /\ resample_ef e m m rot x y mag thr force = Ok (efi_out st e).
Proof.
  intros Hn Hm Hg Hs Hc Hes Ep Ei. destruct (init_ready n m rot x y mag thr force e0 Hn Hm Hg Hs Hc) as (st & Ei' & R). rewrite Ei in Ei'. injection Ei' as <-.
  destruct (Hes e ltac:(apply in_or_app; right; now left)) as [He HA].
  destruct (init_ready n m rot x y mag thr force e Hn Hm Hg He Hc) as (st1 & Ei1 & R1). destruct (once n m rot x y mag thr _ st1 e Hn Hm (tiny_nz _ Hg) He (R1 _)) as (st1' & ga1 & gp1 & E1 & R1' & Eo1 & Sa1 & Sp1).
  unfold resample_ef. rewrite Ei1. cbn [bind]. rewrite E1. cbn [bind]. rewrite Ep in *.
  assert (Rq : ready n m rot x y mag thr (ef_pitch qc e0 * qnat n / qnat m) (ef_A qc e0) st0) by apply R. clear R Ei. revert st0 Rq. induction es as [|u es IH]; intros st0 Rq; cbn [app fold_res].
  - rewrite <- HA in Rq. destruct (once n m rot x y mag thr _ st0 e Hn Hm (tiny_nz _ Hg) He Rq) as (st' & ga & gp & E & R' & Eo & Sa & Sp). exists st'. rewrite E. cbn [bind]. split; [reflexivity|]. f_equal.
    unfold efi_out. destruct R' as (_ & (k & -> & _) & _). destruct R1' as (_ & (k1 & -> & _) & _). rewrite Eo, Eo1.
    assert (U : forall f g g', sampled n m rot x y mag f g -> sampled n m rot x y mag f g' -> forall a b, (a < m)%nat -> (b < m)%nat -> g a b = g' a b).
    { intros f g g' [S1 S2] [S1' S2'] a b Ha Hb. destruct (changed_dec n m rot x y mag) as [C|C]; [now rewrite (S1 C), (S1' C)|]. destruct (S2 C) as [_ W]. destruct (S2' C) as [_ W']. now rewrite W, W'. }
    f_equal.
    + eapply (image_eq (A:=qc)); [apply tab_image|]. eapply (image_ext (A:=qc)); [apply tab_image|]. intros i j Hi Hj. unfold out_amp. now rewrite (U _ _ _ Sa Sa1 i j Hi Hj).
    + eapply (image_eq (A:=qc)); [apply tab_image|]. eapply (image_ext (A:=qc)); [apply tab_image|]. intros i j Hi Hj. exact (eq_sym (U _ _ _ Sp1 Sp i j Hi Hj)) || exact (U _ _ _ Sp1 Sp i j Hi Hj).
  - destruct (Hes u (or_introl eq_refl)) as [Hu HuA]. rewrite <- HuA in Rq. destruct (once n m rot x y mag thr _ st0 u Hn Hm (tiny_nz _ Hg) Hu Rq) as (st' & _ & _ & E & R' & _). rewrite E. cbn [bind]. apply IH; [|now rewrite <- HuA].
    intros v Hv. apply Hes. now right.
Qed.

(* With nothing to do the output is the input itself, also outside the pupil. *)
Theorem C86_identity n thr e : (0 < n)%nat -> sized e n n -> forall es e', exists st st', efi_init e n n None 0 0 1 thr false = Ok st /\ fold_res efi_interpolate st es = Ok st' /\ efi_out st' e' = e'.
Proof.
  intros Hn Hs es e'. exists (mkEFI thr None None e), (mkEFI thr None None e). split; [apply nothing_init; auto; intros [H|[H|[H|[H|H]]]]; now apply H|]. split; [|reflexivity]. induction es as [|u es IH]; [reflexivity|exact IH].
Qed.
(* Refused: another aspect ratio, too small magnifications. *)
Theorem C86_refused e outr outc rot x y mag thr force r c : sized e r c -> (0 < r)%nat -> (0 < c)%nat -> (outr * c <> outc * r)%nat \/ mag < tiny -> efi_init e outr outc rot x y mag thr force = Err ValueError.
Proof.
  intros Hs Hr Hc H. destruct (sized_A _ _ _ Hs) as (A1 & A2 & _). unfold efi_init, ef_rows, ef_cols. change (@a_r (car qc)) with (@a_r Qc) in *. change (@a_c (car qc)) with (@a_c Qc) in *. rewrite A1, A2.
  replace (Nat.eqb r 0) with false by (symmetry; apply Nat.eqb_neq; lia). replace (Nat.eqb c 0) with false by (symmetry; apply Nat.eqb_neq; lia). cbn [orb].
  destruct (Nat.eqb_spec (outr * c) (outc * r)); [|reflexivity]. cbn [negb]. destruct H as [H|H]; [contradiction|]. replace (qlt mag tiny) with true; [reflexivity|]. symmetry. apply qlt_true. exact H.
Qed.
(* also by update_parameters, whatever was set before *)
Theorem C86_update_refused st e x y rot mag : mag < tiny -> efi_update st e x y rot (Some mag) = Err ValueError.
Proof. intros H. unfold efi_update. replace (qlt mag tiny) with true; [reflexivity|]. symmetry. apply qlt_true. exact H. Qed.
Print Assumptions C86_update_refused.
(* Rectangular fields are never resampled. *)
Theorem C86_square_only e outr outc rot x y mag thr force r c st : sized e r c -> r <> c -> changed r outr rot x y mag \/ force = true -> efi_init e outr outc rot x y mag thr force = Ok st -> exists er, efi_interpolate st e = Err er.
Proof.
  intros Hs N Hc Ei. destruct (sized_A _ _ _ Hs) as (A1 & A2 & A3 & A4). unfold efi_init, ef_rows, ef_cols in Ei. change (@a_r (car qc)) with (@a_r Qc) in *. change (@a_c (car qc)) with (@a_c Qc) in *. rewrite A1, A2 in Ei.
  destruct (Nat.eqb_spec r 0); [discriminate Ei|]. destruct (Nat.eqb_spec c 0); [discriminate Ei|]. cbn [orb] in Ei. destruct (Nat.eqb_spec (outr * c) (outc * r)) as [Asp|]; [|discriminate Ei]. cbn [negb] in Ei. destruct (qlt mag tiny) eqn:Hm; [discriminate Ei|].
  destruct (_ && _ && _ && _ && _ && _ && _) eqn:E.
  { exfalso. rewrite !andb_true_iff in E. destruct E as ((((((E0 & _) & E2) & E3) & E4) & E5) & E6). apply Nat.eqb_eq in E0. apply is0_true in E3, E4. apply is1_true in E5.
    destruct force; [discriminate|]. destruct Hc as [[C|[C|[C|[C|C]]]]|C]; try contradiction; [destruct rot; [discriminate E2|contradiction]|discriminate C]. }
  destruct (Nat.eqb_spec outr 0); [discriminate Ei|]. unfold new_ef in Ei. replace (Z.of_nat outr <? 0)%Z with false in Ei by (symmetry; apply Z.ltb_ge; lia). replace (Z.of_nat outc <? 0)%Z with false in Ei by (symmetry; apply Z.ltb_ge; lia). cbn [orb bind] in Ei. rewrite !Nat2Z.id in Ei.
  inv_bind Ei. injection Ei as <-. unfold new_inner in E0. inv_bind E0. injection E0 as <-. unfold efi_interpolate. cbn [fi_inner fi_table fi_thr fi_out in_ip fst snd].
  assert (S : forall w : arr2 Qc, interpolate a0 (ef_A qc e) = Ok w -> a_r w = outr /\ a_c w = outc).
  { intros w W. unfold interp_init in E1. match type of E1 with (if ?b then _ else _) = _ => destruct b eqn:B end.
    - injection E1 as <-. rewrite !andb_true_iff in B. destruct B as (((((((B0 & B1) & _) & _) & _) & _) & _) & _). apply Nat.eqb_eq in B0, B1. subst outr outc. unfold interpolate in W. cbn [ip_in ip_grid fst snd] in W.
      match type of W with (if ?b then _ else _) = _ => destruct b end; [discriminate W|]. injection W as <-. auto.
    - destruct (Nat.eqb outr 0 || Nat.eqb outc 0); [discriminate E1|]. cbn [bind] in E1. injection E1 as <-. unfold interpolate in W. cbn [ip_in ip_grid ip_out fst snd] in W. match type of W with (if ?b then _ else _) = _ => destruct b end; [discriminate W|]. injection W as <-. split; [exact (tab_r (A:=qc) _ _ _)|reflexivity]. }
  destruct (interpolate a0 (ef_A qc e)) as [w|er] eqn:W; [|eexists; reflexivity]. destruct (S w eq_refl) as [S1 S2]. cbn [bind].
  unfold assign2 at 1, inplace2. cbn [ef_A].
  match goal with |- context [fits1 ?u ?v && fits1 ?k ?z] => assert (F : fits1 u v && fits1 k z = false) end; [|rewrite F; eexists; reflexivity].
  change (@a_r (car qc) w) with (@a_r Qc w). change (@a_c (car qc) w) with (@a_c Qc w). rewrite tab_r, S1, S2. cbn [tab a_c]. unfold fits1. apply andb_false_iff. rewrite !orb_false_iff, !Nat.eqb_neq. nia.
Qed.

(* ------------------------------------------------------------------------------ examples *)
Definition ef_of (amp ph : list (list Z)) : efield qc := mkEF qc (img amp) (img ph) (qi 1) (qi 5).
Definition see_phase (r : res (efield qc)) : res (list (list Q)) := e <- r ;; Ok (map (map this) (a_rows (ef_ph qc e))).
Definition see_amp (r : res (efield qc)) : res (list (list Q)) := e <- r ;; Ok (map (map this) (a_rows (ef_A qc e))).
Definition run_efi (st : res efi) (es : list (efield qc)) (e : efield qc) : res (efield qc) := s <- st ;; s' <- fold_res efi_interpolate s es ;; Ok (efi_out s' e).
Definition mili : Qc := Q2Qc (1 # 1000).
Definition ramp : efield qc := ef_of [[0; 0; 0; 0]; [0; 1; 1; 0]; [0; 1; 1; 0]; [0; 0; 0; 0]]%Z [[99; 99; 99; 99]; [99; 10; 11; 99]; [99; 20; 21; 99]; [99; 99; 99; 99]]%Z.
(* a forced extrapolation *)
Example C86_forced_example : see_phase (resample_ef ramp 4 4 None 0 0 1 mili true) = Ok [[0; 0; 1; 0]; [9; 10; 11; 12]; [19; 20; 21; 22]; [0; 30; 31; 0]]%Q.
Proof. vm_compute. reflexivity. Qed.
(* a reduction, with amplitudes zero and one *)
Example C86_field_example : see_phase (resample_ef ramp 2 2 None 0 0 1 mili false) = Ok [[0; 1 # 2]; [14; 31 # 2]]%Q /\ see_amp (resample_ef ramp 2 2 None 0 0 1 mili false) = Ok [[0; 0]; [0; 1]]%Q.
Proof. split; vm_compute; reflexivity. Qed.
Definition ramp_pupil (p : Z * Z) : bool := ((1 <=? fst p) && (fst p <=? 2) && (1 <=? snd p) && (snd p <=? 2))%Z.
Example C86_pupil_example : pupil_is ramp 4 mili ramp_pupil /\ phase_is ramp ramp_pupil (fun p => plane 0 (qz 10) 1 (qz (fst p)) (qz (snd p)) - 1).
Proof.
  assert (I : forall u : Z, (0 <= u < 4)%Z -> (u = 0 \/ u = 1 \/ u = 2 \/ u = 3)%Z) by lia. split.
  - intros y x. unfold ramp_pupil. cbn [fst snd]. split.
    + intros H. rewrite !andb_true_iff, !Z.leb_le in H. assert (Hy : (y = 1 \/ y = 2)%Z) by lia. assert (Hx : (x = 1 \/ x = 2)%Z) by lia. split; [lia|]. split; [lia|]. destruct Hy as [-> | ->], Hx as [-> | ->]; vm_compute; discriminate.
    + intros (Hy & Hx & H). destruct (I y Hy) as [-> |[-> |[-> | ->]]], (I x Hx) as [-> |[-> |[-> | ->]]]; try reflexivity; exfalso; vm_compute in H; apply H; reflexivity.
  - intros y x H. unfold ramp_pupil in H. cbn [fst snd] in H. rewrite !andb_true_iff, !Z.leb_le in H. assert (Hy : (y = 1 \/ y = 2)%Z) by lia. assert (Hx : (x = 1 \/ x = 2)%Z) by lia. destruct Hy as [-> | ->], Hx as [-> | ->]; apply Qc_is_canon; vm_compute; reflexivity.
Qed.

(* Claim: planes go on beyond the pupil wherever some line through two of its pixels meets the pixel. *)
Theorem C86_shallow_refuted : exists e, (* phase: plane, equal to the row *)
  e = ef_of [[0; 1; 1]; [1; 0; 0]; [0; 0; 0]]%Z [[0; 0; 0]; [1; 1; 1]; [2; 2; 2]]%Z /\ see_phase (resample_ef e 3 3 None 0 0 1 mili true) = Ok [[1 # 2; 0; 0]; [1; 0; 0]; [1; 0; 0]]%Q.
Proof. eexists. split; [reflexivity|]. vm_compute. reflexivity. Qed.
(* Claim: a shift along x does not change a phase that is constant along x. *)
Theorem C86_shift_refuted : exists e, e = ef_of [[1; 1; 1]; [1; 1; 1]; [1; 1; 1]]%Z [[0; 0; 0]; [3; 3; 3]; [6; 6; 6]]%Z /\
  see_phase (resample_ef e 3 3 None 1 0 1 mili false) = Ok [[3; 3; 3]; [5; 5; 5]; [6; 6; 6]]%Q /\ see_phase (resample_ef e 3 3 None 0 1 1 mili false) = Ok [[0; 0; 0]; [2; 2; 2]; [4; 4; 4]]%Q.
Proof. eexists. split; [reflexivity|]. split; vm_compute; reflexivity. Qed.
(* Claim: update_parameters keeps the shifts that are not given. *)
Theorem C86_update_refuted : exists e, e = ef_of [[1; 1; 1]; [1; 1; 1]; [1; 1; 1]]%Z [[0; 0; 0]; [3; 3; 3]; [6; 6; 6]]%Z /\
  let st := efi_init e 3 3 None 1 0 1 mili false in let st' := s <- st ;; efi_update s e None None None (Some 1) in
  see_phase (run_efi st [e] e) = Ok [[3; 3; 3]; [5; 5; 5]; [6; 6; 6]]%Q /\ see_phase (run_efi st' [e] e) = Ok [[0; 0; 0]; [2; 2; 2]; [4; 4; 4]]%Q.
Proof. eexists. split; [reflexivity|]. split; vm_compute; reflexivity. Qed.
(* Claim: update_parameters may be called without a magnification, or after nothing was to be done. *)
Theorem C86_default_refuted : exists e st st', efi_init e 3 3 None 1 0 1 mili false = Ok st /\ efi_update st e (Some (qi 2)) None None None = Err TypeError /\
  efi_init e 3 3 None 0 0 1 mili false = Ok st' /\ efi_update st' e (Some 1) None None (Some 1) = Err AttributeError.
Proof. exists (ef_of [[1; 1; 1]; [1; 1; 1]; [1; 1; 1]]%Z [[0; 0; 0]; [3; 3; 3]; [6; 6; 6]]%Z). do 2 eexists. repeat split; reflexivity. Qed.
(* Claim: when the pupil changes, its pixels keep their own phase. *)
Theorem C86_stale_refuted : exists e1 e2,
  e1 = ef_of [[1; 1; 0]; [1; 1; 0]; [1; 1; 0]]%Z [[1; 2; 0]; [1; 2; 0]; [1; 2; 0]]%Z /\ e2 = ef_of [[0; 1; 1]; [0; 1; 1]; [0; 1; 1]]%Z [[50; 2; 7]; [50; 2; 7]; [50; 2; 7]]%Z /\
  see_phase (run_efi (efi_init e1 3 3 None 0 0 1 mili true) [e1; e2] e2) = Ok [[0; 2; -46]; [0; 2; -46]; [0; 2; -46]]%Q.
Proof. do 2 eexists. split; [reflexivity|]. split; [reflexivity|]. vm_compute. reflexivity. Qed.
(* Claim: an interpolator made for a rectangular field works. *)
Theorem C86_rectangle_refuted : exists e st, efi_init e 2 4 None 0 0 1 mili false = Ok st /\ efi_interpolate st e = Err ValueError.
Proof. exists (ef_of [[1; 1]]%Z [[3; 4]]%Z). eexists. split; [reflexivity|]. vm_compute. reflexivity. Qed.

Print Assumptions C86_field.
Print Assumptions C86_outside.
Print Assumptions C86_constant.
Print Assumptions C86_plane.
Print Assumptions C86_last.
Print Assumptions C86_identity.
Print Assumptions C86_refused.
Print Assumptions C86_square_only.
Print Assumptions C86_shallow_refuted.
Print Assumptions C86_shift_refuted.
Print Assumptions C86_update_refuted.
Print Assumptions C86_default_refuted.
Print Assumptions C86_stale_refuted.
Print Assumptions C86_rectangle_refuted.
