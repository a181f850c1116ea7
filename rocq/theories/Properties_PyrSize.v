(* C109: numbers of steps of the modulation and sizes of the pyramid. *)
From Coq Require Import List ZArith Bool Arith QArith Qcanon Lia Lqa.
From Verif Require Import PyBase PyLemmas QcTac OpticalModel InterpModel InterpProofs ScreenModel GeomModel GeomProofs Properties_Geom.
From Verif Require PyrModel AtmoProofs.
Import ListNotations.
Local Open Scope Qc_scope.
Notation circular := PyrModel.Circular.
Notation default_steps := PyrModel.default_steps.
Notation mod_steps := PyrModel.mod_steps.
Notation pyr_geometry := PyrModel.pyr_geometry.

Lemma qfloor_qz z : qfloor (qz z) = z.
Proof. apply AtmoProofs.qfloor_unique; unfold Qcle, Qclt; rewrite ?this_add, ?this_qz; change (this 1) with 1%Q; lra. Qed.
Lemma trunc_qz z : qtrunc (qz z) = z.
Proof. unfold qtrunc, qceil. destruct (qlt (qz z) 0); [|apply qfloor_qz]. replace (- qz z) with (qz (- z)) by (apply Qc_iff; rewrite this_opp, !this_qz, inject_Z_opp; reflexivity). rewrite qfloor_qz. lia. Qed.
(* a number of steps is accepted if it is a positive whole number, not less than [least]; otherwise ValueError *)
Theorem C109_steps_given : forall k amp least s, (forall n, mod_steps k amp least (Some s) = Ok n <-> s = qz n /\ (0 < n)%Z /\ (least <= n)%Z) /\ (forall e, mod_steps k amp least (Some s) = Err e -> e = ValueError).
Proof.
  intros k amp least s. unfold PyrModel.mod_steps. split.
  - intros n. destruct (Qc_eq_dec s (qz 0)) as [E|E].
    { split; [discriminate|]. intros [-> [P _]]. apply (f_equal qtrunc) in E. rewrite !trunc_qz in E. lia. }
    destruct (qlt s (qz 0)) eqn:L.
    { split; [discriminate|]. intros [-> [P _]]. apply qlt_true in L. rewrite !this_qz in L. rewrite <- Zlt_Qlt in L. lia. }
    destruct (Qc_eq_dec (qz (qtrunc s)) s) as [I|I].
    + apply qlt_false in L. rewrite <- I in L at 1. rewrite !this_qz, <- Zle_Qle in L. assert (Z0 : qtrunc s <> 0%Z) by (intros Z; rewrite Z in I; congruence). destruct (qlt s (qz least)) eqn:M.
      * split; [discriminate|]. intros [-> [_ Q]]. apply qlt_true in M. rewrite !this_qz, <- Zlt_Qlt in M. lia.
      * apply qlt_false in M. rewrite <- I in M. rewrite !this_qz, <- Zle_Qle in M. split.
        { intros [= <-]. repeat split; [congruence|lia|exact M]. }
        intros [-> _]. now rewrite trunc_qz.
    + split; [discriminate|]. intros [-> _]. rewrite trunc_qz in I. congruence.
  - intros e. destruct (Qc_eq_dec s (qz 0)); [congruence|]. destruct (qlt s (qz 0)); [congruence|]. destruct (Qc_eq_dec (qz (qtrunc s)) s); [|congruence]. destruct (qlt s (qz least)); congruence.
Qed.
Print Assumptions C109_steps_given.

(* the default: one step on a circle up to a quarter, otherwise a multiple of four; an odd number on a line *)
Theorem C109_steps_default : forall amp least, 0 <= amp ->
  (exists n, mod_steps circular amp least None = Ok n /\ (n = 1%Z <-> amp <= Q2Qc (1 # 4)) /\ (Q2Qc (1 # 4) < amp -> (0 < n)%Z /\ (n mod 4 = 0)%Z) /\ qz 8 * amp - qz 2 <= qz n) /\
  (forall k, k <> circular -> exists n, mod_steps k amp least None = Ok n /\ (0 < n)%Z /\ Z.Odd n /\ (n = 1%Z <-> amp <= Q2Qc (1 # 2))).
Proof.
  intros amp least A. assert (A' : (0 <= this amp)%Q) by exact A. split.
  - exists (Z.max 1 (qround (amp * qz 2) * 4)). split; [reflexivity|]. pose proof (qround_near (amp * qz 2)) as N. set (r := qround (amp * qz 2)) in *. rewrite this_mul, this_qz in N. change (inject_Z 2) with 2%Q in N.
    assert (R0 : (0 <= r)%Z) by (apply qround_ge; rewrite this_mul, this_qz; change (inject_Z 2) with 2%Q; change (inject_Z 0) with 0%Q; lra).
    assert (S : (amp <= Q2Qc (1 # 4)) <-> r = 0%Z).
    { unfold Qcle. rewrite this_q. split.
      - intros H. destruct (Qlt_le_dec (this amp) (1 # 4)) as [L|L].
        + assert (r <= 0)%Z; [|lia]. apply qround_le. rewrite this_mul, this_qz. change (inject_Z 2) with 2%Q. change (inject_Z 0) with 0%Q. lra.
        + unfold r. rewrite (qround_tie 0); [reflexivity|]. rewrite this_mul, this_qz. change (inject_Z 2) with 2%Q. change (inject_Z 0) with 0%Q. lra.
      - intros E. rewrite E in N. change (inject_Z 0) with 0%Q in N. lra. }
    split; [rewrite S; lia|]. split.
    { intros H. assert (r <> 0)%Z by (intros E; apply S in E; apply (Qclt_not_le _ _ H E)). rewrite Z.max_r by lia. split; [lia|]. apply Z.mod_mul. lia. }
    unfold Qcle. rewrite this_sub, this_mul, !this_qz. change (inject_Z 8) with 8%Q. change (inject_Z 2) with 2%Q. assert (Q : (inject_Z (r * 4) <= inject_Z (Z.max 1 (r * 4)))%Q) by (rewrite <- Zle_Qle; lia). rewrite inject_Z_mult in Q at 1. change (inject_Z 4) with 4%Q in Q. lra.
  - intros k K. exists (qround amp * 2 + 1)%Z. split; [destruct k; [congruence|reflexivity..]|]. pose proof (qround_near amp) as N. set (r := qround amp) in *.
    assert (R0 : (0 <= r)%Z) by (apply qround_ge; change (inject_Z 0) with 0%Q; lra). split; [lia|]. split; [exists r; lia|].
    unfold Qcle. rewrite this_q. split.
    + intros E. assert (Z : r = 0%Z) by lia. rewrite Z in N. change (inject_Z 0) with 0%Q in N. lra.
    + intros H. assert (r <= 0)%Z; [|lia]. destruct (Qlt_le_dec (this amp) (1 # 2)) as [L|L].
      * apply qround_le. change (inject_Z 0) with 0%Q. lra.
      * unfold r. rewrite (qround_tie 0); [reflexivity|]. change (inject_Z 0) with 0%Q. lra.
Qed.
Print Assumptions C109_steps_default.

(* one step on a line cannot be used, though it is the default up to one half *)
Theorem C109_one_step_refuted : exists k amp, forall least a iter, mod_steps k amp least None = Ok 1%Z /\ PyrModel.modulation k a 1 iter = Err ZeroDivisionError.
Proof. exists PyrModel.Vertical, (Q2Qc (1 # 2)). intros. split; reflexivity. Qed.
Print Assumptions C109_one_step_refuted.

(* refusals of the geometry *)
Theorem C109_layout_refused : forall d internal fov errinf errsup fft_res diam ccd margin dist min_dist,
  let dd := match dist with Some v => v | None => (diam + margin * 2)%Z end in let mm := match min_dist with Some v => v | None => (diam + margin * 2)%Z end in
  (dd < mm \/ ccd < dd + diam + margin * 2)%Z -> pyr_geometry d internal fov errinf errsup fft_res diam ccd margin dist min_dist = Err ValueError.
Proof.
  intros d internal fov errinf errsup fft_res diam ccd margin dist min_dist dd mm H. unfold PyrModel.pyr_geometry. fold dd mm. destruct (Z.ltb_spec dd mm); [reflexivity|]. destruct (Z.ltb_spec ccd (dd + diam + margin * 2)); [reflexivity|]. lia.
Qed.
Print Assumptions C109_layout_refused.
Lemma layout_ok d internal fov errinf errsup fft_res diam ccd margin dist min_dist lay : let dd := match dist with Some v => v | None => (diam + margin * 2)%Z end in
  pyr_geometry d internal fov errinf errsup fft_res diam ccd margin dist min_dist = Ok lay ->
  diam <> 0%Z /\ (dd + diam + margin * 2 <= ccd)%Z /\ PyrModel.l_final lay = ccd /\ PyrModel.l_side lay = (qround (fft_res * qz diam / qz 2) * 2)%Z /\
  calc_geometry d internal fov errinf errsup (PyrModel.wanted_res diam dd fft_res) = Ok (PyrModel.l_geo lay) /\ dd <> 0%Z /\ PyrModel.l_tilt lay = ge_fft_res (PyrModel.l_geo lay) / (qz dd / qz diam / qz 2).
Proof.
  intros dd H. unfold PyrModel.pyr_geometry in H. fold dd in H. set (mm := match min_dist with Some v => v | None => (diam + margin * 2)%Z end) in H. destruct (Z.ltb_spec dd mm); [discriminate|]. destruct (Z.ltb_spec ccd (dd + diam + margin * 2)); [discriminate|]. destruct (Z.eqb_spec diam 0) as [E|E]; [discriminate|].
  apply bind_ok in H. destruct H as [g [G H]]. apply bind_ok in H. destruct H as [t [T H]]. injection H as <-. cbn [PyrModel.l_geo PyrModel.l_tilt PyrModel.l_side PyrModel.l_final].
  unfold div in T. destruct (Qc_eq_dec (Qcdiv (Qcdiv (qz dd) (qz diam)) (qz 2)) 0) as [Z|Z]; [discriminate|]. injection T as <-. repeat split; auto. intros D. apply Z. rewrite D. unfold Qcdiv. change (qz 0) with 0. ring.
Qed.
(* the images of the pupil are moved by half of the distance asked for, in the units in which the pupil has its diameter *)
Theorem C109_distance : forall d internal fov errinf errsup fft_res diam ccd margin dist min_dist lay, let dd := match dist with Some v => v | None => (diam + margin * 2)%Z end in
  0 < internal -> d <> 0%Z -> 0 < fft_res -> (0 < diam)%Z -> pyr_geometry d internal fov errinf errsup fft_res diam ccd margin dist min_dist = Ok lay -> ge_total (PyrModel.l_geo lay) <> 0%Z ->
  qz (ge_total (PyrModel.l_geo lay)) / PyrModel.l_tilt lay = qz (ge_sampling (PyrModel.l_geo lay)) * (qz dd / qz diam) / qz 2.
Proof.
  intros d internal fov errinf errsup fft_res diam ccd margin dist min_dist lay dd I D R P H T. destruct (layout_ok _ _ _ _ _ _ _ _ _ _ _ _ H) as [_ [_ [_ [_ [G [Dd L]]]]]]. fold dd in G, Dd, L.
  destruct (C103_sizes d internal fov errinf errsup _ _ I D G) as [_ [_ [_ [S _]]]]. rewrite L. set (g := PyrModel.l_geo lay) in *. rewrite <- S.
  assert (F : ge_fft_res g <> 0). { intros Z. rewrite Z in S. apply T. apply (f_equal qtrunc) in S. rewrite trunc_qz in S. rewrite <- S. replace (0 * qz (ge_sampling g)) with (qz 0) by (change (qz 0) with 0; ring). apply trunc_qz. }
  field. repeat split; try (apply qz_nz; lia); try exact F. all: try (intros E; discriminate E).
Qed.
Print Assumptions C109_distance.
(* the pupil has the diameter asked for on the internal detector, if that is large enough for the four pupils and the size of
   the transform needs no rounding *)
Theorem C109_pupil_size : forall d internal fov errinf errsup fft_res diam ccd margin dist min_dist lay k, let dd := match dist with Some v => v | None => (diam + margin * 2)%Z end in
  0 < internal -> d <> 0%Z -> (0 < diam)%Z -> pyr_geometry d internal fov errinf errsup fft_res diam ccd margin dist min_dist = Ok lay ->
  (11 * (dd + diam) <= 10 * PyrModel.l_side lay)%Z -> (ge_sampling (PyrModel.l_geo lay) * PyrModel.l_side lay = 2 * k * diam)%Z ->
  (ge_total (PyrModel.l_geo lay) * diam = ge_sampling (PyrModel.l_geo lay) * PyrModel.l_side lay)%Z.
Proof.
  intros d internal fov errinf errsup fft_res diam ccd margin dist min_dist lay k dd I D P H B K. destruct (layout_ok _ _ _ _ _ _ _ _ _ _ _ _ H) as [_ [_ [_ [S [G _]]]]]. fold dd in G. set (g := PyrModel.l_geo lay) in *. set (side := PyrModel.l_side lay) in *.
  assert (W : PyrModel.wanted_res diam dd fft_res = qz side / qz diam).
  { unfold PyrModel.wanted_res. cbv zeta. rewrite <- S. destruct (qlt _ _) eqn:E; [|reflexivity]. exfalso. apply qlt_true in E. rewrite this_div, this_mul, !this_div, !this_qz in E.
    assert (P' : (0 < inject_Z diam)%Q) by (change 0%Q with (inject_Z 0); rewrite <- Zlt_Qlt; exact P). assert (B' : (11 * inject_Z (dd + diam) <= 10 * inject_Z side)%Q) by (change 11%Q with (inject_Z 11); change 10%Q with (inject_Z 10); rewrite <- !inject_Z_mult, <- Zle_Qle; exact B).
    change (inject_Z 11 / inject_Z 10)%Q with (11 # 10)%Q in E.
    apply (Qmult_lt_compat_r _ _ (inject_Z diam) P') in E. setoid_replace (inject_Z side / inject_Z diam * inject_Z diam)%Q with (inject_Z side) in E by (field; lra).
    setoid_replace (inject_Z (dd + diam) / inject_Z diam * (11 # 10) * inject_Z diam)%Q with (inject_Z (dd + diam) * (11 # 10))%Q in E by (field; lra). lra. }
  rewrite W in G. destruct (C103_sizes d internal fov errinf errsup _ _ I D G) as [_ [Ev [_ [_ [N _]]]]]. fold g in N, Ev.
  assert (X : qz (ge_sampling g) * (qz side / qz diam) = qz (2 * k)).
  { replace (qz (ge_sampling g) * (qz side / qz diam)) with (qz (ge_sampling g * side) / qz diam) by (rewrite qz_inj_mul; unfold Qcdiv; ring). rewrite K, qz_inj_mul. field. apply qz_nz. lia. }
  rewrite X in N. destruct N as [N1 N2]. unfold Qcle in N1, N2. rewrite this_sub, !this_qz in N1. rewrite this_add, !this_qz in N2. change (this 1) with 1%Q in *.
  assert (Y : (ge_total g <= 2 * k + 1)%Z) by (apply zle; rewrite inject_Z_plus; change (inject_Z 1) with 1%Q; lra). assert (Y' : (2 * k <= ge_total g + 1)%Z) by (apply zle; rewrite inject_Z_plus; change (inject_Z 1) with 1%Q; lra).
  destruct Ev as [m Ev]. assert (ge_total g = 2 * k)%Z by lia. nia.
Qed.
Print Assumptions C109_pupil_size.
(* otherwise it does not: here 400/52 pixels instead of 10 *)
Theorem C109_pupil_size_refuted : exists d internal fov errinf errsup fft_res diam ccd margin lay, 0 < internal /\ pyr_geometry d internal fov errinf errsup fft_res diam ccd margin None None = Ok lay /\
  (ge_total (PyrModel.l_geo lay) * diam <> ge_sampling (PyrModel.l_geo lay) * PyrModel.l_side lay)%Z.
Proof. exists 20%Z, 1, 1, 0, 0, (qz 2), 10%Z, 28%Z, 2%Z. eexists. split; [reflexivity|]. split; [vm_compute; reflexivity|]. vm_compute. discriminate. Qed.
Print Assumptions C109_pupil_size_refuted.

(* the prism has the size of the transform if the sampling is even; otherwise it depends on the size *)
Theorem C109_prism : forall d internal fov errinf errsup fft_res g, 0 < internal -> d <> 0%Z -> calc_geometry d internal fov errinf errsup fft_res = Ok g -> Z.Even (ge_sampling g) ->
  PyrModel.prism g = Ok tt /\ (ge_sampling g + ge_padding g = ge_total g)%Z /\ Z.Even (ge_padding g) /\ Z.Even (ge_total g).
Proof.
  intros d internal fov errinf errsup fft_res g I D H E. destruct (C103_sizes d internal fov errinf errsup fft_res g I D H) as [_ [T [P [_ [_ [S _]]]]]]. specialize (S E). repeat split; auto.
  unfold PyrModel.prism. rewrite S. destruct T as [m T]. rewrite T. replace (2 * m / 2)%Z with m by (rewrite Z.mul_comm, Z.div_mul; lia). now rewrite Z.eqb_refl.
Qed.
Print Assumptions C109_prism.
Theorem C109_odd_refuted : exists d d' internal fov errinf errsup fft_res g g', calc_geometry d internal fov errinf errsup fft_res = Ok g /\ calc_geometry d' internal fov errinf errsup fft_res = Ok g' /\
  PyrModel.prism g = Err ValueError /\ PyrModel.prism g' = Ok tt /\ (d = 99 /\ d' = 101)%Z.
Proof. exists 99%Z, 101%Z, 1, 1, 0, 0, (qz 3). do 2 eexists. split; [vm_compute; reflexivity|]. split; [vm_compute; reflexivity|]. split; [vm_compute; reflexivity|]. split; [vm_compute; reflexivity|]. split; reflexivity. Qed.
Print Assumptions C109_odd_refuted.

From Coq Require Import Reals Lra.
(* the default number of steps can be less than 2 pi times the amplitude *)
Theorem C109_few_steps_refuted : exists amp n, default_steps circular (Q2Qc amp) = n /\ (IZR n < 2 * PI * (IZR (Qnum amp) / IZR (Zpos (Qden amp))))%R.
Proof. exists (7 # 10), 4%Z. split; [reflexivity|]. cbn. pose proof PI2_3_2. Lra.lra. Qed.
Print Assumptions C109_few_steps_refuted.
(* a default number of steps on a line is refused when it is given *)
Theorem C109_default_given_refuted : exists k amp n, mod_steps k amp 0 None = Ok n /\ amp = qz 1 /\ forall least, (Rabs (IZR least - 2 * PI * 1) <= / 2)%R -> mod_steps k amp least (Some (qz n)) = Err ValueError.
Proof.
  exists PyrModel.Horizontal, (qz 1), 3%Z. split; [reflexivity|]. split; [reflexivity|]. intros least H. destruct (mod_steps _ _ _ _) as [n|e] eqn:E.
  - exfalso. apply C109_steps_given in E. destruct E as [E [_ L]]. apply (f_equal qtrunc) in E. rewrite !trunc_qz in E. subst n. apply IZR_le in L. pose proof PI2_3_2. pose proof (Rle_abs (- (IZR least - 2 * PI * 1))) as A. rewrite Rabs_Ropp in A. Lra.lra.
  - f_equal. revert e E. apply C109_steps_given.
Qed.
Print Assumptions C109_default_given_refuted.

Example C109_steps_default_example : (default_steps circular (qz 3), default_steps circular (Q2Qc (1 # 4)), default_steps PyrModel.Vertical (qz 3)) = (24, 1, 7)%Z. Proof. reflexivity. Qed.
Example C109_layout_example : exists lay, pyr_geometry 120 1 1 0 0 (qz 3) 30 80 2 (Some 36%Z) None = Ok lay /\ (ge_sampling (PyrModel.l_geo lay), ge_padding (PyrModel.l_geo lay), ge_total (PyrModel.l_geo lay), PyrModel.l_side lay) = (120, 240, 360, 90)%Z /\ PyrModel.l_tilt lay = qz 5.
Proof. eexists. split; [vm_compute; reflexivity|]. split; [reflexivity|]. apply Qc_is_canon. reflexivity. Qed.
