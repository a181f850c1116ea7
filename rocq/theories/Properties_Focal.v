(* C101: what a coronagraph does to the field that goes through it. *)
From Coq Require Import Reals List ZArith Bool Arith Lia Lra.
From Verif Require Import PyBase PyLemmas Fourier PsfModel PsfSpec PsfProofs FocalModel FocalProofs.
Import ListNotations.
Local Open Scope R_scope.

(* the energy of a field, in the pupil *)
Definition energy (n : nat) (u : field) : R := rsum2 n n (fun i j => abs2 (u i j)).
(* an optical element that does not amplify *)
Definition passive (m : field) : Prop := forall i j, abs2 (m i j) <= 1.
(* an optical element that does not absorb *)
Definition lossless (m : field) : Prop := forall i j, abs2 (m i j) = 1.
(* g with another focal plane mask *)
Definition masked_by (m : field) (g : coronagraph) : coronagraph :=
  {| g_size := g_size g; g_padding := g_padding g; g_total := g_total g; g_on_pixel := g_on_pixel g; g_apod := g_apod g; g_mask := m; g_stop := g_stop g |}.

(* refused only when the padded array is too small *)
Theorem C101_defined : forall g u, (exists v, coro_out g u = Ok v) <-> (g_padding g / 2 + g_size g <= g_total g)%nat.
Proof.
  intros g u. unfold coro_out, fits, pad_start. destruct (_ <=? _)%nat eqn:E.
  - apply Nat.leb_le in E. split; eauto.
  - apply Nat.leb_gt in E. split; [intros [v X]; discriminate|lia].
Qed.
Print Assumptions C101_defined.

Lemma some_total g u v : coro_out g u = Ok v -> fits g = true.
Proof. unfold coro_out. destruct (fits g); congruence. Qed.

Lemma ratio k a b : k <> 0 -> k * a / (k * b) = a / b.
Proof. intros K. unfold Rdiv. rewrite Rinv_mult. replace (k * a * (/ k * / b)) with (k * / k * (a * / b)) by ring. rewrite Rinv_r by exact K. ring. Qed.

(* without apodizer, mask and stop the field is unchanged, whatever the padding *)
Theorem C101_transparent : forall g u v, g_apod g = ones -> g_mask g = ones -> g_stop g = ones -> (0 < g_total g)%nat -> coro_out g u = Ok v ->
  forall i j, (i < g_size g)%nat -> (j < g_size g)%nat -> v i j = u i j.
Proof.
  intros g u v A M S T H i j Hi Hj. pose proof (some_total _ _ _ H) as F. unfold coro_out in H. rewrite F in H. injection H as <-.
  rewrite (after_constant g F T u c1 i j) by (auto; intros; now rewrite M). rewrite A, S. unfold ones. generalize (u i j). intros. unfold c1. cring.
Qed.
Print Assumptions C101_transparent.

(* the transmission, computed in the focal plane, is the ratio of the energies in the pupil *)
Theorem C101_transmission : forall g u v, (0 < g_total g)%nat -> coro_out g u = Ok v -> transmission g u v = energy (g_size g) v / energy (g_size g) u.
Proof.
  intros g u v T H. pose proof (some_total _ _ _ H) as F. unfold transmission. rewrite !light_energy by auto. fold (energy (g_size g) v) (energy (g_size g) u).
  apply ratio. pose proof (tt_pos g T). lra.
Qed.
Print Assumptions C101_transmission.

(* passive elements never create light, and the transmission is between 0 and 1 *)
Theorem C101_passive : forall g u v, passive (g_apod g) -> passive (g_mask g) -> passive (g_stop g) -> (0 < g_total g)%nat -> coro_out g u = Ok v ->
  energy (g_size g) v <= energy (g_size g) u /\ 0 <= transmission g u v <= 1.
Proof.
  intros g u v A M S T H. pose proof (some_total _ _ _ H) as F. pose proof (out_passive g F T u v A M S H) as L. split; [exact L|].
  rewrite (C101_transmission g u v T H). change (energy (g_size g) v <= energy (g_size g) u) in L.
  assert (N : 0 <= energy (g_size g) v) by (apply rsum2_nonneg; intros; apply abs2_nonneg).
  destruct (Req_dec (energy (g_size g) u) 0) as [Z|Z].
  - replace (energy (g_size g) v) with 0 by lra. unfold Rdiv. rewrite Rmult_0_l. lra.
  - assert (P : 0 < energy (g_size g) u) by lra. split.
    + unfold Rdiv. apply Rmult_le_pos; [lra|]. apply Rlt_le, Rinv_0_lt_compat, P.
    + apply (Rmult_le_reg_r (energy (g_size g) u)); [lra|]. unfold Rdiv. rewrite Rmult_assoc, Rinv_l by lra. lra.
Qed.
Print Assumptions C101_passive.

(* a coronagraph is linear in the field *)
Theorem C101_linear : forall g a b u1 u2 v1 v2 w, coro_out g u1 = Ok v1 -> coro_out g u2 = Ok v2 ->
  coro_out g (fun i j => cadd (cmul a (u1 i j)) (cmul b (u2 i j))) = Ok w -> forall i j, w i j = cadd (cmul a (v1 i j)) (cmul b (v2 i j)).
Proof.
  intros g a b u1 u2 v1 v2 w H1 H2 H. pose proof (some_total _ _ _ H) as F. unfold coro_out in *. rewrite F in *. injection H1 as <-. injection H2 as <-. injection H as <-.
  intros i j. rewrite after_lin. generalize (pupil_after g u1 (i + pad_start g)%nat (j + pad_start g)%nat) (pupil_after g u2 (i + pad_start g)%nat (j + pad_start g)%nat). intros. cring.
Qed.
Print Assumptions C101_linear.

(* the transmission does not depend on the brightness of the source, nor on its overall phase *)
Theorem C101_brightness : forall g c u v w, (0 < g_total g)%nat -> abs2 c <> 0 -> coro_out g u = Ok v -> coro_out g (fun i j => cmul c (u i j)) = Ok w -> transmission g (fun i j => cmul c (u i j)) w = transmission g u v.
Proof.
  intros g c u v w T Hc H Hw. rewrite (C101_transmission _ _ _ T H), (C101_transmission _ _ _ T Hw).
  assert (Hw' : forall i j, w i j = cmul c (v i j)).
  { intros i j. pose proof (some_total _ _ _ H) as F.
    assert (X : exists w', coro_out g (fun i j => cadd (cmul c (u i j)) (cmul c0 (u i j))) = Ok w') by (unfold coro_out; rewrite F; eauto). destruct X as [w' X].
    pose proof (C101_linear g c c0 u u v v w' H H X i j) as Y.
    assert (Z : w i j = w' i j).
    { unfold coro_out in Hw, X. rewrite F in *. injection Hw as <-. injection X as <-. f_equal. unfold pupil_after. f_equal. apply idft2_ext. intros k l _ _. f_equal. apply to_focal_ext. intros. generalize (u i0 j0) (g_apod g i0 j0). intros. unfold Fourier.c0. cring. }
    rewrite Z, Y. generalize (v i j). intros. unfold Fourier.c0. cring. }
  assert (E1 : energy (g_size g) w = abs2 c * energy (g_size g) v) by (unfold energy; rewrite <- rsum2_mul_l; apply rsum2_ext; intros; rewrite Hw'; apply abs2_mul).
  assert (E2 : energy (g_size g) (fun i j => cmul c (u i j)) = abs2 c * energy (g_size g) u) by (unfold energy; rewrite <- rsum2_mul_l; apply rsum2_ext; intros; apply abs2_mul).
  rewrite E1, E2. now apply ratio.
Qed.
Print Assumptions C101_brightness.

(* what two complementary focal plane masks let through adds up to what no mask lets through *)
Theorem C101_complementary_masks : forall g m u v1 v2, (0 < g_total g)%nat -> coro_out (masked_by m g) u = Ok v1 -> coro_out (masked_by (fun i j => csub c1 (m i j)) g) u = Ok v2 ->
  forall i j, (i < g_size g)%nat -> (j < g_size g)%nat -> cadd (v1 i j) (v2 i j) = cmul (cmul (u i j) (g_apod g i j)) (g_stop g i j).
Proof.
  intros g m u v1 v2 T H1 H2 i j Hi Hj. pose proof (some_total _ _ _ H1) as F.
  unfold coro_out in H1, H2. change (fits (masked_by (fun i j => csub c1 (m i j)) g)) with (fits (masked_by m g)) in H2. rewrite F in *. injection H1 as <-. injection H2 as <-.
  set (s := pad_start g). change (pad_start (masked_by m g)) with s. change (pad_start (masked_by (fun i j => csub c1 (m i j)) g)) with s. cbn [masked_by g_stop].
  pose proof (after_mask_lin g c1 c1 m (fun i j => csub c1 (m i j)) u (i + s)%nat (j + s)%nat) as L.
  assert (K := after_constant (with_mask g (fun i j => cadd (cmul c1 (m i j)) (cmul c1 (csub c1 (m i j))))) F T u c1 i j).
  assert (Mk : forall i0 j0, g_mask (with_mask g (fun i j => cadd (cmul c1 (m i j)) (cmul c1 (csub c1 (m i j))))) i0 j0 = c1) by (intros; cbn [with_mask g_mask]; generalize (m i0 j0); intros; unfold Fourier.c1; cring).
  specialize (K Mk Hi Hj). change (pad_start (with_mask g (fun i j => cadd (cmul c1 (m i j)) (cmul c1 (csub c1 (m i j)))))) with s in K.
  rewrite L in K. change (with_mask g m) with (masked_by m g) in K. change (with_mask g (fun i j => csub c1 (m i j))) with (masked_by (fun i j => csub c1 (m i j)) g) in K.
  cbn [with_mask g_apod] in K. revert K. generalize (pupil_after (masked_by m g) u (i + s)%nat (j + s)%nat) (pupil_after (masked_by (fun i j => csub c1 (m i j)) g) u (i + s)%nat (j + s)%nat).
  intros x y K. assert (K' : cadd x y = cmul (u i j) (g_apod g i j)).
  { transitivity (cadd (cmul c1 x) (cmul c1 y)); [unfold Fourier.c1; cring|]. rewrite K. generalize (cmul (u i j) (g_apod g i j)). intros. unfold Fourier.c1. cring. }
  transitivity (cmul (cadd x y) (g_stop g i j)); [cring|now rewrite K'].
Qed.
Print Assumptions C101_complementary_masks.

(* an apodizing phase plate (no focal plane mask, no stop) leaves the amplitude unchanged: nothing is lost *)
Theorem C101_phase_plate : forall g p u v, g_apod g = phase_only p -> g_mask g = ones -> g_stop g = ones -> (0 < g_total g)%nat -> coro_out g u = Ok v ->
  (forall i j, (i < g_size g)%nat -> (j < g_size g)%nat -> v i j = cmul (u i j) (cis (p i j)) /\ abs2 (v i j) = abs2 (u i j)) /\ (energy (g_size g) u <> 0 -> transmission g u v = 1).
Proof.
  intros g p u v A M S T H. pose proof (some_total _ _ _ H) as F.
  assert (V : forall i j, (i < g_size g)%nat -> (j < g_size g)%nat -> v i j = cmul (u i j) (cis (p i j)) /\ abs2 (v i j) = abs2 (u i j)).
  { intros i j Hi Hj. assert (X : v i j = cmul (u i j) (cis (p i j))).
    { unfold coro_out in H. rewrite F in H. injection H as <-. rewrite (after_constant g F T u c1 i j) by (auto; intros; now rewrite M). rewrite A, S. unfold ones, phase_only. generalize (u i j) (cis (p i j)). intros. unfold c1. cring. }
    split; [exact X|]. rewrite X, abs2_mul, abs2_cis. ring. }
  split; [exact V|]. intros N. rewrite (C101_transmission _ _ _ T H). replace (energy (g_size g) v) with (energy (g_size g) u); [now apply Rinv_r|].
  symmetry. apply rsum2_ext. intros. now apply V.
Qed.
Print Assumptions C101_phase_plate.

(* with a lossless apodizer and a lossless focal plane mask (vortex, four quadrants) all the light reaches the plane of the stop *)
Theorem C101_lossless_mask : forall g u, (g_padding g / 2 + g_size g <= g_total g)%nat -> (0 < g_total g)%nat -> lossless (g_apod g) -> lossless (g_mask g) ->
  energy (g_total g) (pupil_after g u) = energy (g_size g) u.
Proof.
  intros g u F T A M. unfold energy. apply after_lossless; auto. apply Nat.leb_le. exact F.
Qed.
Print Assumptions C101_lossless_mask.
Theorem C101_phase_masks_lossless : forall b d p, lossless (quadrants b d) /\ lossless (phase_only p) /\ lossless ones /\ passive (binary b).
Proof.
  intros b d p. repeat split; intros i j; unfold quadrants, phase_only, ones, binary; try apply abs2_cis; [unfold abs2, c1; cbn; ring|].
  destruct (b i j); [unfold abs2, c1|unfold abs2, c0]; cbn; lra.
Qed.
Print Assumptions C101_phase_masks_lossless.
(* a delay of whole waves is no mask at all *)
Theorem C101_whole_waves : forall b z i j, quadrants b (2 * PI * IZR z) i j = c1.
Proof. intros b z i j. unfold quadrants. destruct (b i j); [rewrite Rmult_1_l; apply cis_2PI_Z|rewrite Rmult_0_l; apply cis_0]. Qed.
Print Assumptions C101_whole_waves.

(* the electric field that is written gives back the computed field at the wavelength of the coronagraph; angle is only required to
   be the angle of the values that occur *)
Theorem C101_written_field : forall angle lambda g u v s0, lambda <> 0 -> (forall i j, cmul (creal (sqrt (abs2 (v i j)))) (cis (angle (v i j))) = v i j) ->
  forall i j, field_at lambda (ef_of angle lambda g u v s0) i j = v i j.
Proof.
  intros angle lambda g u v s0 L A i j. unfold field_at, ef_of. cbn [e_amp e_nm]. replace (angle (v i j) / (2 * PI) * lambda * (2 * PI / lambda)) with (angle (v i j)); [apply A|]. field. split; [exact L|apply PI_neq0].
Qed.
Print Assumptions C101_written_field.

(* the transmission is applied twice, once to the amplitude and once to the flux: the photons of the output are not the transmitted
   fraction of those of the input *)
Definition half_stop : coronagraph := mkCoronagraph 2 0 2 false ones ones (binary (fun i _ => (i =? 0)%nat)).
Theorem C101_photons_refuted : exists g u v s0 angle lambda, passive (g_apod g) /\ passive (g_mask g) /\ passive (g_stop g) /\ coro_out g u = Ok v /\
  photons (g_size g) (ef_of angle lambda g u v s0) <> transmission g u v * photons (g_size g) (mkEf (fun i j => sqrt (abs2 (u i j))) (fun _ _ => 0) s0).
Proof.
  exists half_stop, ones. eexists. exists 1, (fun _ => 0), 1.
  assert (P1 : passive ones) by (intros i j; unfold ones, abs2, c1; cbn; lra).
  split; [exact P1|]. split; [exact P1|]. split; [apply (C101_phase_masks_lossless (fun i _ => (i =? 0)%nat) 0 (fun _ _ => 0))|]. split; [reflexivity|].
  set (v := fun i j => _).
  assert (H : coro_out half_stop ones = Ok v) by reflexivity. assert (T : (0 < g_total half_stop)%nat) by (cbn; lia).
  assert (F : fits half_stop = true) by reflexivity.
  assert (V : forall i j, (i < 2)%nat -> (j < 2)%nat -> v i j = binary (fun i _ => (i =? 0)%nat) i j).
  { intros i j Hi Hj. unfold v. rewrite (after_constant half_stop F T ones c1 i j) by (auto). cbn [half_stop g_apod g_stop]. unfold ones. generalize (binary (fun i _ => (i =? 0)%nat) i j). intros. unfold c1. cring. }
  unfold photons. rewrite (C101_transmission _ _ _ T H). cbn [ef_of e_s0 e_amp]. rewrite (C101_transmission _ _ _ T H).
  assert (Ev : energy (g_size half_stop) v = 2).
  { unfold energy. cbn [half_stop g_size]. rewrite (rsum2_ext 2 2 _ (fun i j => abs2 (binary (fun i _ => (i =? 0)%nat) i j))) by (intros; now rewrite V). unfold rsum2, binary, abs2. cbn [rsum Nat.eqb]. unfold c1, c0. cbn [fst snd]. ring. }
  assert (Eu : energy (g_size half_stop) ones = 4).
  { unfold energy, rsum2, ones, abs2. cbn [half_stop g_size rsum]. unfold c1. cbn [fst snd]. ring. }
  assert (Av : rsum2 (g_size half_stop) (g_size half_stop) (fun i j => sqrt (abs2 (v i j))) = 2).
  { cbn [half_stop g_size]. rewrite (rsum2_ext 2 2 _ (fun i j => sqrt (abs2 (binary (fun i _ => (i =? 0)%nat) i j)))) by (intros; now rewrite V). unfold rsum2, binary, abs2. cbn [rsum Nat.eqb]. unfold c1, c0. cbn [fst snd].
    replace (1 * 1 + 0 * 0) with 1 by ring. replace (0 * 0 + 0 * 0) with 0 by ring. rewrite sqrt_1, sqrt_0. ring. }
  assert (Au : rsum2 (g_size half_stop) (g_size half_stop) (fun i j => sqrt (abs2 (ones i j))) = 4).
  { unfold rsum2, ones, abs2. cbn [half_stop g_size rsum]. unfold c1. cbn [fst snd]. replace (1 * 1 + 0 * 0) with 1 by ring. rewrite sqrt_1. ring. }
  rewrite Ev, Eu. match goal with |- ?a * rsum2 ?n ?m ?f <> _ => change (rsum2 n m f) with (rsum2 (g_size half_stop) (g_size half_stop) (fun i j => sqrt (abs2 (v i j)))) end. rewrite Av. cbn [e_s0 e_amp]. rewrite Au. lra.
Qed.
Print Assumptions C101_photons_refuted.

(* a phase-apodized pupil Lyot coronagraph with a knife edge, the default, can never be created *)
Theorem C101_knife_edge : forall inner outer owa, papl_init inner outer true owa <> Ok tt.
Proof. intros inner outer [o|]; unfold papl_init; destruct (Rlt_dec _ _); try discriminate; destruct (Rlt_dec _ _); discriminate. Qed.
Print Assumptions C101_knife_edge.
Theorem C101_no_knife_edge : forall inner outer owa, papl_init inner outer false owa = Ok tt <-> 0 <= inner <= outer /\ owa <> None.
Proof.
  intros inner outer owa. unfold papl_init. cbn [andb]. pose proof (Rmin_l inner outer) as L1. pose proof (Rmin_r inner outer) as L2.
  destruct (Rlt_dec (Rmin inner outer) 0) as [A|A].
  - split; [discriminate|]. intros [B _]. unfold Rmin in A. destruct (Rle_dec inner outer); lra.
  - destruct (Rlt_dec outer inner) as [B|B]; [split; [discriminate|lra]|]. destruct owa; split; try discriminate; try (intros [_ X]; congruence). intros _. split; [lra|discriminate].
Qed.
Print Assumptions C101_no_knife_edge.

(* a grey mask of transmission 1/2 in amplitude lets a quarter of the light through *)
Example C101_transmission_example : forall u v, coro_out (mkCoronagraph 2 2 4 false ones (fun _ _ => creal (/ 2)) ones) u = Ok v -> energy 2 u <> 0 -> transmission (mkCoronagraph 2 2 4 false ones (fun _ _ => creal (/ 2)) ones) u v = / 4.
Proof.
  intros u v H N. set (g := mkCoronagraph 2 2 4 false ones (fun _ _ => creal (/ 2)) ones) in *. assert (T : (0 < g_total g)%nat) by (cbn; lia). assert (F : fits g = true) by reflexivity.
  rewrite (C101_transmission g u v T H). change (g_size g) with 2%nat.
  replace (energy 2 v) with (/ 4 * energy 2 u); [field; exact N|]. symmetry. unfold energy. rewrite <- rsum2_mul_l. apply rsum2_ext. intros i j Hi Hj.
  unfold coro_out in H. rewrite F in H. injection H as <-. rewrite (after_constant g F T u (creal (/ 2)) i j) by (auto). unfold ones. cbn [g_apod g_stop g]. rewrite !abs2_mul, abs2_real. unfold ones, abs2, c1. cbn [fst snd]. field.
Qed.
