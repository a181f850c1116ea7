(* C109: the images of the modulated pyramid. *)
From Coq Require Import Reals List ZArith Bool Arith Lra Lia.
From Verif Require Import PyBase PyLemmas Fourier PsfModel PsfProofs ShImageModel ShImageProofs PyrModel PyrSpec PyrProofs.
From Verif Require OpticalModel InterpModel ScreenModel GeomModel.
Import ListNotations.
Local Open Scope R_scope.

(* the image is that of the field behind the prism, whose path grows with the distance from the edges, added over the modulation;
   the centre of the array of pupils is the centre of the field *)
Theorem C109_image : forall y u r c, sound y -> pupils y u r c = image_of y u r c.
Proof. exact pupils_image. Qed.
Print Assumptions C109_image.

(* the focal plane: every point of the modulation moves the light by the same number of pixels per unit of tilt *)
Theorem C109_focal : forall y u k l, sound y -> (k < y_tot y)%nat -> (l < y_tot y)%nat ->
  psf_bfm y u k l = wsum (y_mod y) (fun s => abs2 (arriving (y_tot y) (y_p y) u s k l)) / weights (y_mod y) /\ psf_tot y u k l = psf_bfm y u k l * y_mask y k l.
Proof.
  intros y u k l S Hk Hl. split; [|unfold psf_tot, psf_bfm; ring]. unfold psf_bfm. unfold Rdiv. rewrite Rmult_1_l. f_equal. apply wsum_ext. intros s _. rewrite <- (psf_val y u s k l S Hk Hl). reflexivity.
Qed.
Print Assumptions C109_focal.

(* four images of the field, each made by one quarter of the focal plane, moved by total size / scale along both axes *)
Theorem C109_faces : forall F p scale mask u s x y, (0 < F)%nat -> Nat.even F = true -> let d := INR F / scale in
  behind F p scale mask u s x y =
  cadd (cadd (face_field F p mask u s false false (x - d) (y - d)) (face_field F p mask u s false true (x - d) (y + d)))
       (cadd (face_field F p mask u s true false (x + d) (y - d)) (face_field F p mask u s true true (x + d) (y + d))).
Proof. exact behind_faces. Qed.
Print Assumptions C109_faces.
(* without the displacements the four images rebuild the field *)
Theorem C109_faces_rebuild : forall y u r c, sound y -> (r < y_p y)%nat -> (c < y_p y)%nat ->
  let f := fun low right => face_field (y_tot y) (y_p y) (fun _ _ => 1) u (mkPoint 0 0 1) low right (INR r) (INR c) in
  abs2 (cadd (cadd (f false false) (f false true)) (cadd (f true false) (f true true))) = abs2 (u r c).
Proof. exact faces_rebuild. Qed.
Print Assumptions C109_faces_rebuild.

(* a mirrored field gives mirrored images, on the array of the transforms and on the detector *)
Theorem C109_columns : forall y u kind amp n iter, sound y -> modulation kind amp n iter = Ok (y_mod y) -> (0 < n)%nat -> same_on (y_tot y) (columns_mirrored (y_tot y) (y_mask y)) (y_mask y) ->
  same_on (y_tot y) (pupils y (columns_mirrored (y_p y) u)) (columns_mirrored (y_tot y) (pupils y u)).
Proof.
  intros y u kind amp n iter S M N K r c Hr Hc. apply pupils_columns; auto. destruct kind; cbn in M; [injection M as <-; apply circular_columns; exact N|..]; exact (linear_unchanged _ _ _ _ true M).
Qed.
Print Assumptions C109_columns.
Theorem C109_rows : forall y u kind amp n iter, sound y -> modulation kind amp n iter = Ok (y_mod y) -> (0 < n)%nat -> (kind = Circular -> Nat.even n = true) -> same_on (y_tot y) (rows_mirrored (y_tot y) (y_mask y)) (y_mask y) ->
  same_on (y_tot y) (pupils y (rows_mirrored (y_p y) u)) (rows_mirrored (y_tot y) (pupils y u)).
Proof.
  intros y u kind amp n iter S M N E K r c Hr Hc. apply pupils_rows; auto. destruct kind; cbn in M; [injection M as <-; apply circular_rows; auto|..]; exact (linear_unchanged _ _ _ _ false M).
Qed.
Print Assumptions C109_rows.
Theorem C109_transposed : forall y u amp n, sound y -> y_mod y = circular amp n -> (0 < n)%nat -> (n mod 4 = 0)%nat -> same_on (y_tot y) (transposed (y_mask y)) (y_mask y) ->
  same_on (y_tot y) (pupils y (transposed u)) (transposed (pupils y u)).
Proof. intros y u amp n S M N D K r c Hr Hc. apply pupils_transposed; auto. rewrite M. apply circular_transposed; assumption. Qed.
Print Assumptions C109_transposed.
Lemma light_columns p u : light p (columns_mirrored p u) = light p u.
Proof. unfold light. apply rsum2_columns. reflexivity. Qed.
Lemma light_rows p u : light p (rows_mirrored p u) = light p u.
Proof. unfold light. apply rsum2_rows. reflexivity. Qed.
Theorem C109_detector : forall y u kind amp n iter phot bin side, sound y -> modulation kind amp n iter = Ok (y_mod y) -> (0 < n)%nat -> positive_weights (y_mod y) -> binary (y_tot y) (y_mask y) ->
  (0 < bin)%nat -> (y_tot y mod bin = 0)%nat -> Nat.even (side + y_tot y / bin) = true ->
  (same_on (y_tot y) (columns_mirrored (y_tot y) (y_mask y)) (y_mask y) -> same_on side (detector y (columns_mirrored (y_p y) u) phot bin side) (columns_mirrored side (detector y u phot bin side))) /\
  (same_on (y_tot y) (rows_mirrored (y_tot y) (y_mask y)) (y_mask y) -> (kind = Circular -> Nat.even n = true) -> same_on side (detector y (rows_mirrored (y_p y) u) phot bin side) (rows_mirrored side (detector y u phot bin side))).
Proof.
  intros y u kind amp n iter phot bin side S M N W B Hb D E. set (t := (y_tot y / bin)%nat) in *. assert (T : (t * bin = y_tot y)%nat). { pose proof (Nat.div_mod (y_tot y) bin ltac:(lia)) as X. fold t in X. rewrite D in X. lia. } split.
  - intros K r c Hr Hc. unfold detector, columns_mirrored at 2. fold t. apply on_detector_columns; auto. intros a b Ha Hb'. apply binned_columns; auto. rewrite T. intros i j Hi Hj. pose proof (C109_columns y u kind amp n iter S M N K) as P.
    apply same_bright; auto; [apply light_columns|apply rsum2_columns; exact P|apply P; assumption].
  - intros K Ev r c Hr Hc. unfold detector, rows_mirrored at 2. fold t. rewrite (on_detector_swap t side _ r c), (on_detector_swap t side _ (side - 1 - r)%nat c). apply on_detector_columns; auto. intros a b Ha Hb'. rewrite binned_swap, (binned_swap bin _ (t - 1 - b)%nat a). apply binned_columns; auto.
    rewrite T. intros i j Hi Hj. pose proof (C109_rows y u kind amp n iter S M N Ev K) as P. apply same_bright; auto; [apply light_rows|apply rsum2_rows; exact P|apply P; assumption].
Qed.
Print Assumptions C109_detector.
(* a field that is its own mirror gives images that are their own mirrors *)
Theorem C109_symmetric : forall y u kind amp n iter, sound y -> modulation kind amp n iter = Ok (y_mod y) -> (0 < n)%nat -> same_on (y_tot y) (columns_mirrored (y_tot y) (y_mask y)) (y_mask y) ->
  same_on (y_p y) (columns_mirrored (y_p y) u) u -> same_on (y_tot y) (columns_mirrored (y_tot y) (pupils y u)) (pupils y u).
Proof.
  intros y u kind amp n iter S M N K U r c Hr Hc. rewrite <- (C109_columns y u kind amp n iter S M N K r c Hr Hc). rewrite !C109_image by exact S. unfold image_of. apply wsum_ext. intros s _. f_equal. apply behind_ext; [intros ? ? ? ?; reflexivity|exact U].
Qed.
Print Assumptions C109_symmetric.

(* light *)
Theorem C109_light : forall y u, sound y -> positive_weights (y_mod y) -> rsum2 (y_tot y) (y_tot y) (psf_bfm y u) = INR (y_tot y) * INR (y_tot y) * light (y_p y) u.
Proof. intros y u S W. apply bfm_light; [exact S|]. apply weights_pos in W. lra. Qed.
Print Assumptions C109_light.
Theorem C109_transmission : forall y u, sound y -> positive_weights (y_mod y) -> 0 < light (y_p y) u -> (forall k l, (k < y_tot y)%nat -> (l < y_tot y)%nat -> 0 <= y_mask y k l <= 1) ->
  0 <= transmission y u <= 1 /\ ((forall k l, (k < y_tot y)%nat -> (l < y_tot y)%nat -> y_mask y k l = 1) -> transmission y u = 1).
Proof. intros y u S W L M. split; [apply transmission_range; assumption|]. intros O. apply transmission_open; assumption. Qed.
Print Assumptions C109_transmission.
Theorem C109_flux : forall y u phot bin side, sound y -> positive_weights (y_mod y) -> binary (y_tot y) (y_mask y) -> transmission y u <> 0 -> phot <> 0 -> (0 < bin)%nat -> (y_tot y mod bin = 0)%nat ->
  rsum2 side side (detector y u phot bin side) = phot * transmission y u * inside y u phot bin side.
Proof.
  intros y u phot bin side S W B T P Hb D. assert (E : rsum2 (y_tot y / bin) (y_tot y / bin) (binned bin (bright y u phot)) = phot * transmission y u).
  { rewrite binned_sum. replace (y_tot y / bin * bin)%nat with (y_tot y) by (pose proof (Nat.div_mod (y_tot y) bin ltac:(lia)); lia). apply bright_light; assumption. }
  unfold inside. destruct (Nat.ltb_spec side (y_tot y / bin)) as [L|L].
  - rewrite E. field. split; assumption.
  - unfold detector. rewrite on_detector_larger by exact L. rewrite E. ring.
Qed.
Print Assumptions C109_flux.
Theorem C109_inside : forall y u phot bin side, sound y -> positive_weights (y_mod y) -> binary (y_tot y) (y_mask y) -> transmission y u <> 0 -> 0 < light (y_p y) u -> 0 < phot -> (0 < bin)%nat -> (y_tot y mod bin = 0)%nat -> 0 <= inside y u phot bin side <= 1.
Proof.
  intros y u phot bin side S W B T U P Hb D. assert (M : forall k l, (k < y_tot y)%nat -> (l < y_tot y)%nat -> 0 <= y_mask y k l <= 1) by (intros k l Hk Hl; destruct (B k l Hk Hl) as [-> | ->]; lra).
  pose proof (transmission_range y u S W U M) as R. assert (E : rsum2 (y_tot y / bin) (y_tot y / bin) (binned bin (bright y u phot)) = phot * transmission y u).
  { rewrite binned_sum. replace (y_tot y / bin * bin)%nat with (y_tot y) by (pose proof (Nat.div_mod (y_tot y) bin ltac:(lia)); lia). apply bright_light; assumption. }
  assert (E0 : 0 < phot * transmission y u) by (apply Rmult_lt_0_compat; lra).
  assert (Q : forall s, In s (y_mod y) -> 0 <= m_w s) by (intros s I; left; apply W, I).
  assert (Pn : forall r c, 0 <= pupils y u r c).
  { intros r c. rewrite C109_image by exact S. unfold image_of. replace 0 with (wsum (y_mod y) (fun _ => 0)) by (rewrite wsum_const; ring). apply wsum_le; [exact Q|]. intros. apply abs2_nonneg. }
  assert (Bn : forall r c, 0 <= bright y u phot r c).
  { intros r c. unfold bright. apply Rmult_le_pos; [apply Pn|]. apply Rmult_le_pos; [|lra]. pose proof (rsum2_nonneg (y_tot y) (y_tot y) (pupils y u) ltac:(intros; apply Pn)) as X. unfold Rdiv. apply Rmult_le_pos; [lra|]. destruct X as [X|X]; [left; apply Rinv_0_lt_compat, X|rewrite <- X, Rinv_0; lra]. }
  assert (Nn : forall r c, 0 <= binned bin (bright y u phot) r c) by (intros; apply rsum2_nonneg; intros; apply Bn).
  unfold inside. destruct (Nat.ltb_spec side (y_tot y / bin)) as [L|L]; [|lra]. rewrite E. set (t := (y_tot y / bin)%nat) in *. set (x := rsum2 side side (detector y u phot bin side)).
  assert (X : 0 <= x <= phot * transmission y u).
  { unfold x, detector. fold t. unfold on_detector. destruct (Nat.ltb_spec t side); [lia|]. cbv zeta. split; [apply rsum2_nonneg; intros; apply Nn|]. rewrite <- E. apply rsum2_window; [|intros; apply Nn].
    pose proof (Nat.mul_div_le (t - side) 2 ltac:(lia)). lia. }
  split; [apply Rmult_le_pos; [lra|left; apply Rinv_0_lt_compat; lra]|]. apply Rmult_le_reg_r with (phot * transmission y u); [lra|]. unfold Rdiv. rewrite Rmult_assoc, Rinv_l by lra. lra.
Qed.
Print Assumptions C109_inside.

(* a constant phase has no effect, and the images of a stronger field are the same *)
Theorem C109_constant : forall y u z r c phot, sound y -> positive_weights (y_mod y) -> binary (y_tot y) (y_mask y) -> 0 < abs2 z -> let u' := fun a b => cmul z (u a b) in
  pupils y u' r c = abs2 z * pupils y u r c /\ transmission y u' = transmission y u /\ bright y u' phot r c = bright y u phot r c.
Proof.
  intros y u z r c phot S W B Z u'. assert (P : forall r c, pupils y u' r c = abs2 z * pupils y u r c).
  { intros a b. rewrite !C109_image by exact S. unfold image_of. rewrite <- wsum_mul. apply wsum_ext. intros s _. rewrite <- abs2_mul. f_equal. unfold behind.
    match goal with |- _ = cmul z (cmul ?k ?x) => transitivity (cmul k (cmul z x)); [|cring] end. f_equal. rewrite <- csum2_mul_l. apply csum2_ext. intros k l _ _.
    match goal with |- _ = cmul z (cmul (cmul ?a ?b) ?e) => transitivity (cmul (cmul (cmul z a) b) e); [|cring] end. f_equal. f_equal. unfold arriving, ray. rewrite <- csum2_mul_l. apply csum2_ext. intros. unfold u'. cring. }
  assert (Sum : rsum2 (y_tot y) (y_tot y) (pupils y u') = abs2 z * rsum2 (y_tot y) (y_tot y) (pupils y u)) by (rewrite <- rsum2_mul_l; apply rsum2_ext; intros; apply P).
  assert (L : light (y_p y) u' = abs2 z * light (y_p y) u) by (unfold light; rewrite <- rsum2_mul_l; apply rsum2_ext; intros; apply abs2_mul).
  assert (T : transmission y u' = transmission y u). { rewrite !transmission_pupils by assumption. rewrite Sum, L. unfold Rdiv. rewrite !Rinv_mult.
    transitivity (abs2 z * / abs2 z * (rsum2 (y_tot y) (y_tot y) (pupils y u) * (/ weights (y_mod y) * / light (y_p y) u))); [ring|]. rewrite Rinv_r by lra. ring. }
  split; [apply P|split; [exact T|]]. unfold bright. rewrite T, Sum, P. unfold Rdiv. rewrite !Rinv_mult.
  transitivity (abs2 z * / abs2 z * (pupils y u r c * (phot * / rsum2 (y_tot y) (y_tot y) (pupils y u) * transmission y u))); [ring|]. rewrite Rinv_r by lra. ring.
Qed.
Print Assumptions C109_constant.

(* the weights of the points *)
Theorem C109_weights : forall kind amp n iter l, 0 < amp -> (0 < n)%nat -> modulation kind amp n iter = Ok l ->
  length l = n /\ positive_weights l /\ (forall s, In s l -> 1 <= m_w s) /\ (kind = Circular -> forall s, In s l -> m_w s = 1 /\ m_x s * m_x s + m_y s * m_y s = amp * amp) /\ (forall s, In s l -> Rabs (m_x s) <= amp /\ Rabs (m_y s) <= amp).
Proof.
  intros kind amp n iter l A N M.
  assert (Ci : kind = Circular -> l = circular amp n) by (intros ->; cbn in M; congruence).
  assert (Li : kind <> Circular -> exists h, linear h amp n = Ok l) by (destruct kind; cbn in M; [congruence|..]; eauto).
  assert (D : {kind = Circular} + {kind <> Circular}) by (destruct kind; [left; reflexivity|right; congruence..]). destruct D as [D|D].
  - rewrite (Ci D). unfold circular. assert (P : forall s, In s (circular amp n) -> m_w s = 1 /\ m_x s * m_x s + m_y s * m_y s = amp * amp).
    { intros s I. unfold circular in I. apply in_map_iff in I. destruct I as [t [<- _]]. cbn [m_w m_x m_y]. split; [reflexivity|]. pose proof (sin2_cos2 (2 * PI * (INR t / INR n))) as X. unfold Rsqr in X. nra. }
    split; [rewrite map_length, seq_length; reflexivity|]. split; [split; [destruct n; [lia|discriminate]|intros s I; destruct (P s I) as [-> _]; lra]|]. split; [intros s I; destruct (P s I) as [-> _]; lra|]. split; [intros _; exact P|].
    intros s I. destruct (P s I) as [_ X]. split; apply Rabs_le; split; nra.
  - destruct (Li D) as [h H]. apply linear_ok in H. destruct H as [N1 ->]. assert (N2 : (2 <= n)%nat) by lia. set (l := map _ _).
    assert (P : forall s, In s l -> 1 <= m_w s /\ Rabs (m_x s) <= amp /\ Rabs (m_y s) <= amp).
    { intros s I. apply in_map_iff in I. destruct I as [t [<- I]]. apply in_seq in I. cbn [m_w]. split; [apply flux_factor_pos; [exact A|exact N2|lia]|].
      assert (V : Rabs (tilt_value amp n (INR t)) <= amp). { unfold tilt_value. assert (Q : 2 <= INR n) by (change 2 with (INR 2); apply le_INR; exact N2). assert (T0 := pos_INR t). assert (T1 : INR t <= INR n - 1) by (replace (INR n - 1) with (INR (n - 1)) by (rewrite minus_INR by lia; reflexivity); apply le_INR; lia).
        assert (Z : 0 <= INR t / (INR n - 1) <= 1). { split; [apply Rmult_le_pos; [lra|left; apply Rinv_0_lt_compat; lra]|]. apply Rmult_le_reg_r with (INR n - 1); [lra|]. unfold Rdiv. rewrite Rmult_assoc, Rinv_l by lra. lra. }
        replace (2 * INR t / (INR n - 1)) with (2 * (INR t / (INR n - 1))) by (unfold Rdiv; ring). apply Rabs_le. nra. }
      assert (R0 : Rabs 0 <= amp) by (rewrite Rabs_R0; lra). destruct h; cbn [m_x m_y]; auto. }
    split; [unfold l; rewrite map_length, seq_length; reflexivity|]. split; [split; [unfold l; destruct n; [lia|discriminate]|intros s I; destruct (P s I); lra]|]. split; [intros s I; apply P, I|]. split; [intros; congruence|]. intros s I. apply P, I.
Qed.
Print Assumptions C109_weights.

(* a small pyramid *)
Definition small (l : list point) : pyr := mkPyr 2 2 4 4 (fun _ _ => 1) l.
Lemma small_sound l : sound (small l). Proof. split; cbn; auto. Qed.
(* light only in the first column, or in the first row *)
Definition first_column : field := fun _ b => if (b =? 0)%nat then c1 else c0.
Definition first_row : field := fun a _ => if (a =? 0)%nat then c1 else c0.
Lemma column_ray x y : abs2 (ray 4 2 first_column x y) = 2 + 2 * cos (PI * x / 2).
Proof.
  unfold ray, csum2, first_column. cbn [csum Nat.eqb]. rewrite !cmul_0_l. replace (cis (- (2 * PI * (INR 0 * x + INR 0 * y) / INR 4))) with c1 by (rewrite <- cis_0; f_equal; cbn; field).
  replace (- (2 * PI * (INR 1 * x + INR 0 * y) / INR 4)) with (- (PI * x / 2)) by (cbn; field). rewrite cis_opp. unfold abs2, cis, cconj, cadd, cmul, c0, c1. cbn [fst snd]. pose proof (sin2_cos2 (PI * x / 2)) as E. unfold Rsqr in E. nra.
Qed.
Lemma row_ray x y : abs2 (ray 4 2 first_row x y) = 2 + 2 * cos (PI * y / 2).
Proof.
  unfold ray, csum2, first_row. cbn [csum Nat.eqb]. rewrite !cmul_0_l. replace (cis (- (2 * PI * (INR 0 * x + INR 0 * y) / INR 4))) with c1 by (rewrite <- cis_0; f_equal; cbn; field).
  replace (- (2 * PI * (INR 0 * x + INR 1 * y) / INR 4)) with (- (PI * y / 2)) by (cbn; field). rewrite cis_opp. unfold abs2, cis, cconj, cadd, cmul, c0, c1. cbn [fst snd]. pose proof (sin2_cos2 (PI * y / 2)) as E. unfold Rsqr in E. nra.
Qed.
(* the amplitude of the modulation is not in units of wavelength / diameter: the tilt is one wavelength between the centres of
   the first and of the last samples, not across the diameter *)
Theorem C109_amplitude_refuted : exists y u k l, sound y /\ y_mod y = [mkPoint 1 0 1] /\ (k < y_tot y)%nat /\ (l < y_tot y)%nat /\
  psf_bfm y u k l <> abs2 (ray (y_tot y) (y_p y) u (at_pixel (y_tot y) k) (at_pixel (y_tot y) l + INR (y_tot y) / INR (y_p y))).
Proof.
  exists (small [mkPoint 1 0 1]), first_row, 2%nat, 2%nat. split; [apply small_sound|]. split; [reflexivity|]. split; [cbn; lia|]. split; [cbn; lia|].
  destruct (C109_focal (small [mkPoint 1 0 1]) first_row 2 2 (small_sound _) ltac:(cbn; lia) ltac:(cbn; lia)) as [-> _]. cbn [y_mod small y_tot y_p]. unfold wsum, weights, arriving. cbn [fold_right m_x m_y m_w]. rewrite !row_ray.
  unfold at_pixel, step_px. replace (PI * (INR 2 - INR 4 / 2 + / 2 + 1 * (INR 4 / (INR 2 - 1))) / 2) with (PI / 4 + 2 * INR 1 * PI) by (cbn; field). rewrite cos_period.
  replace (PI * (INR 2 - INR 4 / 2 + / 2 + INR 4 / INR 2) / 2) with (PI / 4 + PI) by (cbn; field). rewrite neg_cos, cos_PI4. assert (0 < 1 / sqrt 2) by (apply Rmult_lt_0_compat; [lra|apply Rinv_0_lt_compat, sqrt_lt_R0; lra]). intros E.
  set (x := 1 / sqrt 2) in *. replace (((2 + 2 * x) * 1 + 0) / (1 + 0)) with (2 + 2 * x) in E by field. lra.
Qed.
Print Assumptions C109_amplitude_refuted.
(* a single point of a circular modulation, the default for small amplitudes, is off the axis *)
Theorem C109_single_point_refuted : exists y u amp k l, sound y /\ 0 < amp /\ modulation Circular amp 1 0 = Ok (y_mod y) /\ (k < y_tot y)%nat /\ (l < y_tot y)%nat /\
  same_on (y_p y) (rows_mirrored (y_p y) u) u /\ same_on (y_tot y) (rows_mirrored (y_tot y) (y_mask y)) (y_mask y) /\ psf_bfm y u (y_tot y - 1 - k)%nat l <> psf_bfm y u k l.
Proof.
  exists (small (circular (/ 8) 1)), first_column, (/ 8), 2%nat, 2%nat. split; [apply small_sound|]. split; [lra|]. split; [reflexivity|]. split; [cbn; lia|]. split; [cbn; lia|]. split; [intros r c _ _; reflexivity|]. split; [intros r c _ _; reflexivity|].
  cbn [y_tot small]. change (4 - 1 - 2)%nat with 1%nat.
  destruct (C109_focal (small (circular (/ 8) 1)) first_column 2 2 (small_sound _) ltac:(cbn; lia) ltac:(cbn; lia)) as [-> _]. destruct (C109_focal (small (circular (/ 8) 1)) first_column 1 2 (small_sound _) ltac:(cbn; lia) ltac:(cbn; lia)) as [-> _].
  cbn [y_mod small y_tot y_p]. unfold wsum, weights, arriving, circular. cbn [seq map fold_right m_x m_y m_w]. rewrite !column_ray. replace (2 * PI * (INR 0 / INR 1)) with 0 by (cbn; field). rewrite cos_0. unfold at_pixel, step_px.
  replace (PI * (INR 2 - INR 4 / 2 + / 2 + / 8 * 1 * (INR 4 / (INR 2 - 1))) / 2) with (PI / 2) by (cbn; field). replace (PI * (INR 1 - INR 4 / 2 + / 2 + / 8 * 1 * (INR 4 / (INR 2 - 1))) / 2) with 0 by (cbn; field). rewrite cos_0, cos_PI2.
  intros E. replace (((2 + 2 * 1) * 1 + 0) / (1 + 0)) with 4 in E by field. replace (((2 + 2 * 0) * 1 + 0) / (1 + 0)) with 2 in E by field. lra.
Qed.
Print Assumptions C109_single_point_refuted.

Example C109_image_example : pupils (small (circular 1 4)) first_row 1%nat 2%nat = image_of (small (circular 1 4)) first_row 1%nat 2%nat.
Proof. apply C109_image, small_sound. Qed.
Example C109_light_example : rsum2 4 4 (psf_bfm (small (circular 1 4)) first_row) = 32 /\ transmission (small (circular 1 4)) first_row = 1.
Proof.
  assert (W : positive_weights (circular 1 4)) by (apply (C109_weights Circular 1 4 0); [lra|lia|reflexivity]).
  assert (L : light 2 first_row = 2) by (unfold light, rsum2, first_row; cbn [rsum Nat.eqb]; unfold abs2, c0, c1; cbn [fst snd]; ring). split.
  - etransitivity; [exact (C109_light (small (circular 1 4)) first_row (small_sound _) W)|]. cbn [small y_tot y_p]. rewrite L. cbn. ring.
  - apply (C109_transmission (small (circular 1 4)) first_row (small_sound _) W); [cbn [small y_p]; rewrite L; lra|intros; cbn; lra|intros; reflexivity].
Qed.
Example C109_rows_example : same_on 4 (pupils (small (circular 1 4)) (rows_mirrored 2 first_row)) (rows_mirrored 4 (pupils (small (circular 1 4)) first_row)).
Proof. apply (C109_rows (small (circular 1 4)) first_row Circular 1 4 0 (small_sound _) eq_refl); [lia|reflexivity|intros r c _ _; reflexivity]. Qed.
Example C109_weights_example : modulation Horizontal 1 1 0 = Err ZeroDivisionError /\ forall l, modulation Alternating 1 3 1 = Ok l -> exists w, l = [mkPoint (tilt_value 1 3 0) 0 w; mkPoint (tilt_value 1 3 1) 0 (flux_factor 1 3 1); mkPoint (tilt_value 1 3 2) 0 w] /\ flux_factor 1 3 1 = 1.
Proof.
  split; [reflexivity|]. intros l H. injection H as <-. exists (flux_factor 1 3 0). change [0; 1; 2]%nat with (seq 0 3). cbn [seq map]. rewrite <- (flux_factor_rev 1 3 0) by lia. split; [reflexivity|].
  unfold flux_factor, avg_tilt. cbn [Nat.eqb Nat.sub]. unfold tilt_value. cbn [INR]. replace (1 * (2 * 1 / (1 + 1 + 1 - 1) - 1)) with 0 by field. rewrite Rabs_R0. replace (0 * PI / (2 * 1)) with 0 by field. rewrite cos_0. field.
Qed.
