(* C98, C99: images of a point and the PSF object. *)
From Coq Require Import Reals List ZArith Bool Arith Lia Lra QArith Qcanon.
From Verif Require Import PyBase PyLemmas Fourier InterpModel PsfModel PsfSpec PsfProofs PsfProofs2 PsfSize.
Import ListNotations.
Local Open Scope R_scope.

(* ---------------------------------------------------------------- C98: calc_psf *)

(* The image is the power spectrum of the pupil field, centred or not, over its total; the total is the number of pixels
   times the sum of the squared amplitudes, whatever the phase. *)
Theorem C98_is_power_spectrum : forall n m phase amp w nz nc r, calc_psf n m phase amp w nz nc = Ok r -> (0 < rows_of n w)%nat -> (0 < rows_of m w)%nat ->
  p_rows r = rows_of n w /\ p_cols r = rows_of m w /\ p_total r = INR (rows_of n w) * INR (rows_of m w) * energy n m amp /\
  forall k l, p_val r k l = abs2 (focal n m (rows_of n w) (rows_of m w) amp phase (Z.of_nat k - centre_of nc (rows_of n w)) (Z.of_nat l - centre_of nc (rows_of m w)))
                            / (if nz then INR (rows_of n w) * INR (rows_of m w) * energy n m amp else 1).
Proof. exact calc_psf_value. Qed.
Print Assumptions C98_is_power_spectrum.

(* It exists exactly when the array is not smaller than the pupil; the alternative is ValueError. *)
Theorem C98_needs_room : forall n m phase amp w nz nc,
  ((exists r, calc_psf n m phase amp w nz nc = Ok r) <-> (n <= rows_of n w)%nat /\ (m <= rows_of m w)%nat) /\
  (forall e, calc_psf n m phase amp w nz nc = Err e -> e = ValueError).
Proof.
  intros. split; [apply calc_psf_defined|]. intros e. destruct w as [w|]; cbn [calc_psf]; [|discriminate]. destruct ((n <=? w)%nat && (m <=? w)%nat); [discriminate|]. now intros [= <-].
Qed.
Print Assumptions C98_needs_room.

(* The normalised image of a pupil that is not dark is a distribution: values between 0 and 1, of sum 1. *)
Theorem C98_normalised : forall n m phase amp w nc r, calc_psf n m phase amp w true nc = Ok r -> (0 < rows_of n w)%nat -> (0 < rows_of m w)%nat -> energy n m amp <> 0 ->
  rsum2 (p_rows r) (p_cols r) (p_val r) = 1 /\ forall k l, (k < p_rows r)%nat -> (l < p_cols r)%nat -> 0 <= p_val r k l <= 1.
Proof.
  intros n m phase amp w nc r H HN HM He. destruct (calc_psf_value _ _ _ _ _ _ _ _ H HN HM) as (R1 & R2 & T & V). rewrite R1, R2.
  set (N := rows_of n w) in *. set (M := rows_of m w) in *. assert (WN : INR N <> 0) by (apply not_0_INR; lia). assert (WM : INR M <> 0) by (apply not_0_INR; lia).
  assert (P : 0 < INR N * INR M * energy n m amp).
  { pose proof (energy_nonneg n m amp). assert (0 < energy n m amp) by lra. assert (0 < INR N) by (apply lt_0_INR; lia). assert (0 < INR M) by (apply lt_0_INR; lia).
    apply Rmult_lt_0_compat; [apply Rmult_lt_0_compat; auto|auto]. }
  assert (S : rsum2 N M (p_val r) = 1).
  { assert (D : forall k l, p_val r k l = abs2 (focal n m N M amp phase (Z.of_nat k - centre_of nc N) (Z.of_nat l - centre_of nc M)) * / (INR N * INR M * energy n m amp)) by exact V.
    rewrite (rsum2_ext N M _ _ (fun k l _ _ => D k l)), rsum2_mul_r.
    replace (rsum2 N M _) with (p_total r); [rewrite T; apply Rinv_r; lra|].
    destruct (proj2 (calc_psf_defined n m phase amp w false nc)) as [r' H']; [apply (calc_psf_defined n m phase amp w true nc); eauto|].
    destruct (calc_psf_value _ _ _ _ _ _ _ _ H' HN HM) as (Q1 & Q2 & T' & V'). replace (p_total r) with (p_total r') by (rewrite T, T'; reflexivity).
    replace (p_total r') with (rsum2 N M (p_val r')).
    - apply rsum2_ext. intros k l _ _. rewrite V'. fold N M. field.
    - destruct w as [w|]; cbn [calc_psf] in H'; [destruct ((n <=? w)%nat && (m <=? w)%nat); [|discriminate]|]; injection H' as <-; reflexivity. }
  split; [exact S|].
  assert (NN : forall k l, 0 <= p_val r k l). { intros k l. rewrite V. apply Rle_mult_inv_pos; [apply abs2_nonneg|exact P]. }
  intros k l Hk Hl. split; [apply NN|]. rewrite <- S. unfold rsum2.
  assert (G : forall n f k, (k < n)%nat -> (forall i, 0 <= f i) -> f k <= rsum n f).
  { clear. intros n f k Hk Hf. induction n as [|n IH]; [lia|]. cbn [rsum]. pose proof (Hf n). destruct (Nat.eq_dec k n) as [->|]; [|pose proof (IH ltac:(lia)); lra].
    pose proof (rsum_nonneg n f ltac:(auto)). lra. }
  apply Rle_trans with (rsum M (p_val r k)); [apply G; auto|]. apply (G N (fun i => rsum M (p_val r i))); auto. intros. apply rsum_nonneg. auto.
Qed.
Print Assumptions C98_normalised.

(* On the axis is the modulus squared of the sum of the field; nothing exceeds the square of the sum of the amplitudes,
   which is reached on the axis when the phase is flat. *)
Theorem C98_peak : forall n m phase amp w nc r, calc_psf n m phase amp w false nc = Ok r -> (0 < rows_of n w)%nat -> (0 < rows_of m w)%nat ->
  let c := fun N => if nc then 0%nat else (N / 2)%nat in
  let axis := p_val r (c (rows_of n w)) (c (rows_of m w)) in
  axis = abs2 (csum2 n m (fun i j => cmul (creal (amp i j)) (cis (phase i j)))) /\
  ((forall i j, (i < n)%nat -> (j < m)%nat -> 0 <= amp i j) -> forall k l, p_val r k l <= area n m amp * area n m amp) /\
  ((forall i j, (i < n)%nat -> (j < m)%nat -> phase i j = phase 0%nat 0%nat) -> axis = area n m amp * area n m amp).
Proof.
  intros n m phase amp w nc r H HN HM c axis. destruct (calc_psf_value _ _ _ _ _ _ _ _ H HN HM) as (R1 & R2 & T & V).
  set (N := rows_of n w) in *. set (M := rows_of m w) in *.
  assert (A : axis = abs2 (csum2 n m (fun i j => cmul (creal (amp i j)) (cis (phase i j))))).
  { unfold axis. rewrite V. replace (Z.of_nat (c N) - centre_of nc N)%Z with 0%Z by (unfold c, centre_of; destruct nc; lia).
    replace (Z.of_nat (c M) - centre_of nc M)%Z with 0%Z by (unfold c, centre_of; destruct nc; lia). rewrite focal_axis. field. }
  split; [exact A|]. split.
  - intros Hp k l. rewrite V. unfold Rdiv. rewrite Rinv_1, Rmult_1_r. now apply focal_le.
  - intros Hf. rewrite A. rewrite (csum2_ext n m _ (fun i j => cmul (creal (amp i j)) (cis (phase 0%nat 0%nat)))) by (intros; now rewrite Hf).
    rewrite csum2_mul_r, abs2_mul, abs2_cis, csum2_real, abs2_real. unfold area. ring.
Qed.
Print Assumptions C98_peak.

(* A piston changes nothing, and neither do whole waves, different from pixel to pixel. *)
Theorem C98_blind_to_piston_and_waves : forall n m phase amp w nz nc r c (turns : nat -> nat -> Z) r',
  calc_psf n m phase amp w nz nc = Ok r -> calc_psf n m (fun i j => phase i j + c + 2 * PI * IZR (turns i j)) amp w nz nc = Ok r' -> (0 < rows_of n w)%nat -> (0 < rows_of m w)%nat ->
  p_total r' = p_total r /\ forall k l, p_val r' k l = p_val r k l.
Proof.
  intros n m phase amp w nz nc r c turns r' H H' HN HM. destruct (calc_psf_value _ _ _ _ _ _ _ _ H HN HM) as (_ & _ & T & V). destruct (calc_psf_value _ _ _ _ _ _ _ _ H' HN HM) as (_ & _ & T' & V').
  split; [congruence|]. intros k l. rewrite V, V'. f_equal. rewrite <- (focal_piston n m _ _ amp phase c). f_equal. apply focal_ext; [auto|]. intros i j _ _.
  rewrite cis_add, cis_2PI_Z. apply cmul_1_r.
Qed.
Print Assumptions C98_blind_to_piston_and_waves.

(* A tilt of [a] and [b] waves over the array moves the image by [a] rows and [b] columns, around the edges. *)
Theorem C98_tilt_moves : forall n m phase amp w nz nc r (a b : nat) r',
  calc_psf n m phase amp w nz nc = Ok r -> (0 < rows_of n w)%nat -> (0 < rows_of m w)%nat ->
  calc_psf n m (fun i j => phase i j + 2 * PI * (INR i * INR a / INR (rows_of n w) + INR j * INR b / INR (rows_of m w))) amp w nz nc = Ok r' ->
  p_total r' = p_total r /\ forall k l, p_val r' ((k + a) mod rows_of n w)%nat ((l + b) mod rows_of m w)%nat = p_val r k l.
Proof.
  intros n m phase amp w nz nc r a b r' H HN HM H'. destruct (calc_psf_value _ _ _ _ _ _ _ _ H HN HM) as (_ & _ & T & V). destruct (calc_psf_value _ _ _ _ _ _ _ _ H' HN HM) as (_ & _ & T' & V').
  split; [congruence|]. set (N := rows_of n w) in *. set (M := rows_of m w) in *. intros k l. rewrite V, V'. f_equal. rewrite !INR_IZR_INZ with (n := a). rewrite !INR_IZR_INZ with (n := b).
  rewrite (focal_tilt n m N M amp phase (Z.of_nat a) (Z.of_nat b)) by auto.
  pose proof (Nat.div_mod (k + a) N ltac:(lia)) as E1. pose proof (Nat.div_mod (l + b) M ltac:(lia)) as E2.
  rewrite <- (focal_period n m N M amp phase (Z.of_nat k - centre_of nc N) (Z.of_nat l - centre_of nc M) (- Z.of_nat ((k + a) / N)) (- Z.of_nat ((l + b) / M))) by auto.
  f_equal. f_equal; nia.
Qed.
Print Assumptions C98_tilt_moves.

(* The opposite phase gives the image turned by half a turn around the axis. *)
Theorem C98_opposite_phase_turns : forall n m phase amp w nz nc r r',
  calc_psf n m phase amp w nz nc = Ok r -> (0 < rows_of n w)%nat -> (0 < rows_of m w)%nat -> calc_psf n m (fun i j => - phase i j) amp w nz nc = Ok r' ->
  let turn := fun N k => (if nc then (N - k) mod N else (2 * (N / 2) + N - k) mod N)%nat in
  p_total r' = p_total r /\ forall k l, (k < rows_of n w)%nat -> (l < rows_of m w)%nat -> p_val r' k l = p_val r (turn (rows_of n w) k) (turn (rows_of m w) l).
Proof.
  intros n m phase amp w nz nc r r' H HN HM H' turn. destruct (calc_psf_value _ _ _ _ _ _ _ _ H HN HM) as (_ & _ & T & V). destruct (calc_psf_value _ _ _ _ _ _ _ _ H' HN HM) as (_ & _ & T' & V').
  split; [congruence|]. set (N := rows_of n w) in *. set (M := rows_of m w) in *. intros k l Hk Hl. rewrite V, V'. f_equal. rewrite focal_neg, abs2_conj.
  assert (Q : forall N k, (0 < N)%nat -> (k < N)%nat -> exists s, (- (Z.of_nat k - centre_of nc N) = Z.of_nat (turn N k) - centre_of nc N + Z.of_nat N * s)%Z).
  { clear. intros N k HN Hk. unfold turn, centre_of. destruct nc.
    - exists (Z.of_nat ((N - k) / N) - 1)%Z. pose proof (Nat.div_mod (N - k) N ltac:(lia)). nia.
    - exists (Z.of_nat ((2 * (N / 2) + N - k) / N) - 1)%Z. pose proof (Nat.div_mod (2 * (N / 2) + N - k) N ltac:(lia)). nia. }
  destruct (Q N k HN Hk) as [s Es]. destruct (Q M l HM Hl) as [t Et]. rewrite Es, Et, focal_period by auto. reflexivity.
Qed.
Print Assumptions C98_opposite_phase_turns.

(* A uniform change of transmission changes only the total: the normalised image stays. *)
Theorem C98_scaled_amplitude : forall n m phase amp w nz nc r c r',
  calc_psf n m phase amp w nz nc = Ok r -> (0 < rows_of n w)%nat -> (0 < rows_of m w)%nat -> calc_psf n m phase (fun i j => c * amp i j) w nz nc = Ok r' -> c <> 0 ->
  p_total r' = c * c * p_total r /\ forall k l, p_val r' k l = (if nz then 1 else c * c) * p_val r k l.
Proof.
  intros n m phase amp w nz nc r c r' H HN HM H' Hc. destruct (calc_psf_value _ _ _ _ _ _ _ _ H HN HM) as (_ & _ & T & V). destruct (calc_psf_value _ _ _ _ _ _ _ _ H' HN HM) as (_ & _ & T' & V').
  rewrite T, T', energy_scale. split; [ring|]. intros k l. rewrite V, V', focal_scale, abs2_mul, abs2_real. destruct nz; [|field].
  rewrite energy_scale. unfold Rdiv. rewrite !Rinv_mult.
  match goal with |- c * c * ?a * (/ ?x * / ?y * (/ c * / c * / ?z)) = _ => transitivity (a * (/ x * / y * / z) * (/ c * c) * (/ c * c)); [ring|] end.
  rewrite Rinv_l by auto. ring.
Qed.
Print Assumptions C98_scaled_amplitude.

(* Example: two pixels, half a wave apart, in an array of two: dark on the axis, all the light one pixel aside. *)
Lemma cis_pi : cis PI = (-1, 0). Proof. unfold cis. now rewrite cos_PI, sin_PI. Qed.
Example C98_is_power_spectrum_example : exists r, calc_psf 2 1 (fun i _ => PI * INR i) (fun _ _ => 1) (Some 2%nat) true false = Ok r /\
  p_val r 1%nat 1%nat = 0 /\ p_val r 0%nat 1%nat = 1 / 2 /\ p_total r = 8.
Proof.
  destruct (proj2 (calc_psf_defined 2 1 (fun i _ => PI * INR i) (fun _ _ => 1) (Some 2%nat) true false)) as [r H]; [cbn; lia|].
  exists r. split; [exact H|]. destruct (C98_is_power_spectrum _ _ _ _ _ _ _ _ H) as (_ & _ & T & V); try (cbn; lia).
  assert (E : energy 2 1 (fun _ _ => 1) = 2) by (unfold energy, rsum2; cbn [rsum]; ring).
  rewrite !V, T, E. cbn [rows_of]. change (centre_of false 2) with 1%Z. cbn [Z.of_nat Pos.of_succ_nat Z.sub Z.add Z.opp Z.pos_sub Pos.pred_double].
  assert (C1 : cis (PI * INR 0 - 2 * PI * (INR 0 * 0 / INR 2 + INR 0 * 0 / INR 2)) = c1).
  { replace (PI * INR 0 - 2 * PI * (INR 0 * 0 / INR 2 + INR 0 * 0 / INR 2)) with 0; [apply cis_0|]. cbn [INR]. unfold Rdiv. ring. }
  assert (C2 : cis (PI * INR 1 - 2 * PI * (INR 1 * 0 / INR 2 + INR 0 * 0 / INR 2)) = (-1, 0)).
  { rewrite <- cis_pi. f_equal. cbn [INR]. unfold Rdiv. ring. }
  assert (C3 : cis (PI * INR 0 - 2 * PI * (INR 0 * -1 / INR 2 + INR 0 * 0 / INR 2)) = c1).
  { replace (PI * INR 0 - 2 * PI * (INR 0 * -1 / INR 2 + INR 0 * 0 / INR 2)) with 0; [apply cis_0|]. cbn [INR]. unfold Rdiv. ring. }
  assert (C4 : cis (PI * INR 1 - 2 * PI * (INR 1 * -1 / INR 2 + INR 0 * 0 / INR 2)) = c1).
  { replace (PI * INR 1 - 2 * PI * (INR 1 * -1 / INR 2 + INR 0 * 0 / INR 2)) with (2 * PI * IZR 1); [apply cis_2PI_Z|]. cbn [INR]. field. }
  unfold focal, csum2. cbn [csum]. rewrite C1, C2, C3, C4. unfold abs2, cmul, cadd, creal, c0, c1. cbn [fst snd INR]. repeat split; field.
Qed.
(* ... and a pupil of three rows does not fit an image of two. *)
Example C98_needs_room_example : calc_psf 3 2 (fun _ _ => 0) (fun _ _ => 1) (Some 2%nat) true false = Err ValueError. Proof. reflexivity. Qed.

(* ---------------------------------------------------------------- C99: the PSF object *)

Lemma run_sized n m nd lambda start e0 rest s : psf_run n m nd lambda start (e0 :: rest) = Ok s -> sized n m nd.
Proof.
  intros H. destruct (le_dec n (out_size nd n)) as [A|A]; [destruct (le_dec m (out_size nd n)) as [B|B]; [destruct (Nat.eq_dec (out_size nd n) (out_size nd m)) as [D|D]|]|]; [repeat split; auto| | |];
  (rewrite run_refused in H; [discriminate|]; intros (X & Y & Z); auto).
Qed.
Lemma run_has n m nd lambda start e0 rest s : (0 < n)%nat -> energy n m (f_amp e0) <> 0 -> psf_run n m nd lambda start (e0 :: rest) = Ok s -> known n m nd lambda start e0 (e0 :: rest) s.
Proof. intros Hn He H. destruct (run_known n m nd lambda start e0 rest Hn (run_sized _ _ _ _ _ _ _ _ H) He) as [s' [E K]]. congruence. Qed.

(* The sequence of frames is processed exactly when the pupil fits the image, whose two sides are equal. *)
Theorem C99_run_defined : forall n m nd lambda start e0 rest, (0 < n)%nat -> energy n m (f_amp e0) <> 0 ->
  ((exists s, psf_run n m nd lambda start (e0 :: rest) = Ok s) <-> (n <= out_size nd n)%nat /\ (m <= out_size nd n)%nat /\ out_size nd n = out_size nd m) /\
  (forall e, psf_run n m nd lambda start (e0 :: rest) = Err e -> e = ValueError).
Proof.
  intros n m nd lambda start e0 rest Hn He. assert (D : sized n m nd \/ ~ sized n m nd).
  { unfold sized. destruct (le_dec n (out_size nd n)); [|tauto]. destruct (le_dec m (out_size nd n)); [|tauto]. destruct (Nat.eq_dec (out_size nd n) (out_size nd m)); tauto. }
  destruct D as [D|D].
  - destruct (run_known n m nd lambda start e0 rest Hn D He) as [s [E K]]. split; [split; eauto|]. intros e X. congruence.
  - split; [split; [intros [s E]; rewrite run_refused in E by auto; discriminate|intros X; exfalso; auto]|]. intros e X. rewrite run_refused in X by auto. now injection X as <-.
Qed.
Print Assumptions C99_run_defined.
(* With the default oversampling of 1, the image of a pupil of an even number n of pixels has n pixels; a pupil of
   4k+3 pixels gives one more, and a pupil of 4k+1 pixels is refused; an even oversampling suits any pupil. *)
Theorem C99_image_sizes : forall k q,
  out_size 1 (2 * k) = (2 * k)%nat /\ out_size 1 (4 * k + 3) = (4 * k + 4)%nat /\ out_size 1 (4 * k + 1) = (4 * k)%nat /\ out_size (qz (2 * Z.of_nat q)) k = (k * (2 * q))%nat /\
  forall lambda start e0 rest, psf_run (4 * k + 1) (4 * k + 1) 1 lambda start (e0 :: rest) = Err ValueError.
Proof.
  intros k q. assert (E1 : out_size 1 (2 * k) = (2 * k)%nat). { pose proof (out_size_even k 1) as X. rewrite Nat.mul_1_r in X. exact X. }
  assert (E3 : out_size 1 (4 * k + 3) = (4 * k + 4)%nat).
  { replace (4 * k + 3)%nat with (2 * (2 * k + 1) + 1)%nat by lia. rewrite out_size_odd. replace (Nat.even (2 * k + 1)) with false; [lia|]. symmetry. rewrite <- Nat.negb_odd. apply negb_false_iff, Nat.odd_spec. now exists k. }
  assert (E2 : out_size 1 (4 * k + 1) = (4 * k)%nat).
  { replace (4 * k + 1)%nat with (2 * (2 * k) + 1)%nat by lia. rewrite out_size_odd. replace (Nat.even (2 * k)) with true; [lia|]. symmetry. apply Nat.even_spec. now exists k. }
  repeat split; auto. { apply out_size_even_nd. }
  intros. apply run_refused. intros [X _]. rewrite E2 in X. lia.
Qed.
Print Assumptions C99_image_sizes.

(* After a frame with the amplitude of the first one: the image is the normalised power spectrum, and the ratio shown
   is the Strehl ratio, between 0 and 1, and 1 exactly when the lit pixels are in phase up to whole waves. *)
Theorem C99_strehl_ratio : forall n m nd lambda start e0 rest l e s, (0 < n)%nat -> psf_run n m nd lambda start (e0 :: rest) = Ok s -> e0 :: rest = l ++ [e] ->
  (forall i j, (i < n)%nat -> (j < m)%nat -> f_amp e i j = f_amp e0 i j /\ 0 <= f_amp e0 i j) -> 0 < area n m (f_amp e0) ->
  o_sr s = strehl n m (f_amp e) (phi_at lambda e) /\ 0 <= o_sr s <= 1 /\
  (o_sr s = 1 <-> (forall i j i' j', (i < n)%nat -> (j < m)%nat -> (i' < n)%nat -> (j' < m)%nat -> 0 < f_amp e i j -> 0 < f_amp e i' j' -> same_wave (phi_at lambda e i j) (phi_at lambda e i' j'))).
Proof.
  intros n m nd lambda start e0 rest l e s Hn H El Ha Hp.
  assert (He0 : 0 < energy n m (f_amp e0)) by (apply (proj1 (energy_area n m (f_amp e0) (fun i j Hi Hj => proj2 (Ha i j Hi Hj)))); exact Hp).
  assert (He1 : energy n m (f_amp e0) <> 0) by lra.
  pose proof (run_has _ _ _ _ _ _ _ _ Hn He1 H) as K. destruct (k_last _ _ _ _ _ _ _ _ K l e El) as [E _].
  assert (A : area n m (f_amp e) = area n m (f_amp e0)) by (apply area_ext; intros; now apply Ha).
  assert (G : energy n m (f_amp e) = energy n m (f_amp e0)) by (apply energy_ext; intros; now apply Ha).
  assert (S : o_sr s = strehl n m (f_amp e) (phi_at lambda e)).
  { rewrite E. unfold ratio_of, strehl. rewrite A, G. field. lra. }
  assert (Pe : forall i j, (i < n)%nat -> (j < m)%nat -> 0 <= f_amp e i j). { intros i j Hi Hj. destruct (Ha i j Hi Hj) as [-> X]. exact X. }
  split; [exact S|]. rewrite S. split; [apply strehl_range; auto; lra|]. apply strehl_one; auto. lra.
Qed.
Print Assumptions C99_strehl_ratio.
(* In general the reference is that of the first frame ever seen. *)
Theorem C99_last_frame : forall n m nd lambda start e0 rest l e s, (0 < n)%nat -> energy n m (f_amp e0) <> 0 -> psf_run n m nd lambda start (e0 :: rest) = Ok s -> e0 :: rest = l ++ [e] ->
  o_sr s = (abs2 (csum2 n m (fun i j => cmul (creal (f_amp e i j)) (cis (phi_at lambda e i j)))) / energy n m (f_amp e)) / (area n m (f_amp e0) * area n m (f_amp e0) / energy n m (f_amp e0)) /\
  (forall i j, o_psf s i j = image_of n m nd lambda e i j) /\ o_total s = INR (out_size nd n) * INR (out_size nd n) * energy n m (f_amp e).
Proof. intros n m nd lambda start e0 rest l e s Hn He H El. exact (k_last _ _ _ _ _ _ _ _ (run_has _ _ _ _ _ _ _ _ Hn He H) l e El). Qed.
Print Assumptions C99_last_frame.

(* At the end: averages over the frames from the start time on, population standard deviation, and an average image of
   sum 1. *)
Theorem C99_long_exposure : forall n m nd lambda start e0 rest s, (0 < n)%nat -> energy n m (f_amp e0) <> 0 -> psf_run n m nd lambda start (e0 :: rest) = Ok s ->
  let taken := filter (fun e => in_time start (f_t e)) (e0 :: rest) in let im := fun i j => map (fun e => image_of n m nd lambda e i j) taken in
  taken <> [] -> let f := psf_finalize s in
  o_count f = length taken /\ o_int_sr f = average (map (ratio_of n m lambda e0) taken) /\
  (forall i j, o_int_psf f i j = average (im i j)) /\
  (forall i j, 0 <= o_std f i j /\ o_std f i j * o_std f i j = average (map (fun x => (x - average (im i j)) * (x - average (im i j))) (im i j))) /\
  ((forall e, In e taken -> energy n m (f_amp e) <> 0) -> rsum2 (out_size nd n) (out_size nd n) (o_int_psf f) = 1).
Proof.
  intros n m nd lambda start e0 rest s Hn He H taken im Ht f. pose proof (run_has _ _ _ _ _ _ _ _ Hn He H) as K. destruct K as [_ K2 K3 K4 K5 K6 _]. fold taken in K2, K3, K4, K5.
  destruct (run_sized _ _ _ _ _ _ _ _ H) as (Z1 & Z2 & Z3).
  assert (L : (0 < length taken)%nat) by (destruct taken; [congruence|cbn; lia]). assert (LN : 0 < INR (length taken)) by (apply lt_0_INR; exact L).
  unfold f, psf_finalize. rewrite K2. replace (0 <? length taken)%nat with true by (symmetry; now apply Nat.ltb_lt).
  cbn [o_count o_int_sr o_int_psf o_std]. split; [reflexivity|]. split; [rewrite K3; unfold average; now rewrite map_length|].
  assert (AV : forall i j, o_int_psf s i j / INR (length taken) = average (im i j)). { intros i j. rewrite K4. unfold average, im. now rewrite map_length. }
  split; [exact AV|]. split.
  - intros i j. rewrite AV. split; [apply sqrt_pos|]. rewrite sqrt_sqrt; [|apply Rmax_r].
    set (mu := average (im i j)).
    assert (V : o_sq s i j / INR (length taken) - mu * mu = average (map (fun x => (x - mu) * (x - mu)) (im i j))).
    { rewrite K5. unfold average. rewrite map_length. replace (length (im i j)) with (length taken) by (unfold im; now rewrite map_length).
      unfold im. rewrite map_map. rewrite (map_ext (fun x => (image_of n m nd lambda x i j - mu) * (image_of n m nd lambda x i j - mu))
        (fun x => image_of n m nd lambda x i j * image_of n m nd lambda x i j + (-2 * mu * image_of n m nd lambda x i j + mu * mu))) by (intros; ring).
      rewrite rlist_add, rlist_add, rlist_mul, rlist_const.
      assert (M : rlist (map (fun e => image_of n m nd lambda e i j) taken) = mu * INR (length taken)). { unfold mu, average, im. rewrite map_length. field. lra. }
      rewrite M. field. lra. }
    rewrite V. apply Rmax_left. unfold average. apply Rle_mult_inv_pos; [|unfold im; rewrite !map_length; exact LN].
    apply rlist_nonneg. intros x Hx. apply in_map_iff in Hx. destruct Hx as [y [<- _]]. change (0 <= Rsqr (y - mu)). apply Rle_0_sqr.
  - intros HE. unfold Rdiv. rewrite rsum2_mul_r. rewrite (rsum2_ext _ _ _ (fun i j => rlist (map (fun e => image_of n m nd lambda e i j) taken))) by (intros; apply K4).
    rewrite rsum2_rlist. rewrite (map_ext_in _ (fun _ => 1)); [rewrite rlist_const; field; lra|]. intros e Hin. apply image_sum; auto.
Qed.
Print Assumptions C99_long_exposure.
(* Without a frame from the start time on, the averages stay at zero. *)
Theorem C99_no_exposure : forall n m nd lambda start e0 rest s, (0 < n)%nat -> energy n m (f_amp e0) <> 0 -> psf_run n m nd lambda start (e0 :: rest) = Ok s ->
  (forall e, In e (e0 :: rest) -> IZR (f_t e) / 1000000000 < start) ->
  o_count (psf_finalize s) = 0%nat /\ o_int_sr (psf_finalize s) = 0 /\ forall i j, o_int_psf (psf_finalize s) i j = 0 /\ o_std (psf_finalize s) i j = 0.
Proof.
  intros n m nd lambda start e0 rest s Hn He H Hl. pose proof (run_has _ _ _ _ _ _ _ _ Hn He H) as K. destruct K as [_ K2 K3 K4 K5 K6 _].
  assert (F : filter (fun e => in_time start (f_t e)) (e0 :: rest) = []).
  { clear - Hl. induction (e0 :: rest) as [|e l IH]; [reflexivity|]. cbn [filter]. unfold in_time at 1. destruct (Rle_dec start (IZR (f_t e) / 1000000000)) as [X|X]; [pose proof (Hl e (or_introl eq_refl)); lra|].
    apply IH. intros; apply Hl. now right. }
  rewrite F in *. unfold psf_finalize. rewrite K2. cbn [length Nat.ltb Nat.leb]. split; [exact K2|]. split; [exact K3|]. intros i j. rewrite K4, K6. split; reflexivity.
Qed.
Print Assumptions C99_no_exposure.
(* A second finalisation divides a second time. *)
Theorem C99_finalized_twice : forall s, (0 < o_count s)%nat -> o_int_sr (psf_finalize (psf_finalize s)) = o_int_sr (psf_finalize s) / INR (o_count s) /\
  forall i j, o_int_psf (psf_finalize (psf_finalize s)) i j = o_int_psf (psf_finalize s) i j / INR (o_count s).
Proof. intros s H. unfold psf_finalize at 1 2 4. apply Nat.ltb_lt in H. rewrite H. cbn [o_count o_int_sr o_int_psf]. unfold psf_finalize. rewrite H. cbn [o_count o_int_sr o_int_psf]. rewrite H. cbn. auto. Qed.
Print Assumptions C99_finalized_twice.

(* Example: two pixels a quarter of a wave apart. *)
Example C99_strehl_ratio_example : strehl 1 2 (fun _ _ => 1) (fun _ j => PI / 2 * INR j) = 1 / 2.
Proof.
  unfold strehl, area, csum2, rsum2. cbn [csum rsum INR]. replace (PI / 2 * 0) with 0 by ring. replace (PI / 2 * 1) with (PI / 2) by ring.
  unfold cis. rewrite cos_0, sin_0, cos_PI2, sin_PI2. unfold abs2, cmul, cadd, creal, c0. cbn [fst snd]. field.
Qed.
(* The ratio is not bounded when the amplitude changes: the reference is computed once, from the first frame. *)
Definition one_pixel : frame := mkFrame (fun i j => if (Nat.eqb i 0 && Nat.eqb j 0)%bool then 1 else 0) (fun _ _ => 0) 0.
Definition four_pixels : frame := mkFrame (fun _ _ => 1) (fun _ _ => 0) 1000000000.
Theorem C99_strehl_bounded_refuted : exists s, psf_run 2 2 1 1000 0 [one_pixel; four_pixels] = Ok s /\ o_sr s = 4 /\ o_int_sr (psf_finalize s) = 5 / 2.
Proof.
  assert (E0 : energy 2 2 (f_amp one_pixel) = 1) by (unfold energy, rsum2, one_pixel; cbn [rsum f_amp Nat.eqb andb]; ring).
  assert (E1 : energy 2 2 (f_amp four_pixels) = 4) by (unfold energy, rsum2, four_pixels; cbn [rsum f_amp]; ring).
  assert (A0 : area 2 2 (f_amp one_pixel) = 1) by (unfold area, rsum2, one_pixel; cbn [rsum f_amp Nat.eqb andb]; ring).
  assert (Z : out_size 1 2 = 2%nat) by reflexivity.
  destruct (run_known 2 2 1 1000 0 one_pixel [four_pixels]) as [s [H K]]; [lia|unfold sized; rewrite Z; auto|rewrite E0; lra|].
  exists s. split; [exact H|].
  assert (R1 : ratio_of 2 2 1000 one_pixel four_pixels = 4).
  { unfold ratio_of. rewrite E0, E1, A0. rewrite (csum2_ext 2 2 _ (fun _ _ => c1)).
    - unfold csum2. cbn [csum]. unfold abs2, c0, c1, cadd. cbn [fst snd]. field.
    - intros i j _ _. unfold phi_at, four_pixels. cbn [f_amp f_nm]. rewrite Rmult_0_l, cis_0. apply cmul_1_r. }
  assert (R0 : ratio_of 2 2 1000 one_pixel one_pixel = 1).
  { unfold ratio_of. rewrite E0, A0. rewrite (csum2_ext 2 2 _ (fun i j => creal (f_amp one_pixel i j))).
    - rewrite csum2_real. fold (area 2 2 (f_amp one_pixel)). rewrite A0, abs2_real. field.
    - intros i j _ _. unfold phi_at. cbn [one_pixel f_nm]. rewrite Rmult_0_l, cis_0. apply cmul_1_r. }
  split; [rewrite <- R1; exact (proj1 (k_last _ _ _ _ _ _ _ _ K [one_pixel] four_pixels eq_refl))|].
  assert (F : filter (fun e => in_time 0 (f_t e)) [one_pixel; four_pixels] = [one_pixel; four_pixels]).
  { cbn [filter one_pixel four_pixels f_t]. unfold in_time. destruct (Rle_dec 0 (0 / 1000000000)); [|lra]. destruct (Rle_dec 0 (1000000000 / 1000000000)); [reflexivity|lra]. }
  assert (Hn : (0 < 2)%nat) by lia.
  destruct (C99_long_exposure 2 2 1 1000 0 one_pixel [four_pixels] s Hn ltac:(rewrite E0; lra) H) as (_ & X & _). { rewrite F. discriminate. }
  rewrite X, F. cbn [map]. rewrite R0, R1. unfold average, rlist. cbn [fold_right length INR]. field.
Qed.
Print Assumptions C99_strehl_bounded_refuted.
