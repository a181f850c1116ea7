(* Proofs about the pyramid sensor. *)
From Coq Require Import Reals List ZArith Bool Arith Lra Lia.
From Verif Require Import PyBase PyLemmas Fourier PsfModel PsfSpec PsfProofs ShImageModel ShImageSpec ShImageProofs PyrModel PyrSpec.
Import ListNotations.
Local Open Scope R_scope.

Lemma even_half n : Nat.even n = true -> (n = 2 * (n / 2))%nat.
Proof. intros E. apply Nat.even_spec in E. destruct E as [k ->]. rewrite Nat.mul_comm at 2. rewrite Nat.div_mul by lia. reflexivity. Qed.
Lemma INR_half n : Nat.even n = true -> INR (n / 2) = INR n / 2.
Proof. intros E. rewrite (even_half n E) at 2. rewrite mult_INR. cbn. lra. Qed.
Lemma mod_tilt_val p k : (2 <= p)%nat -> mod_tilt p k = 2 * PI * ((INR k - (INR p - 1) / 2) / (INR p - 1)).
Proof.
  intros H. unfold mod_tilt. assert (P : 2 <= INR p) by (change 2 with (INR 2); apply le_INR; exact H). rewrite minus_INR by lia. cbn [INR].
  assert (0 < INR (p / 2)) by (apply lt_0_INR; apply Nat.div_str_pos; lia). field. repeat split; try lra.
  all: try (intros E; nra).
Qed.
Lemma tlt_val y a b : sound y -> tlt_f y a b = cis (- (2 * PI * ((INR a + INR b) / 2) / INR (y_tot y))).
Proof.
  intros S. unfold tlt_f. f_equal. rewrite <- plus_INR, (sound_tot y S). pose proof (sound_p y S). pose proof (sound_tot y S).
  field. split; apply not_0_INR; lia.
Qed.
Lemma face_val A m : (m < 2 * A)%nat -> INR (face A m) = INR A - / 2 - Rabs (INR m - INR A + / 2).
Proof.
  intros H. unfold face. destruct (Nat.ltb_spec m A) as [L|L].
  - rewrite Rabs_left1; [lra|]. assert (INR (m + 1) <= INR A) by (apply le_INR; lia). rewrite plus_INR in H0. cbn in H0. lra.
  - rewrite Rabs_right by (assert (INR A <= INR m) by (apply le_INR; lia); lra). rewrite !minus_INR by lia. cbn. lra.
Qed.
Lemma at_pixel_mod F k K q : (0 < F)%nat -> Nat.even F = true -> Z.of_nat K = (Z.of_nat k - Z.of_nat (F / 2) + Z.of_nat F * q)%Z -> at_pixel F k = INR K - INR F * IZR q + / 2.
Proof. intros H E e. unfold at_pixel. rewrite (INR_IZR_INZ K), e, plus_IZR, minus_IZR, mult_IZR, <- !INR_IZR_INZ, (INR_half F E). lra. Qed.

(* the transform of the tilted field *)
Lemma u_fp_ray y u s K L k l p q : sound y -> Z.of_nat K = (Z.of_nat k - Z.of_nat (y_tot y / 2) + Z.of_nat (y_tot y) * p)%Z -> Z.of_nat L = (Z.of_nat l - Z.of_nat (y_tot y / 2) + Z.of_nat (y_tot y) * q)%Z ->
  u_fp y u s K L = cmul (cis (PI * (m_x s + m_y s))) (arriving (y_tot y) (y_p y) u s k l).
Proof.
  intros S EK EL. assert (F0 : (0 < y_tot y)%nat) by (pose proof (sound_p y S); pose proof (sound_tot y S); lia).
  pose proof (sound_p y S) as P2. pose proof (sound_tot y S) as T. unfold u_fp. rewrite dft2_corner by lia. unfold arriving, ray. rewrite <- csum2_mul_l. apply csum2_ext. intros a b _ _.
  rewrite (tlt_val y a b S). unfold ttexp. rewrite !mod_tilt_val by exact P2. unfold root.
  rewrite (at_pixel_mod _ k K p F0 (sound_even y S) EK), (at_pixel_mod _ l L q F0 (sound_even y S) EL). unfold step_px.
  set (w := u a b).
  transitivity (cmul w (cmul (cmul (cis (- (2 * PI * ((INR a + INR b) / 2) / INR (y_tot y)))) (cis (- (m_x s * (2 * PI * ((INR b - (INR (y_p y) - 1) / 2) / (INR (y_p y) - 1))) + m_y s * (2 * PI * ((INR a - (INR (y_p y) - 1) / 2) / (INR (y_p y) - 1)))))))
    (cmul (cis (2 * PI * IZR (- (Z.of_nat a * Z.of_nat K)) / INR (y_tot y))) (cis (2 * PI * IZR (- (Z.of_nat b * Z.of_nat L)) / INR (y_tot y)))))); [cring|].
  rewrite <- !cis_add.
  transitivity (cmul w (cmul (cis (PI * (m_x s + m_y s))) (cis (- (2 * PI * (INR a * (INR K - INR (y_tot y) * IZR p + / 2 + m_y s * (INR (y_tot y) / (INR (y_p y) - 1))) + INR b * (INR L - INR (y_tot y) * IZR q + / 2 + m_x s * (INR (y_tot y) / (INR (y_p y) - 1)))) / INR (y_tot y)))))); [|cring].
  rewrite <- cis_add. f_equal. apply cis_period with (- (Z.of_nat a * p + Z.of_nat b * q))%Z.
  rewrite !opp_IZR, plus_IZR, !mult_IZR, <- !INR_IZR_INZ. assert (2 <= INR (y_p y)) by (change 2 with (INR 2); apply le_INR; exact P2).
  assert (INR (y_tot y) <> 0) by (apply not_0_INR; lia). field. split; lra.
Qed.
Lemma csum_rot_half F f : Nat.even F = true -> csum F f = csum F (fun m => f ((m + (F - F / 2)) mod F)%nat).
Proof. intros E. rewrite csum_rot; [reflexivity|lia]. Qed.
Lemma csum2_rot_half F f : csum2 F F f = csum2 F F (fun m n => f ((m + (F - F / 2)) mod F)%nat ((n + (F - F / 2)) mod F)%nat).
Proof.
  unfold csum2. rewrite <- (csum_rot F (F - F / 2) (fun i => csum F (f i))) by lia. apply csum_ext. intros i _. now rewrite <- (csum_rot F (F - F / 2) (f ((i + (F - F / 2)) mod F)%nat)) by lia.
Qed.
Lemma shift_twice F m : Nat.even F = true -> (m < F)%nat -> (((m + (F - F / 2)) mod F + (F - F / 2)) mod F = m)%nat.
Proof. intros E H. rewrite Nat.add_mod_idemp_l by lia. pose proof (even_half F E). replace (m + (F - F / 2) + (F - F / 2))%nat with (m + 1 * F)%nat by lia. rewrite Nat.mod_add by lia. apply Nat.mod_small; exact H. Qed.

(* back from the focal plane, for any filter *)
Lemma back y u s (g : nat -> nat -> C) i j (x x' : Z) p q : sound y -> (Z.of_nat i = x + Z.of_nat (y_tot y) * p)%Z -> (Z.of_nat j = x' + Z.of_nat (y_tot y) * q)%Z ->
  exists t, idft2 (y_tot y) (y_tot y) (fun k l => cmul (u_fp y u s k l) (fftshift (y_tot y) (y_tot y) g k l)) i j =
    cmul (cis t) (cmul (creal (/ INR (y_tot y) * / INR (y_tot y))) (csum2 (y_tot y) (y_tot y) (fun k l => cmul (cmul (arriving (y_tot y) (y_p y) u s k l) (g k l))
      (cis (2 * PI * ((at_pixel (y_tot y) k * IZR x + at_pixel (y_tot y) l * IZR x') / INR (y_tot y))))))).
Proof.
  intros S Ei Ej. assert (F0 : (0 < y_tot y)%nat) by (pose proof (sound_p y S); pose proof (sound_tot y S); lia). set (F := y_tot y) in *. pose proof (sound_even y S) as E. fold F in E.
  exists (PI * (m_x s + m_y s) - PI * (IZR x + IZR x') / INR F). unfold idft2.
  fold (csum2 F F (fun k l => cmul (cmul (u_fp y u s k l) (fftshift F F g k l)) (cmul (root F (Z.of_nat i * Z.of_nat k)) (root F (Z.of_nat j * Z.of_nat l))))).
  rewrite csum2_rot_half.
  rewrite (csum2_ext _ _ _ (fun k l => cmul (cis (PI * (m_x s + m_y s) - PI * (IZR x + IZR x') / INR F)) (cmul (cmul (arriving F (y_p y) u s k l) (g k l)) (cis (2 * PI * ((at_pixel F k * IZR x + at_pixel F l * IZR x') / INR F)))))).
  { rewrite csum2_mul_l. replace (creal (/ (INR F * INR F))) with (creal (/ INR F * / INR F)) by (f_equal; rewrite Rinv_mult; reflexivity). cring. }
  intros k l Hk Hl. destruct (shift_index F k F0) as [a Ea]. destruct (shift_index F l F0) as [b Eb].
  rewrite (u_fp_ray y u s _ _ k l a b S Ea Eb). fold F. unfold fftshift. rewrite !shift_twice by assumption.
  set (K := ((k + (F - F / 2)) mod F)%nat) in *. set (L := ((l + (F - F / 2)) mod F)%nat) in *.
  rewrite (at_pixel_mod F k K a F0 E Ea), (at_pixel_mod F l L b F0 E Eb). set (z := arriving F (y_p y) u s k l). set (w := g k l). unfold root.
  transitivity (cmul (cmul z w) (cis (PI * (m_x s + m_y s) + (2 * PI * IZR (Z.of_nat i * Z.of_nat K) / INR F + 2 * PI * IZR (Z.of_nat j * Z.of_nat L) / INR F)))); [rewrite !cis_add; cring|].
  transitivity (cmul (cmul z w) (cis (PI * (m_x s + m_y s) - PI * (IZR x + IZR x') / INR F + 2 * PI * (((INR K - INR F * IZR a + / 2) * IZR x + (INR L - INR F * IZR b + / 2) * IZR x') / INR F)))); [|rewrite !cis_add; cring].
  f_equal. apply cis_period with (p * Z.of_nat K + q * Z.of_nat L + a * x + b * x')%Z. rewrite Ei, Ej, !plus_IZR, !mult_IZR, !plus_IZR, !mult_IZR, <- !INR_IZR_INZ. field. apply not_0_INR. lia.
Qed.
Lemma pyr_ef_behind y u s i j (x x' : Z) p q : sound y -> (Z.of_nat i = x + Z.of_nat (y_tot y) * p)%Z -> (Z.of_nat j = x' + Z.of_nat (y_tot y) * q)%Z ->
  abs2 (pyr_ef y u s i j) = abs2 (behind (y_tot y) (y_p y) (y_scale y) (y_mask y) u s (IZR x) (IZR x')).
Proof.
  intros S Ei Ej. unfold pyr_ef, masked_exp. destruct (back y u s (fun m n => cmul (cis (- 2 * PI * pyr_tlt y m n)) (creal (y_mask y m n))) i j x x' p q S Ei Ej) as [t Et]. rewrite Et. clear Et.
  set (F := y_tot y) in *. pose proof (sound_even y S) as E. fold F in E. pose proof (even_half F E) as EF. pose proof (sound_tot y S) as T. fold F in T.
  set (h := 2 * PI * (2 * (INR (F / 2) - / 2)) / y_scale y).
  rewrite (csum2_ext _ _ _ (fun k l => cmul (cis (- h)) (cmul (cmul (arriving F (y_p y) u s k l) (creal (y_mask y k l)))
    (cis (2 * PI * ((Rabs (at_pixel F k) + Rabs (at_pixel F l)) / y_scale y + (at_pixel F k * IZR x + at_pixel F l * IZR x') / INR F)))))).
  { rewrite csum2_mul_l. unfold behind. rewrite !abs2_mul, !abs2_cis. ring. }
  intros k l Hk Hl. unfold pyr_tlt. rewrite T. rewrite !face_val by lia.
  replace (INR k - INR (F / 2) + / 2) with (at_pixel F k) by (unfold at_pixel; rewrite (INR_half F E); reflexivity).
  replace (INR l - INR (F / 2) + / 2) with (at_pixel F l) by (unfold at_pixel; rewrite (INR_half F E); reflexivity).
  set (z := arriving F (y_p y) u s k l). set (m := creal (y_mask y k l)).
  transitivity (cmul (cmul z m) (cis (- 2 * PI * ((INR (F / 2) - / 2 - Rabs (at_pixel F l) + (INR (F / 2) - / 2 - Rabs (at_pixel F k))) / y_scale y) + 2 * PI * ((at_pixel F k * IZR x + at_pixel F l * IZR x') / INR F)))); [rewrite cis_add; cring|].
  transitivity (cmul (cmul z m) (cis (- h + 2 * PI * ((Rabs (at_pixel F k) + Rabs (at_pixel F l)) / y_scale y + (at_pixel F k * IZR x + at_pixel F l * IZR x') / INR F)))); [|rewrite cis_add; cring].
  f_equal. f_equal. unfold h, Rdiv. ring.
Qed.
Lemma wsum_ext l f g : (forall s, In s l -> f s = g s) -> wsum l f = wsum l g.
Proof. unfold wsum. induction l as [|s l IH]; intros H; cbn; [reflexivity|]. rewrite IH by (intros; apply H; now right). now rewrite H by now left. Qed.
Lemma roll_index n s r : (0 < n)%nat -> exists q, Z.of_nat ((r + (n - s mod n)) mod n) = (Z.of_nat r - Z.of_nat s + Z.of_nat n * q)%Z.
Proof.
  intros H. pose proof (Nat.mod_upper_bound s n ltac:(lia)). exists (1 + Z.of_nat (s / n) - Z.of_nat ((r + (n - s mod n)) / n))%Z.
  pose proof (Nat.div_mod (r + (n - s mod n)) n ltac:(lia)) as E. pose proof (Nat.div_mod s n ltac:(lia)) as E'. nia.
Qed.
Lemma pupils_image y u r c : sound y -> pupils y u r c = image_of y u r c.
Proof.
  intros S. unfold pupils, roll, pyr_image, image_of. assert (F0 : (0 < y_tot y)%nat) by (pose proof (sound_p y S); pose proof (sound_tot y S); lia).
  destruct (roll_index (y_tot y) (y_pad y / 2) r F0) as [p Ep]. destruct (roll_index (y_tot y) (y_pad y / 2) c F0) as [q Eq].
  apply wsum_ext. intros s _. rewrite (pyr_ef_behind y u s _ _ _ _ p q S Ep Eq). rewrite !minus_IZR, <- !INR_IZR_INZ. reflexivity.
Qed.

(* ------------------------------------------------------------------------- mirrors *)
Lemma csum_rev n f : csum n (fun i => f (n - 1 - i)%nat) = csum n f.
Proof. apply c_ext; rewrite ?fst_csum, ?snd_csum; [apply (rsum_rev n (fun i => fst (f i)))|apply (rsum_rev n (fun i => snd (f i)))]. Qed.
Lemma csum2_rev_r n m f : csum2 n m (fun i j => f i (m - 1 - j)%nat) = csum2 n m f.
Proof. unfold csum2. apply csum_ext. intros i _. apply (csum_rev m (f i)). Qed.
Lemma csum2_swap n m f : csum2 n m f = csum2 m n (fun i j => f j i).
Proof. unfold csum2. apply csum_swap. Qed.
Lemma at_pixel_rev F k : (k < F)%nat -> at_pixel F (F - 1 - k) = - at_pixel F k.
Proof. intros H. unfold at_pixel. rewrite !minus_INR by lia. cbn. lra. Qed.
Lemma ray_columns F p u x y : (0 < F)%nat -> ray F p (columns_mirrored p u) x y = cmul (cis (- (2 * PI * ((INR p - 1) * y) / INR F))) (ray F p u x (- y)).
Proof.
  intros H. unfold ray. rewrite <- csum2_mul_l. rewrite <- (csum2_rev_r p p (fun a b => cmul (cis (- (2 * PI * ((INR p - 1) * y) / INR F))) (cmul (u a b) (cis (- (2 * PI * (INR a * x + INR b * - y) / INR F)))))).
  apply csum2_ext. intros a b Ha Hb. unfold columns_mirrored. set (w := u a (p - 1 - b)%nat).
  transitivity (cmul w (cis (- (2 * PI * ((INR p - 1) * y) / INR F) + - (2 * PI * (INR a * x + INR (p - 1 - b) * - y) / INR F)))); [|rewrite cis_add; cring].
  f_equal. f_equal. rewrite !minus_INR by lia. cbn [INR]. field. apply not_0_INR. lia.
Qed.
Lemma behind_columns F p scale mask u s x y : (0 < F)%nat -> (forall k l, (k < F)%nat -> (l < F)%nat -> mask k (F - 1 - l)%nat = mask k l) ->
  abs2 (behind F p scale mask (columns_mirrored p u) (point_columns s) x y) = abs2 (behind F p scale mask u s x (INR p - 1 - y)).
Proof.
  intros H M. unfold behind. rewrite !abs2_mul. f_equal.
  rewrite <- (csum2_rev_r F F (fun k l => cmul (cmul (arriving F p u s k l) (creal (mask k l))) (cis (2 * PI * ((Rabs (at_pixel F k) + Rabs (at_pixel F l)) / scale + (at_pixel F k * x + at_pixel F l * (INR p - 1 - y)) / INR F))))).
  set (t := 2 * PI * ((INR p - 1) * (m_x s * step_px F p)) / INR F).
  rewrite (csum2_ext _ _ _ (fun k l => cmul (cis t) (cmul (cmul (arriving F p u s k (F - 1 - l)) (creal (mask k (F - 1 - l)%nat)))
    (cis (2 * PI * ((Rabs (at_pixel F k) + Rabs (at_pixel F (F - 1 - l))) / scale + (at_pixel F k * x + at_pixel F (F - 1 - l) * (INR p - 1 - y)) / INR F)))))).
  { rewrite csum2_mul_l, abs2_mul, abs2_cis. ring. }
  intros k l Hk Hl. rewrite M by assumption. rewrite at_pixel_rev, Rabs_Ropp by assumption. unfold arriving. rewrite ray_columns by exact H. cbn [point_columns m_x m_y].
  replace (- (at_pixel F l + - m_x s * step_px F p)) with (at_pixel F (F - 1 - l) + m_x s * step_px F p) by (rewrite at_pixel_rev by assumption; ring).
  set (z := ray F p u (at_pixel F k + m_y s * step_px F p) (at_pixel F (F - 1 - l) + m_x s * step_px F p)). set (m := creal (mask k l)).
  set (e1 := (Rabs (at_pixel F k) + Rabs (at_pixel F l)) / scale).
  transitivity (cmul (cmul z m) (cis (- (2 * PI * ((INR p - 1) * (at_pixel F l + - m_x s * step_px F p)) / INR F) + 2 * PI * (e1 + (at_pixel F k * x + at_pixel F l * y) / INR F)))); [rewrite cis_add; cring|].
  transitivity (cmul (cmul z m) (cis (t + 2 * PI * (e1 + (at_pixel F k * x + - at_pixel F l * (INR p - 1 - y)) / INR F)))); [|rewrite cis_add; cring].
  f_equal. f_equal. unfold t. field. apply not_0_INR. lia.
Qed.
Lemma behind_transposed F p scale mask u s x y : behind F p scale (transposed mask) (transposed u) (point_transposed s) x y = behind F p scale mask u s y x.
Proof.
  unfold behind. f_equal. rewrite csum2_swap. apply csum2_ext. intros k l _ _. unfold transposed at 2. f_equal; [f_equal|].
  - unfold arriving, ray. rewrite csum2_swap. apply csum2_ext. intros a b _ _. unfold transposed, point_transposed; cbn [m_x m_y]. f_equal. f_equal. f_equal. unfold Rdiv. f_equal. f_equal. ring.
  - f_equal. f_equal. rewrite (Rplus_comm (Rabs (at_pixel F l))). f_equal. f_equal. ring.
Qed.
Lemma behind_ext F p scale mask mask' u u' s x y : same_on F mask mask' -> same_on p u u' -> behind F p scale mask u s x y = behind F p scale mask' u' s x y.
Proof. intros M U. unfold behind. f_equal. apply csum2_ext. intros k l Hk Hl. rewrite (M k l Hk Hl). f_equal. f_equal. unfold arriving, ray. apply csum2_ext. intros a b Ha Hb. now rewrite (U a b Ha Hb). Qed.
Lemma behind_rows F p scale mask u s x y : (0 < F)%nat -> (forall k l, (k < F)%nat -> (l < F)%nat -> mask (F - 1 - k)%nat l = mask k l) ->
  abs2 (behind F p scale mask (rows_mirrored p u) (point_rows s) x y) = abs2 (behind F p scale mask u s (INR p - 1 - x) y).
Proof.
  intros H M. rewrite <- (behind_transposed F p scale mask (rows_mirrored p u) (point_rows s) y x). rewrite <- (behind_transposed F p scale mask u s y (INR p - 1 - x)).
  rewrite <- behind_columns by (try exact H; intros; unfold transposed; apply M; assumption). reflexivity.
Qed.
Lemma wsum_map l g f : (forall s, m_w (g s) = m_w s) -> wsum (map g l) f = wsum l (fun s => f (g s)).
Proof. intros H. unfold wsum. induction l as [|s l IH]; cbn; [reflexivity|]. now rewrite IH, H. Qed.
Lemma pad_half y : sound y -> 2 * INR (y_pad y / 2) = INR (y_tot y) - INR (y_p y).
Proof. intros S. rewrite (INR_half _ (sound_pad y S)). rewrite <- (sound_tot y S), plus_INR. lra. Qed.
Lemma tot_pos y : sound y -> (0 < y_tot y)%nat.
Proof. intros S. pose proof (sound_p y S). pose proof (sound_tot y S). lia. Qed.
Lemma pupils_columns y u r c : sound y -> same_on (y_tot y) (columns_mirrored (y_tot y) (y_mask y)) (y_mask y) -> unchanged_by point_columns (y_mod y) -> (c < y_tot y)%nat ->
  pupils y (columns_mirrored (y_p y) u) r c = pupils y u r (y_tot y - 1 - c)%nat.
Proof.
  intros S M U H. rewrite !pupils_image by exact S. unfold image_of. rewrite <- (U (fun s => abs2 (behind _ _ _ _ _ s _ _))). rewrite wsum_map by reflexivity. apply wsum_ext. intros s _.
  rewrite behind_columns by (try apply tot_pos; auto). f_equal. f_equal. rewrite !minus_INR by lia. cbn [INR]. pose proof (pad_half y S). lra.
Qed.
Lemma pupils_rows y u r c : sound y -> same_on (y_tot y) (rows_mirrored (y_tot y) (y_mask y)) (y_mask y) -> unchanged_by point_rows (y_mod y) -> (r < y_tot y)%nat ->
  pupils y (rows_mirrored (y_p y) u) r c = pupils y u (y_tot y - 1 - r)%nat c.
Proof.
  intros S M U H. rewrite !pupils_image by exact S. unfold image_of. rewrite <- (U (fun s => abs2 (behind _ _ _ _ _ s _ _))). rewrite wsum_map by reflexivity. apply wsum_ext. intros s _.
  rewrite behind_rows by (try apply tot_pos; auto). f_equal. f_equal. rewrite !minus_INR by lia. cbn [INR]. pose proof (pad_half y S). lra.
Qed.
Lemma pupils_transposed y u r c : sound y -> same_on (y_tot y) (transposed (y_mask y)) (y_mask y) -> unchanged_by point_transposed (y_mod y) -> pupils y (transposed u) r c = pupils y u c r.
Proof.
  intros S M U. rewrite !pupils_image by exact S. unfold image_of. rewrite <- (U (fun s => abs2 (behind _ _ _ _ _ s _ _))). rewrite wsum_map by reflexivity. apply wsum_ext. intros s _.
  rewrite (behind_ext _ _ _ (y_mask y) (transposed (y_mask y)) (transposed u) (transposed u)) by (intros ? ? ? ?; first [reflexivity|symmetry; apply M; assumption]). now rewrite behind_transposed.
Qed.

(* ------------------------------------------------------------------------- modulations *)
Lemma wsum_seq (pt : nat -> point) f n : wsum (map pt (seq 0 n)) f = rsum n (fun t => f (pt t) * m_w (pt t)).
Proof.
  unfold wsum. induction n as [|n IH]; [reflexivity|]. rewrite seq_S, map_app, fold_right_app. cbn [map fold_right rsum]. rewrite <- IH. clear IH. rewrite Nat.add_0_l.
  generalize (map pt (seq 0 n)) as l. induction l as [|s l IH]; cbn; [ring|]. rewrite IH. ring.
Qed.
Definition on_circle (amp : R) (n : nat) (z : Z) : point := let angle := 2 * PI * (IZR z / INR n) in mkPoint (amp * sin angle) (amp * cos angle) 1.
Lemma circular_sum amp n f : wsum (circular amp n) f = rsum n (fun t => f (on_circle amp n (Z.of_nat t))).
Proof. unfold circular. rewrite wsum_seq. apply rsum_ext. intros t _. cbn [m_w]. unfold on_circle. rewrite <- INR_IZR_INZ. ring. Qed.
Lemma circle_period amp n z q : (0 < n)%nat -> on_circle amp n (z + Z.of_nat n * q) = on_circle amp n z.
Proof.
  intros H. unfold on_circle. cbv zeta. assert (E : cis (2 * PI * (IZR (z + Z.of_nat n * q) / INR n)) = cis (2 * PI * (IZR z / INR n))).
  { apply cis_period with q. rewrite plus_IZR, mult_IZR, <- INR_IZR_INZ. field. apply not_0_INR. lia. }
  unfold cis in E. injection E as -> ->. reflexivity.
Qed.
Lemma circle_turn amp n f q : (0 < n)%nat -> rsum n (fun t => f (on_circle amp n (q - Z.of_nat t))) = rsum n (fun t => f (on_circle amp n (Z.of_nat t))).
Proof.
  intros H. set (s := Z.to_nat ((q + 1) mod Z.of_nat n)). pose proof (Z.mod_pos_bound (q + 1) (Z.of_nat n) ltac:(lia)).
  rewrite <- (rsum_rot n s (fun t => f (on_circle amp n (Z.of_nat t)))) by (unfold s; lia). rewrite <- (rsum_rev n (fun t => f (on_circle amp n (q - Z.of_nat t)))).
  apply rsum_ext. intros t Ht. f_equal. pose proof (Nat.div_mod (t + s) n ltac:(lia)) as D. pose proof (Z.div_mod (q + 1) (Z.of_nat n) ltac:(lia)) as D'.
  rewrite <- (circle_period amp n (Z.of_nat ((t + s) mod n)) (Z.of_nat ((t + s) / n) + (q + 1) / Z.of_nat n - 1)) by exact H. f_equal. unfold s in *. nia.
Qed.
Lemma circular_columns amp n : (0 < n)%nat -> unchanged_by point_columns (circular amp n).
Proof.
  intros H f. rewrite wsum_map by reflexivity. rewrite !circular_sum. rewrite <- (circle_turn amp n f 0 H). apply rsum_ext. intros t _. f_equal. unfold on_circle, point_columns. cbn [m_x m_y m_w].
  rewrite minus_IZR. replace (2 * PI * ((0 - IZR (Z.of_nat t)) / INR n)) with (- (2 * PI * (IZR (Z.of_nat t) / INR n))) by (unfold Rdiv; ring). rewrite sin_neg, cos_neg. f_equal. ring.
Qed.
Lemma circular_rows amp n : (0 < n)%nat -> Nat.even n = true -> unchanged_by point_rows (circular amp n).
Proof.
  intros H E f. rewrite wsum_map by reflexivity. rewrite !circular_sum. rewrite <- (circle_turn amp n f (Z.of_nat (n / 2)) H). apply rsum_ext. intros t _. f_equal. unfold on_circle, point_rows. cbn [m_x m_y m_w].
  rewrite minus_IZR, <- !INR_IZR_INZ, (INR_half n E). replace (2 * PI * ((INR n / 2 - INR t) / INR n)) with (PI - 2 * PI * (INR t / INR n)) by (field; apply not_0_INR; lia).
  rewrite sin_PI_x. rewrite cos_minus, cos_PI, sin_PI. f_equal. ring.
Qed.
Lemma circular_transposed amp n : (0 < n)%nat -> (n mod 4 = 0)%nat -> unchanged_by point_transposed (circular amp n).
Proof.
  intros H E f. rewrite wsum_map by reflexivity. rewrite !circular_sum. rewrite <- (circle_turn amp n f (Z.of_nat (n / 4)) H). apply rsum_ext. intros t _. f_equal. unfold on_circle, point_transposed. cbn [m_x m_y m_w].
  assert (Q : INR (n / 4) = INR n / 4). { pose proof (Nat.div_mod n 4 ltac:(lia)) as D. rewrite E in D. rewrite D at 2. rewrite Nat.add_0_r, mult_INR. cbn. lra. }
  rewrite minus_IZR, <- !INR_IZR_INZ, Q. replace (2 * PI * ((INR n / 4 - INR t) / INR n)) with (PI / 2 - 2 * PI * (INR t / INR n)) by (field; apply not_0_INR; lia).
  rewrite sin_shift, cos_shift. reflexivity.
Qed.
Lemma tilt_value_rev amp n t : (2 <= n)%nat -> (t < n)%nat -> tilt_value amp n (INR (n - 1 - t)) = - tilt_value amp n (INR t).
Proof. intros H T. unfold tilt_value. rewrite !minus_INR by lia. cbn [INR]. assert (2 <= INR n) by (change 2 with (INR 2); apply le_INR; exact H). field. lra. Qed.
Lemma avg_tilt_rev amp n t : (2 <= n)%nat -> (t < n)%nat -> avg_tilt amp n (n - 1 - t) = - avg_tilt amp n t.
Proof.
  intros H T. assert (N2 : 2 <= INR n) by (change 2 with (INR 2); apply le_INR; exact H). unfold avg_tilt. destruct (Nat.eqb_spec (n - 1 - t) 0) as [A|A], (Nat.eqb_spec t 0) as [B|B]; try lia.
  - destruct (Nat.eqb_spec t (n - 1)); [|lia]. subst t. unfold tilt_value. rewrite minus_INR by lia. cbn [INR]. field. lra.
  - subst t. rewrite Nat.sub_0_r. rewrite Nat.eqb_refl. unfold tilt_value. rewrite minus_INR by lia. cbn [INR]. field. lra.
  - destruct (Nat.eqb_spec (n - 1 - t) (n - 1)); [lia|]. destruct (Nat.eqb_spec t (n - 1)); [lia|]. apply tilt_value_rev; assumption.
Qed.
Lemma flux_factor_rev amp n t : (2 <= n)%nat -> (t < n)%nat -> flux_factor amp n (n - 1 - t) = flux_factor amp n t.
Proof. intros H T. unfold flux_factor. now rewrite avg_tilt_rev, Rabs_Ropp by assumption. Qed.
Lemma linear_ok h amp n l : linear h amp n = Ok l -> n <> 1%nat /\ l = map (fun t => let v := tilt_value amp n (INR t) in mkPoint (if h then v else 0) (if h then 0 else v) (flux_factor amp n t)) (seq 0 n).
Proof. unfold linear. destruct (Nat.eqb_spec n 1) as [E|E]; [discriminate|]. intros [= <-]. auto. Qed.
Lemma linear_unchanged h amp n l (columns : bool) : linear h amp n = Ok l -> unchanged_by (if columns then point_columns else point_rows) l.
Proof.
  intros E. apply linear_ok in E. destruct E as [N ->]. intros f. rewrite wsum_map by (destruct columns; reflexivity). rewrite !wsum_seq. destruct n as [|[|n]]; [reflexivity|lia|]. set (m := S (S n)) in *.
  assert (M : (2 <= m)%nat) by (unfold m; lia). destruct (Bool.bool_dec h columns) as [->|D].
  - rewrite <- (rsum_rev m (fun t => f _ * m_w _)). apply rsum_ext. intros t Ht. cbn [m_w]. rewrite tilt_value_rev, flux_factor_rev by assumption. destruct columns; cbn [m_w m_x m_y point_columns point_rows]; f_equal; f_equal; unfold point_columns, point_rows; cbn; f_equal; ring.
  - apply rsum_ext. intros t Ht. destruct h, columns; try congruence; unfold point_columns, point_rows; cbn [m_w m_x m_y]; rewrite ?Ropp_0; reflexivity.
Qed.
Lemma avg_tilt_lt amp n t : 0 < amp -> (2 <= n)%nat -> (t < n)%nat -> Rabs (avg_tilt amp n t) < amp.
Proof.
  intros A H T. assert (N2 : 2 <= INR n) by (change 2 with (INR 2); apply le_INR; exact H). assert (I : 0 < / (INR n - 1) <= 1).
  { split; [apply Rinv_0_lt_compat; lra|]. rewrite <- Rinv_1. apply Rinv_le_contravar; lra. }
  assert (J : / (INR n - 1) * (INR n - 1) = 1) by (apply Rinv_l; lra). set (i := / (INR n - 1)) in *.
  apply Rabs_def1; unfold avg_tilt; destruct (Nat.eqb_spec t 0) as [B|B]; try destruct (Nat.eqb_spec t (n - 1)) as [D|D]; unfold tilt_value, Rdiv; fold i;
    try (subst t; rewrite minus_INR by lia; cbn [INR]); try nra.
  - assert (INR t + 1 <= INR n - 1). { replace (INR t + 1) with (INR (t + 1)) by (rewrite plus_INR; reflexivity). replace (INR n - 1) with (INR (n - 1)) by (rewrite minus_INR by lia; reflexivity). apply le_INR. lia. }
    assert (INR t * i <= 1 - i) by nra. nra.
  - assert (1 <= INR t) by (change 1 with (INR 1); apply le_INR; lia). assert (i <= INR t * i) by nra. nra.
Qed.
Lemma flux_factor_pos amp n t : 0 < amp -> (2 <= n)%nat -> (t < n)%nat -> 1 <= flux_factor amp n t.
Proof.
  intros A H T. pose proof (avg_tilt_lt amp n t A H T) as L. pose proof (Rabs_pos (avg_tilt amp n t)) as P. pose proof PI_RGT_0 as PI0. unfold flux_factor. set (x := Rabs (avg_tilt amp n t)) in *.
  assert (B : 0 <= x * PI / (2 * amp) < PI / 2).
  { assert (E : x * PI / (2 * amp) = (x / amp) * (PI / 2)) by (field; lra). assert (0 <= x / amp < 1). { split; [apply Rmult_le_pos; [lra|left; apply Rinv_0_lt_compat; lra]|]. apply Rmult_lt_reg_r with amp; [lra|]. unfold Rdiv. rewrite Rmult_assoc, Rinv_l by lra. lra. } rewrite E. split; nra. }
  assert (C : 0 < cos (x * PI / (2 * amp))) by (apply cos_gt_0; lra). pose proof (COS_bound (x * PI / (2 * amp))) as [_ D].
  unfold Rdiv at 1. rewrite Rmult_1_l. rewrite <- Rinv_1. apply Rinv_le_contravar; lra.
Qed.

(* ------------------------------------------------------------------------- the four faces *)
Lemma csum2_quarters h f : csum2 (h + h) (h + h) f = cadd (cadd (csum2 h h f) (csum2 h h (fun i j => f i (h + j)%nat))) (cadd (csum2 h h (fun i j => f (h + i)%nat j)) (csum2 h h (fun i j => f (h + i)%nat (h + j)%nat))).
Proof.
  unfold csum2. rewrite csum_app. f_equal; rewrite <- csum_add; apply csum_ext; intros; now rewrite csum_app.
Qed.
Lemma at_pixel_low F k : Nat.even F = true -> (k < F / 2)%nat -> at_pixel F k <= - / 2.
Proof. intros E H. unfold at_pixel. rewrite <- (INR_half F E). assert (INR (k + 1) <= INR (F / 2)) by (apply le_INR; lia). rewrite plus_INR in H0. cbn [INR] in H0. lra. Qed.
Lemma at_pixel_high F k : Nat.even F = true -> / 2 <= at_pixel F (F / 2 + k).
Proof. intros E. unfold at_pixel. rewrite plus_INR, (INR_half F E). pose proof (pos_INR k). lra. Qed.
Definition disp (F : nat) (scale : R) (low : bool) : R := if low then INR F / scale else - (INR F / scale).
Lemma disp_abs F scale (low : bool) k x : (0 < F)%nat -> Nat.even F = true -> (k < F / 2)%nat -> let K := if low then (F / 2 + k)%nat else k in
  Rabs (at_pixel F K) / scale + at_pixel F K * x / INR F = at_pixel F K * (x + disp F scale low) / INR F.
Proof.
  intros H E Hk K. assert (N : INR F <> 0) by (apply not_0_INR; lia). unfold K, disp. destruct low.
  - pose proof (at_pixel_high F k E). rewrite Rabs_right by lra. unfold Rdiv. set (i := / scale). field. exact N.
  - pose proof (at_pixel_low F k E Hk). rewrite Rabs_left1 by lra. unfold Rdiv. set (i := / scale). field. exact N.
Qed.
Lemma face_part F p scale mask u s (low right : bool) x y : (0 < F)%nat -> Nat.even F = true ->
  let k := fun k => if low then (F / 2 + k)%nat else k in let l := fun l => if right then (F / 2 + l)%nat else l in
  cmul (creal (/ INR F * / INR F)) (csum2 (F / 2) (F / 2) (fun i j => cmul (cmul (arriving F p u s (k i) (l j)) (creal (mask (k i) (l j))))
    (cis (2 * PI * ((Rabs (at_pixel F (k i)) + Rabs (at_pixel F (l j))) / scale + (at_pixel F (k i) * x + at_pixel F (l j) * y) / INR F))))) =
  face_field F p mask u s low right (x + disp F scale low) (y + disp F scale right).
Proof.
  intros H E k l. unfold face_field. fold k l. cbv zeta. f_equal. apply csum2_ext. intros i j Hi Hj. f_equal. f_equal. f_equal.
  pose proof (disp_abs F scale low i x H E Hi) as D. pose proof (disp_abs F scale right j y H E Hj) as D'. cbv zeta in D, D'. change (if low then (F / 2 + i)%nat else i) with (k i) in D. change (if right then (F / 2 + j)%nat else j) with (l j) in D'.
  change (if low then (F / 2 + i)%nat else i) with (k i). change (if right then (F / 2 + j)%nat else j) with (l j). unfold Rdiv in *. rewrite !Rmult_plus_distr_r. lra.
Qed.
Lemma behind_faces F p scale mask u s x y : (0 < F)%nat -> Nat.even F = true -> let d := INR F / scale in
  behind F p scale mask u s x y =
  cadd (cadd (face_field F p mask u s false false (x - d) (y - d)) (face_field F p mask u s false true (x - d) (y + d)))
       (cadd (face_field F p mask u s true false (x + d) (y - d)) (face_field F p mask u s true true (x + d) (y + d))).
Proof.
  intros H E d. unfold behind. pose proof (even_half F E) as EF. replace (csum2 F F) with (csum2 (F / 2 + F / 2) (F / 2 + F / 2)) by (f_equal; lia). rewrite csum2_quarters.
  pose proof (face_part F p scale mask u s false false x y H E) as A. pose proof (face_part F p scale mask u s false true x y H E) as B.
  pose proof (face_part F p scale mask u s true false x y H E) as C. pose proof (face_part F p scale mask u s true true x y H E) as D.
  cbv beta zeta iota in A, B, C, D. unfold disp in A, B, C, D. fold d in A, B, C, D. unfold Rminus. rewrite <- A, <- B, <- C, <- D. cring.
Qed.
(* without a prism the faces rebuild the field *)
Lemma faces_rebuild y u r c : sound y -> (r < y_p y)%nat -> (c < y_p y)%nat -> let still := mkPoint 0 0 1 in
  let f := fun low right => face_field (y_tot y) (y_p y) (fun _ _ => 1) u still low right (INR r) (INR c) in
  abs2 (cadd (cadd (f false false) (f false true)) (cadd (f true false) (f true true))) = abs2 (u r c).
Proof.
  intros S Hr Hc still f. pose proof (tot_pos y S) as F0. pose proof (sound_even y S) as E. pose proof (even_half _ E) as EF. pose proof (sound_tot y S) as T.
  destruct (back y u still (fun _ _ => creal 1) r c (Z.of_nat r) (Z.of_nat c) 0 0 S ltac:(lia) ltac:(lia)) as [t Et].
  assert (L : abs2 (idft2 (y_tot y) (y_tot y) (fun k l => cmul (u_fp y u still k l) (fftshift (y_tot y) (y_tot y) (fun _ _ => creal 1) k l)) r c) = abs2 (u r c)).
  { transitivity (abs2 (idft2 (y_tot y) (y_tot y) (u_fp y u still) r c)).
    { f_equal. unfold idft2. f_equal. apply csum2_ext. intros. unfold fftshift. cring. } unfold u_fp. rewrite idft2_dft2 by lia. rewrite corner_in by assumption. unfold ttexp, tlt_f. rewrite !abs2_mul, !abs2_cis. ring. }
  rewrite <- L, Et. rewrite (abs2_mul (cis t)), abs2_cis, Rmult_1_l. rewrite <- !INR_IZR_INZ. f_equal.
  replace (csum2 (y_tot y) (y_tot y)) with (csum2 (y_tot y / 2 + y_tot y / 2) (y_tot y / 2 + y_tot y / 2)) by (f_equal; lia). rewrite csum2_quarters. unfold f, face_field. cbv zeta iota. cring.
Qed.

(* ------------------------------------------------------------------------- light *)
Lemma wsum_rsum2 n m l f : rsum2 n m (fun a b => wsum l (fun s => f s a b)) = wsum l (fun s => rsum2 n m (f s)).
Proof.
  unfold wsum. induction l as [|s l IH]; cbn; [unfold rsum2; rewrite (rsum_ext n _ (fun _ => 0)) by (intros; apply rsum_0); apply rsum_0|]. rewrite <- IH, rsum2_add, rsum2_mul_r. reflexivity.
Qed.
Lemma wsum_const l x : wsum l (fun _ => x) = x * weights l.
Proof. unfold wsum, weights. induction l as [|s l IH]; cbn; [ring|]. rewrite IH. ring. Qed.
Lemma wsum_le l f g : (forall s, In s l -> 0 <= m_w s) -> (forall s, In s l -> f s <= g s) -> wsum l f <= wsum l g.
Proof. unfold wsum. induction l as [|s l IH]; intros P H; cbn; [lra|]. pose proof (IH (fun x I => P x (or_intror I)) (fun x I => H x (or_intror I))). pose proof (P s (or_introl eq_refl)). pose proof (H s (or_introl eq_refl)). nra. Qed.
Lemma wsum_mul l x f : wsum l (fun s => x * f s) = x * wsum l f.
Proof. unfold wsum. induction l as [|s l IH]; cbn; [ring|]. rewrite IH. ring. Qed.
Lemma weights_pos l : positive_weights l -> 0 < weights l.
Proof.
  intros [N P]. unfold weights. destruct l as [|s l]; [congruence|]. cbn. pose proof (P s (or_introl eq_refl)). assert (0 <= fold_right (fun s r => m_w s + r) 0 l); [|lra].
  clear N. assert (Q : forall t, In t l -> 0 < m_w t) by (intros; apply P; now right). clear P H. induction l as [|t l IH]; cbn; [lra|]. pose proof (Q t (or_introl eq_refl)). pose proof (IH (fun x I => Q x (or_intror I))). lra.
Qed.
Lemma u_fp_light y u s : sound y -> rsum2 (y_tot y) (y_tot y) (fun k l => abs2 (u_fp y u s k l)) = INR (y_tot y) * INR (y_tot y) * light (y_p y) u.
Proof.
  intros S. pose proof (tot_pos y S). pose proof (sound_tot y S). unfold u_fp. rewrite parseval2 by assumption. rewrite abs2_corner by lia. f_equal. unfold light. apply rsum2_ext. intros. unfold tlt_f, ttexp. rewrite !abs2_mul, !abs2_cis. ring.
Qed.
Lemma rsum2_fftshift n f : rsum2 n n (fftshift n n f) = rsum2 n n f.
Proof. unfold fftshift. apply rsum2_rot; lia. Qed.
Lemma bfm_light y u : sound y -> weights (y_mod y) <> 0 -> rsum2 (y_tot y) (y_tot y) (psf_bfm y u) = INR (y_tot y) * INR (y_tot y) * light (y_p y) u.
Proof.
  intros S W. unfold psf_bfm. rewrite rsum2_mul_r. rewrite (rsum2_fftshift (y_tot y) (fun k l => wsum (y_mod y) (fun s => abs2 (u_fp y u s k l)))).
  rewrite (wsum_rsum2 _ _ _ (fun s k l => abs2 (u_fp y u s k l))). rewrite (wsum_ext _ _ (fun _ => INR (y_tot y) * INR (y_tot y) * light (y_p y) u)) by (intros; apply u_fp_light; exact S). rewrite wsum_const. field. exact W.
Qed.
(* through the mask *)
Definition passed (y : pyr) (u : field) (s : point) : R := rsum2 (y_tot y) (y_tot y) (fun k l => fftshift (y_tot y) (y_tot y) (fun k l => abs2 (u_fp y u s k l)) k l * y_mask y k l).
Lemma tot_passed y u : rsum2 (y_tot y) (y_tot y) (psf_tot y u) = wsum (y_mod y) (passed y u) * (1 / weights (y_mod y)).
Proof.
  unfold psf_tot. rewrite rsum2_mul_r. f_equal. unfold passed. rewrite <- (wsum_rsum2 _ _ _ (fun s k l => fftshift (y_tot y) (y_tot y) (fun k l => abs2 (u_fp y u s k l)) k l * y_mask y k l)). apply rsum2_ext. intros k l _ _.
  unfold fftshift. rewrite Rmult_comm. rewrite <- wsum_mul. apply wsum_ext. intros. ring.
Qed.
Lemma pupils_passed y u : sound y -> binary (y_tot y) (y_mask y) -> rsum2 (y_tot y) (y_tot y) (pupils y u) = / (INR (y_tot y) * INR (y_tot y)) * wsum (y_mod y) (passed y u).
Proof.
  intros S B. pose proof (tot_pos y S) as F0. pose proof (sound_even y S) as E. unfold pupils, roll.
  assert (L : (y_tot y - (y_pad y / 2) mod y_tot y <= y_tot y)%nat) by lia. rewrite (rsum2_rot _ _ _ _ (pyr_image y u) L L). unfold pyr_image. rewrite (wsum_rsum2 _ _ _ (fun s r c => abs2 (pyr_ef y u s r c))).
  rewrite <- wsum_mul. apply wsum_ext. intros s _. assert (N : INR (y_tot y) <> 0) by (apply not_0_INR; lia).
  apply Rmult_eq_reg_l with (INR (y_tot y) * INR (y_tot y)); [|now apply Rmult_integral_contrapositive]. unfold pyr_ef. rewrite iparseval2 by assumption. rewrite <- Rmult_assoc, Rinv_r, Rmult_1_l by now apply Rmult_integral_contrapositive.
  unfold passed. rewrite <- (rsum2_fftshift (y_tot y) (fun k l => abs2 (cmul (u_fp y u s k l) (masked_exp y k l)))). apply rsum2_ext. intros k l Hk Hl. unfold masked_exp, fftshift. rewrite !shift_twice by assumption.
  rewrite !abs2_mul, abs2_cis, abs2_real. destruct (B k l Hk Hl) as [-> | ->]; ring.
Qed.
Lemma passed_range y u s : sound y -> (forall k l, (k < y_tot y)%nat -> (l < y_tot y)%nat -> 0 <= y_mask y k l <= 1) -> 0 <= passed y u s <= INR (y_tot y) * INR (y_tot y) * light (y_p y) u.
Proof.
  intros S M. split.
  - apply rsum2_nonneg. intros k l Hk Hl. apply Rmult_le_pos; [apply abs2_nonneg|apply M; assumption].
  - rewrite <- (u_fp_light y u s S). rewrite <- (rsum2_fftshift (y_tot y) (fun k l => abs2 (u_fp y u s k l))). apply rsum2_le. intros k l Hk Hl. unfold fftshift.
    pose proof (abs2_nonneg (u_fp y u s ((k + (y_tot y - y_tot y / 2)) mod y_tot y) ((l + (y_tot y - y_tot y / 2)) mod y_tot y))). pose proof (M k l Hk Hl). nra.
Qed.
Lemma transmission_val y u : sound y -> positive_weights (y_mod y) -> transmission y u = wsum (y_mod y) (passed y u) / (weights (y_mod y) * (INR (y_tot y) * INR (y_tot y) * light (y_p y) u)).
Proof. intros S W. apply weights_pos in W. unfold transmission. rewrite tot_passed, bfm_light by (try exact S; lra). unfold Rdiv. rewrite !Rinv_mult. ring. Qed.
Lemma transmission_range y u : sound y -> positive_weights (y_mod y) -> 0 < light (y_p y) u -> (forall k l, (k < y_tot y)%nat -> (l < y_tot y)%nat -> 0 <= y_mask y k l <= 1) -> 0 <= transmission y u <= 1.
Proof.
  intros S W L M. rewrite transmission_val by assumption. pose proof (weights_pos _ W) as W0. assert (F : 0 < INR (y_tot y)) by (apply lt_0_INR, tot_pos, S). set (k := INR (y_tot y) * INR (y_tot y) * light (y_p y) u).
  assert (K : 0 < k) by (unfold k; repeat apply Rmult_lt_0_compat; assumption). assert (P : forall s, In s (y_mod y) -> 0 <= m_w s) by (intros s I; left; apply W, I).
  assert (A : wsum (y_mod y) (fun _ => 0) <= wsum (y_mod y) (passed y u)) by (apply wsum_le; [exact P|intros; apply passed_range; assumption]).
  assert (B : wsum (y_mod y) (passed y u) <= wsum (y_mod y) (fun _ => k)) by (apply wsum_le; [exact P|intros; apply passed_range; assumption]). rewrite wsum_const in A, B.
  assert (D : 0 < weights (y_mod y) * k) by (apply Rmult_lt_0_compat; assumption). split.
  - apply Rmult_le_pos; [lra|]. left. apply Rinv_0_lt_compat, D.
  - apply Rmult_le_reg_r with (weights (y_mod y) * k); [exact D|]. unfold Rdiv. rewrite Rmult_assoc, Rinv_l by lra. lra.
Qed.
Lemma transmission_open y u : sound y -> positive_weights (y_mod y) -> 0 < light (y_p y) u -> (forall k l, (k < y_tot y)%nat -> (l < y_tot y)%nat -> y_mask y k l = 1) -> transmission y u = 1.
Proof.
  intros S W L M. rewrite transmission_val by assumption. pose proof (weights_pos _ W) as W0. assert (F : 0 < INR (y_tot y)) by (apply lt_0_INR, tot_pos, S).
  rewrite (wsum_ext _ _ (fun _ => INR (y_tot y) * INR (y_tot y) * light (y_p y) u)).
  - rewrite wsum_const. field. repeat split; lra.
  - intros s _. unfold passed. rewrite <- (u_fp_light y u s S). rewrite <- (rsum2_fftshift (y_tot y) (fun k l => abs2 (u_fp y u s k l))). apply rsum2_ext. intros. rewrite M by assumption. ring.
Qed.
Lemma bright_light y u phot : sound y -> positive_weights (y_mod y) -> binary (y_tot y) (y_mask y) -> transmission y u <> 0 -> rsum2 (y_tot y) (y_tot y) (bright y u phot) = phot * transmission y u.
Proof.
  intros S W B T. assert (N : rsum2 (y_tot y) (y_tot y) (pupils y u) <> 0).
  { intros E. apply T. rewrite transmission_val by assumption. rewrite pupils_passed in E by assumption. apply Rmult_integral in E. destruct E as [E|E]; [|rewrite E; unfold Rdiv; ring].
    exfalso. revert E. apply Rinv_neq_0_compat. assert (INR (y_tot y) <> 0) by (apply not_0_INR; pose proof (tot_pos y S); lia). now apply Rmult_integral_contrapositive. }
  unfold bright. rewrite rsum2_mul_r. field. exact N.
Qed.
Lemma binned_sum t k f : rsum2 t t (binned k f) = rsum2 (t * k) (t * k) f.
Proof. rewrite rsum2_blocks. reflexivity. Qed.
Lemma rsum_embed d t n f : (d + t <= n)%nat -> (forall i, (i < d)%nat \/ (d + t <= i < n)%nat -> f i = 0) -> rsum n f = rsum t (fun i => f (d + i)%nat).
Proof.
  intros H Z. replace n with (d + t + (n - d - t))%nat by lia. rewrite !rsum_app. rewrite (rsum_ext d f (fun _ => 0)) by (intros; apply Z; lia). rewrite (rsum_ext (n - d - t) _ (fun _ => 0)) by (intros; apply Z; lia). rewrite !rsum_0. ring.
Qed.
Lemma on_detector_larger t n i : (t <= n)%nat -> rsum2 n n (on_detector t n i) = rsum2 t t i.
Proof.
  intros H. unfold on_detector. destruct (Nat.ltb_spec t n) as [L|L].
  - cbv zeta. set (d := ((n - t) / 2)%nat). assert (D : (d + t <= n)%nat) by (unfold d; pose proof (Nat.div_le_upper_bound (n - t) 2 (n - t) ltac:(lia) ltac:(lia)); lia). unfold rsum2. rewrite (rsum_embed d t n _ D).
    + apply rsum_ext. intros r Hr. rewrite (rsum_embed d t n _ D).
      * apply rsum_ext. intros c Hc. replace ((d <=? d + r)%nat && (d + r <? d + t)%nat && (d <=? d + c)%nat && (d + c <? d + t)%nat) with true; [f_equal; lia|]. symmetry. rewrite !andb_true_iff, !Nat.leb_le, !Nat.ltb_lt. lia.
      * intros c Hc. destruct ((d <=? d + r)%nat && (d + r <? d + t)%nat && (d <=? c)%nat && (c <? d + t)%nat) eqn:E; [|reflexivity]. rewrite !andb_true_iff, !Nat.leb_le, !Nat.ltb_lt in E. lia.
    + intros r Hr. transitivity (rsum n (fun _ => 0)); [|apply rsum_0]. apply rsum_ext. intros c _. destruct ((d <=? r)%nat && (r <? d + t)%nat && (d <=? c)%nat && (c <? d + t)%nat) eqn:E; [|reflexivity]. rewrite !andb_true_iff, !Nat.leb_le, !Nat.ltb_lt in E. lia.
  - replace ((t - n) / 2)%nat with 0%nat by (replace (t - n)%nat with 0%nat by lia; reflexivity). replace n with t by lia. reflexivity.
Qed.

(* ------------------------------------------------------------------------- the detector *)
Lemma psf_val y u s k l : sound y -> (k < y_tot y)%nat -> (l < y_tot y)%nat -> fftshift (y_tot y) (y_tot y) (fun k l => abs2 (u_fp y u s k l)) k l = abs2 (arriving (y_tot y) (y_p y) u s k l).
Proof.
  intros S Hk Hl. pose proof (tot_pos y S) as F0. destruct (shift_index (y_tot y) k F0) as [a Ea]. destruct (shift_index (y_tot y) l F0) as [b Eb]. unfold fftshift.
  rewrite (u_fp_ray y u s _ _ k l a b S Ea Eb), abs2_mul, abs2_cis. ring.
Qed.
Lemma rsum2_columns n f g : (forall r c, (r < n)%nat -> (c < n)%nat -> f r c = g r (n - 1 - c)%nat) -> rsum2 n n f = rsum2 n n g.
Proof. intros H. unfold rsum2. apply rsum_ext. intros r Hr. rewrite <- (rsum_rev n (g r)). apply rsum_ext. intros c Hc. apply H; assumption. Qed.
Lemma rsum2_swap n f : rsum2 n n f = rsum2 n n (fun r c => f c r).
Proof. unfold rsum2. apply rsum_swap. Qed.
Lemma rsum2_rows n f g : (forall r c, (r < n)%nat -> (c < n)%nat -> f r c = g (n - 1 - r)%nat c) -> rsum2 n n f = rsum2 n n g.
Proof. intros H. rewrite rsum2_swap, (rsum2_swap n g). apply rsum2_columns. intros r c Hr Hc. apply H; assumption. Qed.
Lemma transmission_pupils y u : sound y -> positive_weights (y_mod y) -> binary (y_tot y) (y_mask y) -> transmission y u = rsum2 (y_tot y) (y_tot y) (pupils y u) / (weights (y_mod y) * light (y_p y) u).
Proof. intros S W B. rewrite transmission_val, pupils_passed by assumption. unfold Rdiv. rewrite !Rinv_mult. ring. Qed.
Lemma same_bright y u u' phot : sound y -> positive_weights (y_mod y) -> binary (y_tot y) (y_mask y) -> light (y_p y) u' = light (y_p y) u -> rsum2 (y_tot y) (y_tot y) (pupils y u') = rsum2 (y_tot y) (y_tot y) (pupils y u) ->
  forall r c r' c', pupils y u' r c = pupils y u r' c' -> bright y u' phot r c = bright y u phot r' c'.
Proof. intros S W B L T r c r' c' E. unfold bright. rewrite !transmission_pupils by assumption. rewrite L, T, E. reflexivity. Qed.
Lemma binned_columns t k f g r c : (forall r c, (r < t * k)%nat -> (c < t * k)%nat -> f r c = g r (t * k - 1 - c)%nat) -> (r < t)%nat -> (c < t)%nat -> binned k f r c = binned k g r (t - 1 - c)%nat.
Proof.
  intros H Hr Hc. unfold binned, rsum2. apply rsum_ext. intros a Ha. rewrite <- (rsum_rev k (fun b => g (r * k + a)%nat ((t - 1 - c) * k + b)%nat)). apply rsum_ext. intros b Hb. rewrite H by nia. f_equal. nia.
Qed.
Lemma on_detector_columns t n f g r c : (forall r c, (r < t)%nat -> (c < t)%nat -> f r c = g r (t - 1 - c)%nat) -> Nat.even (n + t) = true -> (r < n)%nat -> (c < n)%nat -> on_detector t n f r c = on_detector t n g r (n - 1 - c)%nat.
Proof.
  intros H E Hr Hc. apply Nat.even_spec in E. destruct E as [m E]. unfold on_detector. destruct (Nat.ltb_spec t n) as [L|L]; cbv zeta.
  - set (d := ((n - t) / 2)%nat). assert (D : (n - t = 2 * d)%nat). { unfold d. replace (n - t)%nat with ((m - t) * 2)%nat by lia. rewrite Nat.div_mul by lia. lia. }
    destruct ((d <=? r)%nat && (r <? d + t)%nat && (d <=? c)%nat && (c <? d + t)%nat) eqn:B.
    + rewrite !andb_true_iff, !Nat.leb_le, !Nat.ltb_lt in B. replace ((d <=? r)%nat && (r <? d + t)%nat && (d <=? n - 1 - c)%nat && (n - 1 - c <? d + t)%nat) with true by (symmetry; rewrite !andb_true_iff, !Nat.leb_le, !Nat.ltb_lt; lia).
      rewrite H by lia. f_equal. lia.
    + destruct ((d <=? r)%nat && (r <? d + t)%nat && (d <=? n - 1 - c)%nat && (n - 1 - c <? d + t)%nat) eqn:B'; [|reflexivity]. rewrite !andb_true_iff, !Nat.leb_le, !Nat.ltb_lt in B'. exfalso.
      assert (X : (d <=? r)%nat && (r <? d + t)%nat && (d <=? c)%nat && (c <? d + t)%nat = true) by (rewrite !andb_true_iff, !Nat.leb_le, !Nat.ltb_lt; lia). congruence.
  - set (d := ((t - n) / 2)%nat). assert (D : (t - n = 2 * d)%nat). { unfold d. replace (t - n)%nat with ((m - n) * 2)%nat by lia. rewrite Nat.div_mul by lia. lia. }
    rewrite H by lia. f_equal. lia.
Qed.
Lemma binned_swap k f r c : binned k f r c = binned k (fun r c => f c r) c r.
Proof. unfold binned. apply rsum2_swap. Qed.
Lemma on_detector_swap t n f r c : on_detector t n f r c = on_detector t n (fun r c => f c r) c r.
Proof.
  unfold on_detector. destruct (t <? n)%nat; [|reflexivity]. cbv zeta.
  replace ((((n - t) / 2 <=? c) && (c <? (n - t) / 2 + t) && ((n - t) / 2 <=? r) && (r <? (n - t) / 2 + t)))%nat with (((n - t) / 2 <=? r) && (r <? (n - t) / 2 + t) && ((n - t) / 2 <=? c) && (c <? (n - t) / 2 + t))%nat; [reflexivity|].
  destruct ((n - t) / 2 <=? r)%nat, (r <? (n - t) / 2 + t)%nat, ((n - t) / 2 <=? c)%nat, (c <? (n - t) / 2 + t)%nat; reflexivity.
Qed.
