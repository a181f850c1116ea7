(* Proofs about images of a point. *)
From Coq Require Import Reals List ZArith Bool Arith Lia Lra.
From Verif Require Import PyBase PyLemmas Fourier PsfModel PsfSpec.
Import ListNotations.
Local Open Scope R_scope.

(* ------------------------------------------------------------------ sums over arrays *)
Lemma csum2_ext n m f g : (forall i j, (i < n)%nat -> (j < m)%nat -> f i j = g i j) -> csum2 n m f = csum2 n m g.
Proof. intros H. apply csum_ext. intros i Hi. apply csum_ext. auto. Qed.
Lemma rsum2_ext n m f g : (forall i j, (i < n)%nat -> (j < m)%nat -> f i j = g i j) -> rsum2 n m f = rsum2 n m g.
Proof. intros H. apply rsum_ext. intros i Hi. apply rsum_ext. auto. Qed.
Lemma rsum2_le n m f g : (forall i j, (i < n)%nat -> (j < m)%nat -> f i j <= g i j) -> rsum2 n m f <= rsum2 n m g.
Proof. intros H. apply rsum_le. intros i Hi. apply rsum_le. auto. Qed.
Lemma rsum2_nonneg n m f : (forall i j, (i < n)%nat -> (j < m)%nat -> 0 <= f i j) -> 0 <= rsum2 n m f.
Proof. intros H. apply rsum_nonneg. intros i Hi. apply rsum_nonneg. auto. Qed.
Lemma rsum2_zero n m f : (forall i j, (i < n)%nat -> (j < m)%nat -> 0 <= f i j) -> rsum2 n m f = 0 -> forall i j, (i < n)%nat -> (j < m)%nat -> f i j = 0.
Proof.
  intros H E i j Hi Hj. apply (rsum_zero m (f i)); auto. apply (rsum_zero n (fun i => rsum m (f i))); auto.
  intros k Hk. apply rsum_nonneg. auto.
Qed.
Lemma rsum2_add n m f g : rsum2 n m (fun i j => f i j + g i j) = rsum2 n m f + rsum2 n m g.
Proof. unfold rsum2. rewrite <- rsum_add. apply rsum_ext. intros i _. apply rsum_add. Qed.
Lemma rsum2_mul_l n m c f : rsum2 n m (fun i j => c * f i j) = c * rsum2 n m f.
Proof. unfold rsum2. rewrite <- rsum_mul_l. apply rsum_ext. intros i _. apply rsum_mul_l. Qed.
Lemma rsum2_mul_r n m c f : rsum2 n m (fun i j => f i j * c) = rsum2 n m f * c.
Proof. unfold rsum2. rewrite <- rsum_mul_r. apply rsum_ext. intros i _. apply rsum_mul_r. Qed.
Lemma csum2_add n m f g : csum2 n m (fun i j => cadd (f i j) (g i j)) = cadd (csum2 n m f) (csum2 n m g).
Proof. unfold csum2. rewrite <- csum_add. apply csum_ext. intros i _. apply csum_add. Qed.
Lemma csum2_mul_l n m c f : csum2 n m (fun i j => cmul c (f i j)) = cmul c (csum2 n m f).
Proof. unfold csum2. rewrite <- csum_mul_l. apply csum_ext. intros i _. apply csum_mul_l. Qed.
Lemma csum2_mul_r n m c f : csum2 n m (fun i j => cmul (f i j) c) = cmul (csum2 n m f) c.
Proof. unfold csum2. rewrite <- csum_mul_r. apply csum_ext. intros i _. apply csum_mul_r. Qed.
Lemma csum2_conj n m f : cconj (csum2 n m f) = csum2 n m (fun i j => cconj (f i j)).
Proof. unfold csum2. rewrite cconj_sum. apply csum_ext. intros i _. apply cconj_sum. Qed.
Lemma fst_csum2 n m f : fst (csum2 n m f) = rsum2 n m (fun i j => fst (f i j)).
Proof. unfold csum2, rsum2. rewrite fst_csum. apply rsum_ext. intros i _. apply fst_csum. Qed.
Lemma snd_csum2 n m f : snd (csum2 n m f) = rsum2 n m (fun i j => snd (f i j)).
Proof. unfold csum2, rsum2. rewrite snd_csum. apply rsum_ext. intros i _. apply snd_csum. Qed.
Lemma csum2_real n m f : csum2 n m (fun i j => creal (f i j)) = creal (rsum2 n m f).
Proof. unfold csum2, rsum2. rewrite creal_rsum. apply csum_ext. intros i _. now rewrite creal_rsum. Qed.

Lemma csum_cut n w f : (n <= w)%nat -> (forall i, (n <= i < w)%nat -> f i = c0) -> csum w f = csum n f.
Proof.
  intros H Z. replace w with (n + (w - n))%nat by lia. rewrite csum_app.
  rewrite (csum_ext (w - n) _ (fun _ => c0)), csum_0. cring. intros i Hi. apply Z. lia.
Qed.
Lemma csum2_cut n m N M f : (n <= N)%nat -> (m <= M)%nat -> (forall i j, (i < n)%nat -> (m <= j < M)%nat -> f i j = c0) ->
  (forall i j, (n <= i < N)%nat -> (j < M)%nat -> f i j = c0) -> csum2 N M f = csum2 n m f.
Proof.
  intros H1 H2 Z1 Z2. unfold csum2. rewrite (csum_cut n N); auto.
  - apply csum_ext. intros i Hi. apply csum_cut; auto.
  - intros i Hi. rewrite (csum_ext _ _ (fun _ => c0)); [apply csum_0|]. intros j Hj. auto.
Qed.
Lemma rsum_cut n w f : (n <= w)%nat -> (forall i, (n <= i < w)%nat -> f i = 0) -> rsum w f = rsum n f.
Proof.
  intros H Z. replace w with (n + (w - n))%nat by lia. rewrite rsum_app.
  rewrite (rsum_ext (w - n) _ (fun _ => 0)), rsum_0. ring. intros i Hi. apply Z. lia.
Qed.
Lemma rsum2_cut n m N M f : (n <= N)%nat -> (m <= M)%nat -> (forall i j, (i < n)%nat -> (m <= j < M)%nat -> f i j = 0) ->
  (forall i j, (n <= i < N)%nat -> (j < M)%nat -> f i j = 0) -> rsum2 N M f = rsum2 n m f.
Proof.
  intros H1 H2 Z1 Z2. unfold rsum2. rewrite (rsum_cut n N); auto.
  - apply rsum_ext. intros i Hi. apply rsum_cut; auto.
  - intros i Hi. rewrite (rsum_ext _ _ (fun _ => 0)); [apply rsum_0|]. intros j Hj. auto.
Qed.

(* ------------------------------------------------------------------ the corner *)
Lemma corner_in n m u i j : (i < n)%nat -> (j < m)%nat -> corner n m u i j = u i j.
Proof. intros H H'. unfold corner. apply Nat.ltb_lt in H. apply Nat.ltb_lt in H'. now rewrite H, H'. Qed.
Lemma corner_row n m u i j : (n <= i)%nat -> corner n m u i j = c0.
Proof. intros H. unfold corner. apply Nat.ltb_ge in H. now rewrite H. Qed.
Lemma corner_col n m u i j : (m <= j)%nat -> corner n m u i j = c0.
Proof. intros H. unfold corner. apply Nat.ltb_ge in H. now rewrite H, andb_false_r. Qed.
Lemma cmul_0_l a : cmul c0 a = c0. Proof. unfold c0. cring. Qed.
Lemma cmul_0_r a : cmul a c0 = c0. Proof. unfold c0. cring. Qed.
Lemma cmul_1_r a : cmul a c1 = a. Proof. unfold c1. cring. Qed.
Lemma abs2_0 : abs2 c0 = 0. Proof. unfold abs2, c0. cbn. ring. Qed.
Lemma abs2_corner n m N M u : (n <= N)%nat -> (m <= M)%nat -> rsum2 N M (fun i j => abs2 (corner n m u i j)) = rsum2 n m (fun i j => abs2 (u i j)).
Proof.
  intros H H'. rewrite (rsum2_cut n m); auto.
  - apply rsum2_ext. intros. now rewrite corner_in.
  - intros. rewrite corner_col by lia. apply abs2_0.
  - intros. rewrite corner_row by lia. apply abs2_0.
Qed.
Lemma dft2_corner n m N M u k l : (n <= N)%nat -> (m <= M)%nat -> dft2 N M (corner n m u) k l =
  csum2 n m (fun i j => cmul (u i j) (cmul (root N (- (Z.of_nat i * Z.of_nat k))) (root M (- (Z.of_nat j * Z.of_nat l))))).
Proof.
  intros H H'. unfold dft2. fold (csum2 N M (fun i j => cmul (corner n m u i j) (cmul (root N (- (Z.of_nat i * Z.of_nat k))) (root M (- (Z.of_nat j * Z.of_nat l)))))).
  rewrite (csum2_cut n m); auto.
  - apply csum2_ext. intros. now rewrite corner_in.
  - intros. rewrite corner_col by lia. apply cmul_0_l.
  - intros. rewrite corner_row by lia. apply cmul_0_l.
Qed.

(* ------------------------------------------------------------------ frequencies *)
Lemma shift_index n k : (0 < n)%nat -> exists q : Z, Z.of_nat ((k + (n - n / 2)) mod n) = (Z.of_nat k - Z.of_nat (n / 2) + Z.of_nat n * q)%Z.
Proof.
  intros H. pose proof (Nat.div_le_upper_bound n 2 n ltac:(lia) ltac:(lia)) as L.
  exists (1 - Z.of_nat ((k + (n - n / 2)) / n))%Z.
  pose proof (Nat.div_mod (k + (n - n / 2)) n ltac:(lia)) as E. nia.
Qed.
Lemma root_freq n i k q p : (0 < n)%nat -> (k = p + Z.of_nat n * q)%Z -> root n (- (i * k)) = root n (- (i * p)).
Proof. intros H ->. rewrite <- (root_mod n (- (i * p)) (- (i * q))) by exact H. f_equal. ring. Qed.
Definition centre_of (nocenter : bool) (n : nat) : Z := if nocenter then 0%Z else Z.of_nat (n / 2).

Lemma root_cis n m i j p q x : (0 < n)%nat -> (0 < m)%nat -> cmul (cis x) (cmul (root n (- (Z.of_nat i * p))) (root m (- (Z.of_nat j * q)))) =
  cis (x - 2 * PI * (INR i * IZR p / INR n + INR j * IZR q / INR m)).
Proof.
  intros H H'. unfold root. rewrite <- !cis_add. f_equal. rewrite !opp_IZR, !mult_IZR, <- !INR_IZR_INZ. field.
  split; apply not_0_INR; lia.
Qed.
Lemma focal_dft n m N M amp phase k l p q s t : (0 < N)%nat -> (0 < M)%nat -> (n <= N)%nat -> (m <= M)%nat ->
  (Z.of_nat k = p + Z.of_nat N * s)%Z -> (Z.of_nat l = q + Z.of_nat M * t)%Z ->
  dft2 N M (corner n m (pupil_field amp phase)) k l = focal n m N M amp phase p q.
Proof.
  intros HN HM Hn Hm Ek El. rewrite dft2_corner by auto. unfold focal. apply csum2_ext. intros i j _ _. unfold pupil_field.
  rewrite (root_freq N _ _ s p HN Ek), (root_freq M _ _ t q HM El). rewrite <- root_cis by auto. unfold cmul; apply c_ext; cbn; ring.
Qed.
Lemma psf_of_val n m N M amp phase nz nc k l : (0 < N)%nat -> (0 < M)%nat -> (n <= N)%nat -> (m <= M)%nat ->
  let r := psf_of N M (corner n m (pupil_field amp phase)) nz nc in
  p_total r = INR N * INR M * energy n m amp /\
  p_val r k l = abs2 (focal n m N M amp phase (Z.of_nat k - centre_of nc N) (Z.of_nat l - centre_of nc M)) / (if nz then INR N * INR M * energy n m amp else 1).
Proof.
  intros HN HM Hn Hm r.
  assert (T : p_total r = INR N * INR M * energy n m amp).
  { subst r. unfold psf_of. cbn [p_total]. unfold energy.
    assert (E : rsum2 n m (fun i j => amp i j * amp i j) = rsum2 N M (fun i j => abs2 (corner n m (pupil_field amp phase) i j))).
    { rewrite abs2_corner by auto. apply rsum2_ext. intros i j _ _. unfold pupil_field. rewrite abs2_mul, abs2_cis, abs2_real. ring. }
    rewrite E, <- parseval2 by auto. destruct nc; [reflexivity|].
    apply (rsum2_rot N M (N - N / 2) (M - M / 2) (fun k l => abs2 (dft2 N M (corner n m (pupil_field amp phase)) k l))); lia. }
  split; [exact T|].
  assert (V : abs2 ((if nc then dft2 N M (corner n m (pupil_field amp phase)) else fftshift N M (dft2 N M (corner n m (pupil_field amp phase)))) k l) =
     abs2 (focal n m N M amp phase (Z.of_nat k - centre_of nc N) (Z.of_nat l - centre_of nc M))).
  { f_equal. destruct nc; cbn [centre_of].
    - apply (focal_dft _ _ _ _ _ _ _ _ _ _ 0 0); auto; lia.
    - unfold fftshift. destruct (shift_index N k HN) as [s Es]. destruct (shift_index M l HM) as [t Et]. apply (focal_dft _ _ _ _ _ _ _ _ _ _ s t); auto. }
  rewrite <- T. subst r. unfold psf_of in *. cbn [p_val p_total] in *. destruct nz; rewrite V; [reflexivity|field].
Qed.
(* The size of the array *)
Definition rows_of (n : nat) (w : option nat) : nat := match w with Some w => w | None => n end.
Lemma psf_of_ext N M u v nz nc : (forall i j, (i < N)%nat -> (j < M)%nat -> u i j = v i j) ->
  p_total (psf_of N M u nz nc) = p_total (psf_of N M v nz nc) /\ forall k l, p_val (psf_of N M u nz nc) k l = p_val (psf_of N M v nz nc) k l.
Proof.
  intros H. assert (E : forall k l, dft2 N M u k l = dft2 N M v k l) by (intros; now apply dft2_ext).
  assert (T : p_total (psf_of N M u nz nc) = p_total (psf_of N M v nz nc)).
  { unfold psf_of. cbn [p_total]. apply rsum2_ext. intros k l _ _. destruct nc; [now rewrite E|]. unfold fftshift. now rewrite E. }
  split; [exact T|]. intros k l. unfold psf_of in *. cbn [p_val p_total] in *.
  assert (V : forall k l, abs2 ((if nc then dft2 N M u else fftshift N M (dft2 N M u)) k l) = abs2 ((if nc then dft2 N M v else fftshift N M (dft2 N M v)) k l)).
  { intros. destruct nc; [now rewrite E|]. unfold fftshift. now rewrite E. }
  destruct nz; rewrite V; [now rewrite T|reflexivity].
Qed.

Theorem calc_psf_value n m phase amp w nz nc r : calc_psf n m phase amp w nz nc = Ok r -> (0 < rows_of n w)%nat -> (0 < rows_of m w)%nat ->
  p_rows r = rows_of n w /\ p_cols r = rows_of m w /\ p_total r = INR (rows_of n w) * INR (rows_of m w) * energy n m amp /\
  forall k l, p_val r k l = abs2 (focal n m (rows_of n w) (rows_of m w) amp phase (Z.of_nat k - centre_of nc (rows_of n w)) (Z.of_nat l - centre_of nc (rows_of m w)))
                            / (if nz then INR (rows_of n w) * INR (rows_of m w) * energy n m amp else 1).
Proof.
  intros H HN HM. destruct w as [w|]; cbn [calc_psf rows_of] in *.
  - destruct ((n <=? w)%nat && (m <=? w)%nat) eqn:E; [|discriminate]. apply andb_true_iff in E. destruct E as [E1 E2]. apply Nat.leb_le in E1. apply Nat.leb_le in E2.
    injection H as <-. repeat split.
    + apply (proj1 (psf_of_val n m w w amp phase nz nc 0 0 HN HM E1 E2)).
    + intros k l. apply (proj2 (psf_of_val n m w w amp phase nz nc k l HN HM E1 E2)).
  - injection H as <-.
    destruct (psf_of_ext n m (pupil_field amp phase) (corner n m (pupil_field amp phase)) nz nc) as [T V]. { intros. now rewrite corner_in. }
    repeat split.
    + rewrite T. apply (proj1 (psf_of_val n m n m amp phase nz nc 0 0 HN HM (Nat.le_refl n) (Nat.le_refl m))).
    + intros k l. rewrite V. apply (proj2 (psf_of_val n m n m amp phase nz nc k l HN HM (Nat.le_refl n) (Nat.le_refl m))).
Qed.

Theorem calc_psf_defined n m phase amp w nz nc : (exists r, calc_psf n m phase amp w nz nc = Ok r) <-> (n <= rows_of n w)%nat /\ (m <= rows_of m w)%nat.
Proof.
  destruct w as [w|]; cbn [calc_psf rows_of].
  - destruct ((n <=? w)%nat && (m <=? w)%nat) eqn:E.
    + apply andb_true_iff in E. destruct E as [E1 E2]. apply Nat.leb_le in E1. apply Nat.leb_le in E2. split; eauto.
    + split; [intros [r H]; discriminate|]. intros [H1 H2]. apply Nat.leb_le in H1. apply Nat.leb_le in H2. now rewrite H1, H2 in E.
  - split; eauto.
Qed.

(* ------------------------------------------------------------------ triangle inequality *)
Lemma fst_le_abs z : fst z <= sqrt (abs2 z).
Proof.
  apply Rle_trans with (Rabs (fst z)); [apply Rle_abs|]. rewrite <- sqrt_Rsqr_abs. apply sqrt_le_1_alt. unfold abs2, Rsqr. nra.
Qed.
Lemma sqrt_abs2_real x : 0 <= x -> sqrt (abs2 (creal x)) = x.
Proof. intros H. rewrite abs2_real. now apply sqrt_square. Qed.
Lemma cconj_mul a b : cconj (cmul a b) = cmul (cconj a) (cconj b). Proof. cring. Qed.

(* [z i j] has modulus at most [r i j] *)
Lemma sum_modulus n m z r : (forall i j, (i < n)%nat -> (j < m)%nat -> 0 <= r i j /\ abs2 (z i j) = r i j * r i j) ->
  abs2 (csum2 n m z) <= rsum2 n m r * rsum2 n m r.
Proof.
  intros H. set (S := csum2 n m z). assert (R0 : 0 <= rsum2 n m r) by (apply rsum2_nonneg; intros; now apply H).
  destruct (Req_dec (abs2 S) 0) as [E|E]; [rewrite E; nra|].
  pose proof (abs2_nonneg S) as P.
  (* |S|^2 = sum of Re (z conj S) <= sum of r |S| *)
  assert (L : abs2 S <= rsum2 n m r * sqrt (abs2 S)).
  { rewrite <- rsum2_mul_r. apply Rle_trans with (fst (cmul S (cconj S))). rewrite mul_conj. cbn. lra.
    unfold S at 1. rewrite <- csum2_mul_r, fst_csum2. apply rsum2_le. intros i j Hi Hj. destruct (H i j Hi Hj) as [Hr Ha].
    apply Rle_trans with (1 := fst_le_abs _). rewrite abs2_mul, abs2_conj, Ha, sqrt_mult by nra. rewrite sqrt_square by auto. lra. }
  pose proof (sqrt_sqrt (abs2 S) P) as Q. assert (0 < sqrt (abs2 S)) by (apply sqrt_lt_R0; lra). 
  set (q := sqrt (abs2 S)) in *. assert (q <= rsum2 n m r) by nra. nra.
Qed.
Lemma sum_modulus_eq n m z r : (forall i j, (i < n)%nat -> (j < m)%nat -> 0 <= r i j /\ abs2 (z i j) = r i j * r i j) ->
  0 < rsum2 n m r -> abs2 (csum2 n m z) = rsum2 n m r * rsum2 n m r ->
  exists e, abs2 e = 1 /\ forall i j, (i < n)%nat -> (j < m)%nat -> z i j = cmul (creal (r i j)) e.
Proof.
  intros H P E. set (S := csum2 n m z) in *. set (t := rsum2 n m r) in *.
  set (e := cmul (creal (/ t)) S). assert (E1 : abs2 e = 1). { unfold e. rewrite abs2_mul, abs2_real, E. field. lra. }
  exists e. split; [exact E1|].
  assert (D : rsum2 n m (fun i j => r i j - fst (cmul (z i j) (cconj e))) = 0).
  { rewrite (rsum2_ext _ _ _ (fun i j => r i j + -1 * fst (cmul (z i j) (cconj e)))) by (intros; ring).
    rewrite rsum2_add, rsum2_mul_l, <- fst_csum2, csum2_mul_r. fold S. fold t.
    replace (cmul S (cconj e)) with (cmul (creal (/ t)) (cmul S (cconj S))) by (unfold e; cring). rewrite mul_conj, E. cbn. field. lra. }
  intros i j Hi Hj. destruct (H i j Hi Hj) as [Hr Ha].
  assert (K : r i j - fst (cmul (z i j) (cconj e)) = 0).
  { apply (rsum2_zero n m (fun i j => r i j - fst (cmul (z i j) (cconj e)))); auto. intros a b Ha' Hb'. destruct (H a b Ha' Hb') as [Hr' Hz'].
    pose proof (fst_le_abs (cmul (z a b) (cconj e))) as L. rewrite abs2_mul, abs2_conj, E1, Rmult_1_r, Hz', sqrt_square in L by auto. lra. }
  assert (A : abs2 (cmul (z i j) (cconj e)) = r i j * r i j) by (rewrite abs2_mul, abs2_conj, E1, Ha; ring).
  assert (M : cmul (z i j) (cconj e) = creal (r i j)).
  { apply c_ext; [cbn [creal fst]; lra|]. cbn [creal snd]. unfold abs2 in A. replace (fst (cmul (z i j) (cconj e))) with (r i j) in A by lra.
    apply Rsqr_0_uniq. unfold Rsqr. lra. }
  rewrite <- M. replace (cmul (cmul (z i j) (cconj e)) e) with (cmul (z i j) (cmul e (cconj e))) by cring. rewrite mul_conj, E1. unfold creal. cring.
Qed.

(* ------------------------------------------------------------------ laws of images *)
Lemma focal_ext n m N M amp amp' phase phase' p q : (forall i j, (i < n)%nat -> (j < m)%nat -> amp i j = amp' i j) ->
  (forall i j, (i < n)%nat -> (j < m)%nat -> cis (phase i j) = cis (phase' i j)) -> focal n m N M amp phase p q = focal n m N M amp' phase' p q.
Proof.
  intros H H'. unfold focal. apply csum2_ext. intros i j Hi Hj. rewrite (H i j Hi Hj). unfold Rminus. now rewrite !cis_add, H'.
Qed.
Lemma focal_axis n m N M amp phase : focal n m N M amp phase 0 0 = csum2 n m (fun i j => cmul (creal (amp i j)) (cis (phase i j))).
Proof. unfold focal. apply csum2_ext. intros. do 2 f_equal. unfold Rdiv. ring. Qed.
Lemma focal_le n m N M amp phase p q : (forall i j, (i < n)%nat -> (j < m)%nat -> 0 <= amp i j) -> abs2 (focal n m N M amp phase p q) <= area n m amp * area n m amp.
Proof.
  intros H. unfold focal, area. apply sum_modulus. intros i j Hi Hj. split; [auto|]. rewrite abs2_mul, abs2_cis, abs2_real. ring.
Qed.
Lemma focal_piston n m N M amp phase c p q : abs2 (focal n m N M amp (fun i j => phase i j + c) p q) = abs2 (focal n m N M amp phase p q).
Proof.
  rewrite <- (Rmult_1_l (abs2 (focal n m N M amp phase p q))), <- (abs2_cis c), <- abs2_mul. f_equal. unfold focal. rewrite <- csum2_mul_l. apply csum2_ext.
  intros i j _ _. replace (phase i j + c - 2 * PI * (INR i * IZR p / INR N + INR j * IZR q / INR M)) with (c + (phase i j - 2 * PI * (INR i * IZR p / INR N + INR j * IZR q / INR M))) by ring.
  rewrite cis_add. generalize (cis c) (cis (phase i j - 2 * PI * (INR i * IZR p / INR N + INR j * IZR q / INR M))). intros. cring.
Qed.
Lemma focal_tilt n m N M amp phase a b p q : (0 < N)%nat -> (0 < M)%nat ->
  focal n m N M amp (fun i j => phase i j + 2 * PI * (INR i * IZR a / INR N + INR j * IZR b / INR M)) p q = focal n m N M amp phase (p - a) (q - b).
Proof.
  intros H H'. unfold focal. apply csum2_ext. intros i j _ _. do 2 f_equal. rewrite !minus_IZR. field. split; apply not_0_INR; lia.
Qed.
Lemma focal_neg n m N M amp phase p q : focal n m N M amp (fun i j => - phase i j) p q = cconj (focal n m N M amp phase (- p) (- q)).
Proof.
  unfold focal. rewrite csum2_conj. apply csum2_ext. intros i j _ _. rewrite cconj_mul, <- cis_opp. f_equal; [cring|]. f_equal. rewrite !opp_IZR. unfold Rdiv. ring.
Qed.
Lemma focal_scale n m N M amp phase c p q : focal n m N M (fun i j => c * amp i j) phase p q = cmul (creal c) (focal n m N M amp phase p q).
Proof. unfold focal. rewrite <- csum2_mul_l. apply csum2_ext. intros i j _ _. generalize (cis (phase i j - 2 * PI * (INR i * IZR p / INR N + INR j * IZR q / INR M))). intros. cring. Qed.
Lemma focal_period n m N M amp phase p q s t : (0 < N)%nat -> (0 < M)%nat ->
  focal n m N M amp phase (p + Z.of_nat N * s) (q + Z.of_nat M * t) = focal n m N M amp phase p q.
Proof.
  intros H H'. unfold focal. apply csum2_ext. intros i j _ _. f_equal. rewrite <- !root_cis by auto. f_equal.
  now rewrite (root_freq N _ _ s p H eq_refl), (root_freq M _ _ t q H' eq_refl).
Qed.
Lemma energy_scale n m c amp : energy n m (fun i j => c * amp i j) = c * c * energy n m amp.
Proof. unfold energy. rewrite <- rsum2_mul_l. apply rsum2_ext. intros. ring. Qed.
Lemma energy_ext n m a b : (forall i j, (i < n)%nat -> (j < m)%nat -> a i j = b i j) -> energy n m a = energy n m b.
Proof. intros H. apply rsum2_ext. intros i j Hi Hj. now rewrite (H i j Hi Hj). Qed.
Lemma area_ext n m a b : (forall i j, (i < n)%nat -> (j < m)%nat -> a i j = b i j) -> area n m a = area n m b.
Proof. intros H. now apply rsum2_ext. Qed.
Lemma energy_nonneg n m a : 0 <= energy n m a.
Proof. apply rsum2_nonneg. intros. nra. Qed.
Lemma energy_area n m a : (forall i j, (i < n)%nat -> (j < m)%nat -> 0 <= a i j) -> 0 < area n m a <-> 0 < energy n m a.
Proof.
  intros H. pose proof (energy_nonneg n m a) as P. pose proof (rsum2_nonneg n m a H) as Q. fold (area n m a) in Q. split; intros L.
  - destruct (Req_dec (energy n m a) 0) as [E|]; [|lra]. exfalso. assert (area n m a = 0); [|lra]. unfold area. rewrite (rsum2_ext n m a (fun _ _ => 0 * 0)).
    + rewrite rsum2_mul_l. ring.
    + intros i j Hi Hj. pose proof (rsum2_zero n m (fun i j => a i j * a i j) ltac:(intros; nra) E i j Hi Hj) as K. cbn in K. rewrite Rmult_0_l. now apply Rsqr_0_uniq.
  - destruct (Req_dec (area n m a) 0) as [E|]; [|lra]. exfalso. assert (energy n m a = 0); [|lra]. unfold energy. rewrite (rsum2_ext n m _ (fun _ _ => 0 * 0)).
    + rewrite rsum2_mul_l. ring.
    + intros i j Hi Hj. rewrite (rsum2_zero n m a H E i j Hi Hj). reflexivity.
Qed.

(* ------------------------------------------------------------------ Strehl ratio *)
Lemma rsum_pos n f : 0 < rsum n f -> exists i, (i < n)%nat /\ 0 < f i.
Proof.
  induction n as [|n IH]; cbn; [lra|]. intros H. destruct (Rlt_dec 0 (f n)) as [L|L]; [exists n; split; [lia|auto]|].
  destruct IH as [i [Hi Li]]; [lra|]. exists i. split; [lia|auto].
Qed.
Lemma strehl_range n m amp phase : (forall i j, (i < n)%nat -> (j < m)%nat -> 0 <= amp i j) -> 0 < area n m amp -> 0 <= strehl n m amp phase <= 1.
Proof.
  intros H P. unfold strehl. rewrite <- (focal_axis n m 1 1). pose proof (focal_le n m 1 1 amp phase 0 0 H) as L. pose proof (abs2_nonneg (focal n m 1 1 amp phase 0 0)) as N.
  assert (0 < area n m amp * area n m amp) by nra. split.
  - apply Rle_mult_inv_pos; auto.
  - apply (Rmult_le_reg_r (area n m amp * area n m amp)); auto. unfold Rdiv. rewrite Rmult_assoc, Rinv_l by lra. lra.
Qed.
Lemma cis_eq x y : cis x = cis y <-> same_wave x y.
Proof.
  split.
  - intros H. unfold same_wave. apply cis_one. unfold Rminus. rewrite cis_add, H, <- cis_add, Rplus_opp_r. apply cis_0.
  - intros [z E]. replace x with (y + 2 * PI * IZR z) by lra. rewrite cis_add, cis_2PI_Z. apply cmul_1_r.
Qed.
Lemma strehl_one n m amp phase : (forall i j, (i < n)%nat -> (j < m)%nat -> 0 <= amp i j) -> 0 < area n m amp ->
  strehl n m amp phase = 1 <-> (forall i j i' j', (i < n)%nat -> (j < m)%nat -> (i' < n)%nat -> (j' < m)%nat -> 0 < amp i j -> 0 < amp i' j' -> same_wave (phase i j) (phase i' j')).
Proof.
  intros H P. assert (P2 : 0 < area n m amp * area n m amp) by nra. split.
  - intros E i j i' j' Hi Hj Hi' Hj' A A'.
    destruct (sum_modulus_eq n m (fun i j => cmul (creal (amp i j)) (cis (phase i j))) amp) as [e [E1 Z]].
    + intros a b Ha Hb. split; [auto|]. rewrite abs2_mul, abs2_cis, abs2_real. ring.
    + exact P.
    + unfold strehl in E. apply (Rmult_eq_reg_r (/ (area n m amp * area n m amp))); [|apply Rinv_neq_0_compat; lra]. unfold Rdiv in E. rewrite E. fold (area n m amp). symmetry. apply Rinv_r. lra.
    + assert (U : forall a b, (a < n)%nat -> (b < m)%nat -> 0 < amp a b -> cis (phase a b) = e).
      { intros a b Ha Hb L. pose proof (Z a b Ha Hb) as K. cbn beta in K. apply (f_equal (cmul (creal (/ amp a b)))) in K.
        replace (cmul (creal (/ amp a b)) (cmul (creal (amp a b)) (cis (phase a b)))) with (cmul (creal (/ amp a b * amp a b)) (cis (phase a b))) in K by (generalize (cis (phase a b)); intros; cring).
        replace (cmul (creal (/ amp a b)) (cmul (creal (amp a b)) e)) with (cmul (creal (/ amp a b * amp a b)) e) in K by cring.
        rewrite Rinv_l in K by lra. replace (cmul (creal 1) (cis (phase a b))) with (cis (phase a b)) in K by (generalize (cis (phase a b)); intros; cring).
        rewrite K. cring. }
      apply cis_eq. rewrite (U i j), (U i' j') by auto. reflexivity.
  - intros U.
    assert (X : exists i j, (i < n)%nat /\ (j < m)%nat /\ 0 < amp i j).
    { destruct (rsum_pos n (fun i => rsum m (amp i)) P) as [i [Hi Li]]. destruct (rsum_pos m (amp i) Li) as [j [Hj Lj]]. eauto. }
    destruct X as [a [b [Ha [Hb L]]]].
    unfold strehl. rewrite (csum2_ext n m _ (fun i j => cmul (creal (amp i j)) (cis (phase a b)))).
    + rewrite csum2_mul_r, abs2_mul, abs2_cis, csum2_real, abs2_real. fold (area n m amp). field. lra.
    + intros i j Hi Hj. destruct (Rle_lt_dec (amp i j) 0) as [G|G].
      * assert (E : amp i j = 0) by (pose proof (H i j Hi Hj); lra). rewrite E. generalize (cis (phase i j)) (cis (phase a b)). intros. cring.
      * f_equal. apply cis_eq. apply U; auto.
Qed.
