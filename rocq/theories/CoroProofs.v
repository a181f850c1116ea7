(* Proofs about the perfect coronagraph. *)
From Coq Require Import Reals List ZArith Bool Arith Lia Lra QArith Qcanon.
From Verif Require Import PyBase PyLemmas Fourier PsfModel PsfSpec PsfProofs PsfProofs2.
Import ListNotations.
Local Open Scope R_scope.

(* the Fourier sum of any field *)
Definition spectrum (n m N M : nat) (u : nat -> nat -> C) (p q : Z) : C :=
  csum2 n m (fun i j => cmul (u i j) (cis (- (2 * PI * (INR i * IZR p / INR N + INR j * IZR q / INR M))))).
Lemma root_cis' n m i j p q : (0 < n)%nat -> (0 < m)%nat -> cmul (root n (- (Z.of_nat i * p))) (root m (- (Z.of_nat j * q))) =
  cis (- (2 * PI * (INR i * IZR p / INR n + INR j * IZR q / INR m))).
Proof.
  intros H H'. pose proof (root_cis n m i j p q 0 H H') as E. rewrite cis_0 in E. replace (0 - 2 * PI * (INR i * IZR p / INR n + INR j * IZR q / INR m)) with (- (2 * PI * (INR i * IZR p / INR n + INR j * IZR q / INR m))) in E by ring.
  rewrite <- E. unfold c1. cring.
Qed.
Lemma spectrum_dft n m N M u k l p q s t : (0 < N)%nat -> (0 < M)%nat -> (n <= N)%nat -> (m <= M)%nat ->
  (Z.of_nat k = p + Z.of_nat N * s)%Z -> (Z.of_nat l = q + Z.of_nat M * t)%Z -> dft2 N M (corner n m u) k l = spectrum n m N M u p q.
Proof.
  intros HN HM Hn Hm Ek El. rewrite dft2_corner by auto. unfold spectrum. apply csum2_ext. intros i j _ _.
  rewrite (root_freq N _ _ s p HN Ek), (root_freq M _ _ t q HM El), root_cis' by auto. reflexivity.
Qed.
Lemma psf_of_any n m N M u nc : (0 < N)%nat -> (0 < M)%nat -> (n <= N)%nat -> (m <= M)%nat ->
  let r := psf_of N M (corner n m u) false nc in
  rsum2 N M (p_val r) = INR N * INR M * rsum2 n m (fun i j => abs2 (u i j)) /\
  forall k l, p_val r k l = abs2 (spectrum n m N M u (Z.of_nat k - centre_of nc N) (Z.of_nat l - centre_of nc M)).
Proof.
  intros HN HM Hn Hm r. split.
  - rewrite <- (abs2_corner n m N M) by auto. rewrite <- parseval2 by auto. subst r. unfold psf_of. cbn [p_val]. destruct nc; [reflexivity|].
    apply (rsum2_rot N M (N - N / 2) (M - M / 2) (fun k l => abs2 (dft2 N M (corner n m u) k l))); lia.
  - intros k l. subst r. unfold psf_of. cbn [p_val]. f_equal. destruct nc; cbn [centre_of].
    + apply (spectrum_dft _ _ _ _ _ _ _ _ _ 0 0); auto; lia.
    + unfold fftshift. destruct (shift_index N k HN) as [s Es]. destruct (shift_index M l HM) as [t Et]. apply (spectrum_dft _ _ _ _ _ _ _ _ _ s t); auto.
Qed.
Lemma spectrum_axis n m N M u : spectrum n m N M u 0 0 = csum2 n m u.
Proof. unfold spectrum. apply csum2_ext. intros. replace (- (2 * PI * (INR i * 0 / INR N + INR j * 0 / INR M))) with 0 by (unfold Rdiv; ring). rewrite cis_0. apply cmul_1_r. Qed.
Lemma spectrum_ext n m N M u v p q : (forall i j, (i < n)%nat -> (j < m)%nat -> u i j = v i j) -> spectrum n m N M u p q = spectrum n m N M v p q.
Proof. intros H. apply csum2_ext. intros i j Hi Hj. now rewrite H. Qed.
Lemma spectrum_mul n m N M c u p q : spectrum n m N M (fun i j => cmul c (u i j)) p q = cmul c (spectrum n m N M u p q).
Proof. unfold spectrum. rewrite <- csum2_mul_l. apply csum2_ext. intros. generalize (cis (- (2 * PI * (INR i * IZR p / INR N + INR j * IZR q / INR M)))). intros. cring. Qed.

Section G.
Variables (n m : nat).
(* number of lit pixels, sum of the field *)
Definition lit_count (amp : image) : R := rsum2 n m (lit amp).
Definition field_sum (amp phase : image) : C := csum2 n m (pupil_field amp phase).

Lemma lit_sq amp i j : lit amp i j * lit amp i j = lit amp i j.
Proof. unfold lit. destruct (Rlt_dec 0 (amp i j)); ring. Qed.
Lemma field_lit amp phase i j : 0 <= amp i j -> cmul (pupil_field amp phase i j) (creal (lit amp i j)) = pupil_field amp phase i j.
Proof.
  intros H. unfold lit, pupil_field. generalize (cis (phase i j)). intros c. destruct (Rlt_dec 0 (amp i j)); [cring|]. replace (amp i j) with 0 by lra. cring.
Qed.
Lemma abs2_field amp phase i j : abs2 (pupil_field amp phase i j) = amp i j * amp i j.
Proof. unfold pupil_field. rewrite abs2_mul, abs2_cis, abs2_real. ring. Qed.
Lemma lit_count_pos amp : (forall i j, (i < n)%nat -> (j < m)%nat -> 0 <= amp i j) -> 0 < energy n m amp -> 0 < lit_count amp.
Proof.
  intros H P. apply (proj2 (energy_area n m amp H)) in P. destruct (rsum_pos n (fun i => rsum m (amp i)) P) as [i [Hi Li]]. destruct (rsum_pos m (amp i) Li) as [j [Hj Lj]].
  assert (N : 0 <= lit_count amp). { apply rsum2_nonneg. intros a b _ _. unfold lit. destruct (Rlt_dec 0 (amp a b)); lra. }
  destruct (Req_dec (lit_count amp) 0) as [E|]; [|lra]. exfalso.
  assert (L0 : forall a b, (a < n)%nat -> (b < m)%nat -> 0 <= lit amp a b) by (intros a b _ _; unfold lit; destruct (Rlt_dec 0 (amp a b)); lra).
  pose proof (rsum2_zero n m (lit amp) L0 E i j Hi Hj) as X. unfold lit in X. destruct (Rlt_dec 0 (amp i j)); lra.
Qed.

(* the field left by the subtraction of the average *)
Lemma removed_average amp phase : (forall i j, (i < n)%nat -> (j < m)%nat -> 0 <= amp i j) -> 0 < lit_count amp ->
  forall i j, (i < n)%nat -> (j < m)%nat -> removed n m true amp phase i j = csub (pupil_field amp phase i j) (cmul (cmul (creal (/ lit_count amp)) (field_sum amp phase)) (creal (lit amp i j))).
Proof.
  intros H P i j Hi Hj. unfold removed. fold (lit_count amp). destruct (Rlt_dec 0 (lit_count amp)); [|lra]. do 3 f_equal. apply csum2_ext. intros. now apply field_lit, H.
Qed.
Lemma removed_average_sum amp phase : (forall i j, (i < n)%nat -> (j < m)%nat -> 0 <= amp i j) -> 0 < lit_count amp -> csum2 n m (removed n m true amp phase) = c0.
Proof.
  intros H P. rewrite (csum2_ext n m _ _ (removed_average amp phase H P)). unfold csub.
  rewrite csum2_add. rewrite (csum2_ext n m (fun i j => copp _) (fun i j => cmul (copp (cmul (creal (/ lit_count amp)) (field_sum amp phase))) (creal (lit amp i j)))) by (intros; cring).
  rewrite csum2_mul_l, csum2_real. fold (lit_count amp) (field_sum amp phase).
  replace (cmul (copp (cmul (creal (/ lit_count amp)) (field_sum amp phase))) (creal (lit_count amp))) with (cmul (creal (- (/ lit_count amp * lit_count amp))) (field_sum amp phase)) by cring.
  rewrite Rinv_l by lra. unfold c0. cring.
Qed.
Lemma removed_average_energy amp phase : (forall i j, (i < n)%nat -> (j < m)%nat -> 0 <= amp i j) -> 0 < lit_count amp ->
  rsum2 n m (fun i j => abs2 (removed n m true amp phase i j)) = energy n m amp - abs2 (field_sum amp phase) / lit_count amp.
Proof.
  intros H P. set (K := lit_count amp) in *. set (S := field_sum amp phase). set (a := cmul (creal (/ K)) S).
  rewrite (rsum2_ext n m _ (fun i j => amp i j * amp i j + (abs2 a * lit amp i j + -2 * fst (cmul (pupil_field amp phase i j) (cconj a))))).
  - rewrite rsum2_add, rsum2_add, !rsum2_mul_l, <- fst_csum2, csum2_mul_r.
    match goal with |- context [csum2 n m ?f] => change (csum2 n m f) with S end. fold (energy n m amp). change (rsum2 n m (lit amp)) with K.
    replace (cmul S (cconj a)) with (cmul (creal (/ K)) (cmul S (cconj S))) by (unfold a; cring). rewrite mul_conj. unfold a. rewrite abs2_mul, abs2_real.
    unfold cmul, creal. cbn [fst snd]. field. lra.
  - intros i j Hi Hj. rewrite (removed_average amp phase H P) by auto. fold K S a. rewrite <- abs2_field with (phase := phase).
    pose proof (field_lit amp phase i j (H i j Hi Hj)) as L. unfold lit in *. destruct (Rlt_dec 0 (amp i j)).
    + clear L. generalize (pupil_field amp phase i j). intros [u1 u2]. clearbody a. destruct a as [a1 a2]. unfold abs2, csub, cadd, copp, cmul, cconj, creal. cbn [fst snd]. ring.
    + rewrite <- L. generalize (pupil_field amp phase i j). intros [u1 u2]. clearbody a. destruct a as [a1 a2]. unfold abs2, csub, cadd, copp, cmul, cconj, creal. cbn [fst snd]. ring.
Qed.

(* the field left by the formula with the mean and variance of the phase *)
Definition mean_phase (amp phase : image) : R := rsum2 n m (fun i j => phase i j * lit amp i j) / lit_count amp.
Definition var_phase (amp phase : image) : R := rsum2 n m (fun i j => (phase i j - mean_phase amp phase) * (phase i j - mean_phase amp phase) * lit amp i j) / lit_count amp.
Lemma removed_core amp phase i j : 0 < lit_count amp -> 0 <= amp i j ->
  removed n m false amp phase i j = csub (pupil_field amp phase i j) (cmul (creal (sqrt (exp (- var_phase amp phase)))) (pupil_field amp (fun _ _ => mean_phase amp phase) i j)).
Proof.
  intros P H. unfold removed. fold (lit_count amp). destruct (Rlt_dec 0 (lit_count amp)); [|lra]. f_equal. fold (mean_phase amp phase). fold (var_phase amp phase).
  rewrite <- (field_lit amp (fun _ _ => mean_phase amp phase) i j H). unfold pupil_field. generalize (cis (mean_phase amp phase)). intros. cring.
Qed.
Lemma var_zero amp phase c : 0 < lit_count amp -> (forall i j, (i < n)%nat -> (j < m)%nat -> 0 < amp i j -> phase i j = c) -> mean_phase amp phase = c /\ var_phase amp phase = 0.
Proof.
  intros P H. assert (M : mean_phase amp phase = c).
  { unfold mean_phase. rewrite (rsum2_ext n m _ (fun i j => c * lit amp i j)); [rewrite rsum2_mul_l; fold (lit_count amp); field; lra|].
    intros i j Hi Hj. unfold lit. destruct (Rlt_dec 0 (amp i j)); [now rewrite H|ring]. }
  split; [exact M|]. unfold var_phase. rewrite M. rewrite (rsum2_ext n m _ (fun i j => 0 * lit amp i j)); [rewrite rsum2_mul_l; unfold Rdiv; ring|].
  intros i j Hi Hj. unfold lit. destruct (Rlt_dec 0 (amp i j)); [rewrite H by auto; ring|ring].
Qed.
Lemma mean_shift amp phase c : 0 < lit_count amp -> mean_phase amp (fun i j => phase i j + c) = mean_phase amp phase + c /\ var_phase amp (fun i j => phase i j + c) = var_phase amp phase.
Proof.
  intros P. assert (M : mean_phase amp (fun i j => phase i j + c) = mean_phase amp phase + c).
  { unfold mean_phase. rewrite (rsum2_ext n m _ (fun i j => phase i j * lit amp i j + c * lit amp i j)) by (intros; ring). rewrite rsum2_add, rsum2_mul_l. fold (lit_count amp). field. lra. }
  split; [exact M|]. unfold var_phase. rewrite M. f_equal. apply rsum2_ext. intros. ring.
Qed.
Lemma removed_piston average amp phase c i j : 
  removed n m average amp (fun i j => phase i j + c) i j = cmul (cis c) (removed n m average amp phase i j).
Proof.
  assert (U : forall i j, pupil_field amp (fun i j => phase i j + c) i j = cmul (cis c) (pupil_field amp phase i j)).
  { intros. unfold pupil_field. rewrite cis_add. generalize (cis c) (cis (phase i0 j0)). intros. cring. }
  unfold removed. fold (lit_count amp). destruct (Rlt_dec 0 (lit_count amp)) as [P|P]; [|apply U]. destruct average.
  - rewrite (csum2_ext n m _ (fun i j => cmul (cis c) (cmul (pupil_field amp phase i j) (creal (lit amp i j))))) by (intros; rewrite U; generalize (cis c); intros; cring).
    rewrite csum2_mul_l, U. generalize (cis c). intros. cring.
  - fold (mean_phase amp (fun i j => phase i j + c)). fold (var_phase amp (fun i j => phase i j + c)). fold (mean_phase amp phase). fold (var_phase amp phase).
    destruct (mean_shift amp phase c P) as [-> ->]. rewrite U, cis_add. generalize (cis c) (cis (mean_phase amp phase)). intros. cring.
Qed.
Lemma removed_waves amp phase (turns : nat -> nat -> Z) i j : removed n m true amp (fun i j => phase i j + 2 * PI * IZR (turns i j)) i j = removed n m true amp phase i j.
Proof.
  assert (U : forall i j, pupil_field amp (fun i j => phase i j + 2 * PI * IZR (turns i j)) i j = pupil_field amp phase i j).
  { intros. unfold pupil_field. rewrite cis_add, cis_2PI_Z. now rewrite cmul_1_r. }
  unfold removed. fold (lit_count amp). destruct (Rlt_dec 0 (lit_count amp)) as [P|P]; [|apply U]. rewrite U. do 3 f_equal. apply csum2_ext. intros. now rewrite U.
Qed.
End G.
