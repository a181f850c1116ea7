(* C103: geometry of Fourier transforms. *)
From Coq Require Import List ZArith Bool Arith QArith Qcanon Qround Lqa Lia.
From Verif Require Import PyBase PyLemmas Arith OpticalModel InterpModel ScreenModel QcTac MaskProofs GeomModel GeomProofs.
Import ListNotations.
Local Open Scope Qc_scope.

(* the only refusal: the field of view of the transform is larger than the largest accepted one *)
Theorem C103_refused : forall d internal fov errinf errsup fft_res e, 0 < internal -> d <> 0%Z ->
  (calc_geometry d internal fov errinf errsup fft_res = Err e <-> e = ValueError /\ fov * (1 + errsup) < internal).
Proof.
  intros d internal fov errinf errsup fft_res e I D. rewrite geometry_eq by assumption. destruct (qlt _ internal) eqn:E; [apply qlt_true in E|apply qlt_false in E]; unfold Qclt.
  - split; [intros [= <-]; split; [reflexivity|exact E]|intros [-> _]; reflexivity].
  - split; [discriminate|intros [_ X]; lra].
Qed.
Print Assumptions C103_refused.

(* the field of view: the fewest repetitions that reach the smallest accepted field, cut by the mask to the requested one *)
Theorem C103_field : forall d internal fov errinf errsup fft_res g, 0 < internal -> d <> 0%Z -> calc_geometry d internal fov errinf errsup fft_res = Ok g ->
  let reached := internal * qz (ge_fov_res g) in
  (1 <= ge_fov_res g)%Z /\ fov * (1 - errinf) <= reached /\ (forall k, (1 <= k)%Z -> fov * (1 - errinf) <= internal * qz k -> (ge_fov_res g <= k)%Z) /\
  ge_masking g <= 1 /\ (fov <= reached -> reached * ge_masking g = fov) /\ (reached < fov -> ge_masking g = 1).
Proof.
  intros d internal fov errinf errsup fft_res g I D H reached. rewrite geometry_eq in H by assumption. destruct (qlt _ internal); [discriminate|]. apply (f_equal (fun r => match r with Ok x => x | Err _ => g end)) in H. subst g. cbn [ge_fov_res ge_masking] in *.
  fold (wide internal fov errinf) in reached. destruct (mask_ratio_spec internal fov errinf I) as [M1 [M2 M3]]. unfold reached, Qcle, Qclt.
  split; [now apply factor_pos|]. split; [unfold wide; rewrite (this_mul internal), this_qz; now apply factor_enough|]. split.
  - intros k K L. apply factor_least; [exact I|exact K|]. rewrite (this_mul internal), this_qz in L. exact L.
  - split; [exact M1|]. split; assumption.
Qed.
Print Assumptions C103_field.
(* so what is left is between the smallest accepted field and the requested one *)
Theorem C103_field_left : forall d internal fov errinf errsup fft_res g, 0 < internal -> d <> 0%Z -> 0 <= fov -> 0 <= errinf -> calc_geometry d internal fov errinf errsup fft_res = Ok g ->
  fov * (1 - errinf) <= internal * qz (ge_fov_res g) * ge_masking g /\ internal * qz (ge_fov_res g) * ge_masking g <= fov.
Proof.
  intros d internal fov errinf errsup fft_res g I D F E H. destruct (C103_field d internal fov errinf errsup fft_res g I D H) as [_ [A [_ [_ [B C]]]]]. cbv zeta in *.
  set (w := internal * qz (ge_fov_res g)) in *. destruct (Qclt_le_dec w fov) as [L|L].
  - rewrite (C L). replace (w * 1) with w by ring. split; [exact A|]. now apply Qclt_le_weak.
  - rewrite (B L). split; [|apply Qcle_refl]. unfold Qcle in *. change (this 0) with 0%Q in *. rewrite this_mul, this_sub. change (this 1) with 1%Q.
    pose proof (Qmult_le_compat_r _ _ (this errinf) F E). lra.
Qed.
Print Assumptions C103_field_left.
(* the largest accepted field is checked before the repetitions only *)
Theorem C103_largest_refuted : exists d internal fov errinf errsup fft_res g, 0 < internal /\ 0 < fov /\ calc_geometry d internal fov errinf errsup fft_res = Ok g /\ fov * (1 + errsup) < internal * qz (ge_fov_res g).
Proof.
  exists 8%Z, (Q2Qc (8 # 10)), 1, (Q2Qc (1 # 10)), (Q2Qc (1 # 2)), (qz 3). eexists. split; [reflexivity|]. split; [reflexivity|]. split; [vm_compute; reflexivity|]. vm_compute. reflexivity.
Qed.
Print Assumptions C103_largest_refuted.

(* sizes: the total is the even number nearest to the requested one; the padding is even *)
Theorem C103_sizes : forall d internal fov errinf errsup fft_res g, 0 < internal -> d <> 0%Z -> calc_geometry d internal fov errinf errsup fft_res = Ok g ->
  ge_sampling g = (d * ge_fov_res g)%Z /\ Z.Even (ge_total g) /\ Z.Even (ge_padding g) /\ ge_fft_res g * qz (ge_sampling g) = qz (ge_total g) /\
  (qz (ge_total g) - 1 <= qz (ge_sampling g) * fft_res /\ qz (ge_sampling g) * fft_res <= qz (ge_total g) + 1) /\
  (Z.Even (ge_sampling g) -> (ge_sampling g + ge_padding g = ge_total g)%Z) /\
  (Z.Odd (ge_sampling g) -> (Z.abs (ge_sampling g + ge_padding g - ge_total g) = 1)%Z).
Proof.
  intros d internal fov errinf errsup fft_res g I D H. rewrite geometry_eq in H by assumption. destruct (qlt _ internal); [discriminate|]. apply (f_equal (fun r => match r with Ok x => x | Err _ => g end)) in H. subst g. cbn [ge_sampling ge_fov_res ge_total ge_padding ge_fft_res].
  set (s := (d * factor internal fov errinf)%Z). assert (S0 : s <> 0%Z) by (pose proof (factor_pos internal fov errinf I); unfold s; nia). clearbody s.
  split; [reflexivity|]. split; [unfold total_of; eexists; rewrite Z.mul_comm; reflexivity|]. split; [unfold padding_of; eexists; rewrite Z.mul_comm; reflexivity|].
  split; [apply div_times; now apply qz_nz|]. split.
  { pose proof (total_near fft_res s) as T. unfold Qcle. rewrite this_sub, this_add, this_mul, !this_qz. change (this 1) with 1%Q. exact T. }
  split; [intros E; rewrite (padding_even fft_res s E); lia|]. intros O. destruct (padding_odd fft_res s O) as [-> | ->]; lia.
Qed.
Print Assumptions C103_sizes.

(* with one pixel per lambda/D or more, the padded pupil fits the array, except for an unpadded pupil of 4k+1 pixels *)
Theorem C103_fits : forall d internal fov errinf errsup fft_res g, 0 < internal -> (0 < d)%Z -> 1 <= fft_res -> calc_geometry d internal fov errinf errsup fft_res = Ok g ->
  (0 <= ge_padding g)%Z /\ ((ge_padding g / 2 + ge_sampling g <= ge_total g)%Z <-> ~ (fft_res = 1 /\ (ge_sampling g mod 4 = 1)%Z)).
Proof.
  intros d internal fov errinf errsup fft_res g I D R H. rewrite geometry_eq in H by (auto; lia). destruct (qlt _ internal); [discriminate|]. apply (f_equal (fun r => match r with Ok x => x | Err _ => g end)) in H. subst g. cbn [ge_sampling ge_fov_res ge_total ge_padding ge_fft_res].
  destruct (fits_iff fft_res (d * factor internal fov errinf)) as [A B]; [pose proof (factor_pos internal fov errinf I); nia|exact R|]. split; assumption.
Qed.
Print Assumptions C103_fits.

(* ------------------------------------------------------------------- sampling of the image of a point *)
(* the requested pixel must not be larger than the one of the unpadded image *)
Theorem C103_sampling_refused : forall n biggest size e, (0 < n)%Z -> 0 < size -> (calc_psf_sampling n biggest size = Err e <-> e = ValueError /\ biggest < size).
Proof.
  intros n biggest size e N S. destruct (Qclt_le_dec biggest size) as [L|L].
  - unfold calc_psf_sampling. replace (qlt biggest size) with true by (symmetry; apply qlt_true; exact L). split; [intros [= <-]; auto|intros [-> _]; reflexivity].
  - destruct (sampling_eq n biggest size N S L) as [k [-> _]]. split; [discriminate|]. intros [_ X]. unfold Qclt, Qcle in *. exfalso. lra.
Qed.
Print Assumptions C103_sampling_refused.
(* the image has a whole number of pixels, not fewer than the pupil, and no other number gives a closer pixel size *)
Theorem C103_sampling : forall n biggest size nd, (0 < n)%Z -> 0 < size -> calc_psf_sampling n biggest size = Ok nd ->
  exists k, (n <= k)%Z /\ nd = qz k / qz n /\ forall m, (0 < m)%Z -> qabs (biggest / nd - size) <= qabs (biggest / (qz m / qz n) - size).
Proof.
  intros n biggest size nd N S H. destruct (Qclt_le_dec biggest size) as [L|L].
  - exfalso. unfold calc_psf_sampling in H. replace (qlt biggest size) with true in H by (symmetry; apply qlt_true; exact L). discriminate.
  - destruct (sampling_eq n biggest size N S L) as [k [E [P [M K]]]]. exists k. assert (X : nd = qz k / qz n) by congruence. split; [exact K|]. split; [exact X|]. rewrite X. exact M.
Qed.
Print Assumptions C103_sampling.
(* so a pixel size that a whole number of pixels gives is obtained exactly *)
Theorem C103_sampling_exact : forall n biggest size nd k, (0 < n)%Z -> 0 < size -> (0 < k)%Z -> biggest / (qz k / qz n) = size -> calc_psf_sampling n biggest size = Ok nd -> biggest / nd = size /\ nd = qz k / qz n.
Proof.
  intros n biggest size nd k N S K E H. destruct (C103_sampling n biggest size nd N S H) as [m [M [X B]]]. specialize (B k K). rewrite E in B.
  replace (qabs (size - size)) with 0 in B by (replace (size - size) with 0 by ring; reflexivity).
  assert (Y : biggest / nd = size).
  { unfold Qcle, qabs in B. change (this 0) with 0%Q in B. destruct (qlt _ 0) eqn:F; [apply qlt_true in F|apply qlt_false in F]; change (this 0) with 0%Q in F; rewrite ?this_opp, ?this_sub in *; apply Qc_iff; lra. }
  split; [exact Y|]. rewrite X in Y. assert (Nn : qz n <> 0) by (apply qz_nz; lia). assert (Kn : qz k <> 0) by (apply qz_nz; lia). assert (Mn : qz m <> 0) by (apply qz_nz; lia).
  assert (E1 : qz n * biggest = size * qz k) by (rewrite <- E; field; auto). assert (E2 : qz n * biggest = size * qz m) by (rewrite <- Y; field; auto).
  assert (Sn : size <> 0) by (now apply nz_pos). rewrite X. f_equal. apply (f_equal (fun v => v / size)) in E1. rewrite E2 in E1. replace (size * qz m / size) with (qz m) in E1 by (field; exact Sn). replace (size * qz k / size) with (qz k) in E1 by (field; exact Sn). exact E1.
Qed.
Print Assumptions C103_sampling_exact.
(* oversampling or pixel size, not both; the pixel times the oversampling is the unpadded pixel *)
Theorem C103_psf_geometry : forall n biggest nd size p s, calc_psf_geometry n biggest nd size = Ok (p, s) ->
  p * s = biggest /\ match nd, size with Some _, Some _ => False | Some x, None => s = x | None, Some x => calc_psf_sampling n biggest x = Ok s | None, None => s = 1 end.
Proof.
  intros n biggest nd size p s H. unfold calc_psf_geometry in H.
  assert (D : forall v, (p0 <- div biggest v ;; Ok (p0, v)) = Ok (p, s) -> p * s = biggest /\ s = v).
  { intros v X. unfold div in X. destruct (Qc_eq_dec v 0) as [Z|Z]; [discriminate|]. cbn [bind] in X. assert (p = biggest / v) by congruence. assert (s = v) by congruence. subst. split; [apply div_times; exact Z|reflexivity]. }
  destruct nd as [x|], size as [y|]; cbn [bind] in H; try discriminate.
  - exact (D x H).
  - destruct (calc_psf_sampling n biggest y) as [v|] eqn:E; [|discriminate]. cbn [bind] in H. destruct (D v H) as [A ->]. split; [exact A|reflexivity].
  - exact (D 1 H).
Qed.
Print Assumptions C103_psf_geometry.
Theorem C103_psf_geometry_both : forall n biggest x y, calc_psf_geometry n biggest (Some x) (Some y) = Err ValueError.
Proof. reflexivity. Qed.
Print Assumptions C103_psf_geometry_both.

Example C103_sizes_example : calc_geometry 5 (Q2Qc (3 # 10)) (qz 2) (Q2Qc (1 # 10)) (Q2Qc (1 # 2)) (qz 3) = Ok (mkGeometry 6 1 (qz 90 / qz 30) 30 60 90).
Proof. vm_compute. reflexivity. Qed.
Example C103_fits_example : exists g, calc_geometry 5 1 1 0 0 1 = Ok g /\ (ge_sampling g, ge_padding g, ge_total g) = (5, 0, 4)%Z.
Proof. eexists. split; vm_compute; reflexivity. Qed.
Example C103_sampling_example : calc_psf_sampling 10 (qz 3) (qz 2) = Ok (qz 15 / qz 10) /\ calc_psf_sampling 10 (qz 3) (Q2Qc (29 # 10)) = Ok (qz 10 / qz 10).
Proof. split; vm_compute; reflexivity. Qed.
