(* C107: the geometry of a Shack-Hartmann sensor *)
From Coq Require Import List ZArith Bool Arith QArith Qcanon Qround Lqa Lia.
From Verif Require Import PyBase PyLemmas Arith OpticalModel ExtModel InterpModel ScreenModel ScreenProofs RadialModel QcTac MaskModel MaskProofs GeomModel GeomProofs ShGeomModel ShGeomSpec ShGeomProofs.
Import ListNotations.
Local Open Scope Qc_scope.

Lemma setup_inv fuel asec w size pitch w' y f : sound asec w size pitch -> w_res w = 0 -> setup fuel asec w size pitch = Ok (w', y, f) ->
  exists s, let t := diffraction asec w size pitch in let fov := fov_of (pixel asec w * qz (w_npx w) / (t / qz s)) in
    let c := qceil (qz size * needed w fov (qtrunc (qz s * np_sub (w_n w) size)) / qz (2 * w_n w)) in
    (1 <= s)%Z /\ t / qz s < pixel asec w /\ resolution fuel asec w size pitch = Ok (t / qz s) /\
    w' = mkSensor (w_nm w) (w_wanted w) (qz fov * (t / qz s) / qz (w_npx w) / asec) (w_n w) (w_npx w) (w_coeff w) (w_turb w) (t / qz s) /\
    y = mkLayout s (t / qz s) fov (c * (2 * w_n w)) (qz (c * (2 * w_n w)) / qz size) (2 * c) (2 * c * s) /\
    f = mkFocalPlane (t / qz s / asec) (2 * c * s - fov) fov (w_wanted w / (qz (2 * c * s) * (t / qz s))).
Proof.
  intros H R E. unfold setup in E. inv_bind E. pose proof E0 as E1. unfold set_in_ef in E1. inv_bind E1. rename a0 into r. rename E2 into RR. clear E1.
  destruct (resolution_spec asec w size pitch H fuel r R RR) as [s [S1 [-> S2]]]. exists s. rewrite (set_in_ef_eq asec w size pitch H s S1 fuel RR) in E0.
  cbv zeta. assert (EA := f_equal (fun r => match r with Ok x => x | Err _ => a end) E0). cbv beta iota in EA. subst a. cbn [fst snd] in E. rewrite (focal_eq asec w size pitch H s S1) in E.
  assert (EA := f_equal (fun r => match r with Ok x => x | Err _ => (w', y, f) end) E). cbv beta iota in EA. injection EA as A B C. repeat split; auto.
Qed.

(* the geometry of a new sensor is always found, unless the turbulence's pixel is asked for and is not finer than the sensor's *)
Theorem C107_found asec w size pitch : sound asec w size pitch -> w_res w = 0 -> exists f,
  if w_turb w && negb (qlt (diffraction asec w size pitch) (pixel asec w)) then forall fuel, setup fuel asec w size pitch = Err ValueError
  else exists r, forall fuel, (f <= fuel)%nat -> setup fuel asec w size pitch = Ok r.
Proof.
  intros H R. destruct (resolution_total asec w size pitch H R) as [f F]. exists f. destruct (w_turb w && negb (qlt (diffraction asec w size pitch) (pixel asec w))).
  - intros fuel. unfold setup, set_in_ef. rewrite F. reflexivity.
  - destruct F as [r F]. destruct (resolution_spec asec w size pitch H f r R (F f ltac:(lia))) as [s [S1 [-> S2]]].
    eexists. intros fuel L. unfold setup. rewrite (set_in_ef_eq asec w size pitch H s S1 fuel (F fuel L)). cbn [bind]. reflexivity.
Qed.
Print Assumptions C107_found.

(* the interpolated phase: an even number of pixels for each subaperture, at least as many as the field and as asked for *)
Theorem C107_sizes fuel asec w size pitch w' y f : sound asec w size pitch -> w_res w = 0 -> setup fuel asec w size pitch = Ok (w', y, f) ->
  (y_final y = w_n w * y_sub y)%Z /\ Z.Even (y_sub y) /\ (2 <= y_sub y)%Z /\ (y_fft y = y_sub y * y_scale y)%Z /\ (1 <= y_scale y)%Z /\
  qz size * y_ovs y = qz (y_final y) /\ qz size <= qz (y_final y) /\ qz size * w_coeff w <= qz (y_final y) /\
  ((w_n w <= size * y_scale y)%Z -> (y_fov y <= y_fft y)%Z).
Proof.
  intros H R E. destruct (setup_inv _ _ _ _ _ _ _ _ H R E) as [s [S1 [S2 [RR [-> [-> ->]]]]]]. cbn [y_final y_sub y_fft y_scale y_ovs y_fov].
  pose proof (final_bounds asec w size pitch H s) as [B1 _]. pose proof (c_ge asec w size pitch H s) as C. pose proof (cut_nonneg asec w size pitch H s S1) as CN.
  set (fov := fov_of (pixel asec w * qz (w_npx w) / (diffraction asec w size pitch / qz s))) in *. set (tf := qtrunc (qz s * np_sub (w_n w) size)) in *. destruct (needed_ge w fov tf) as [N1 [N2 _]].
  set (nd := needed w fov tf) in *. set (c := qceil (qz size * nd / qz (2 * w_n w))) in *. pose proof (pos_qz size (size_ge _ _ _ _ H)) as PS.
  split; [ring|split; [now exists c|split; [lia|split; [reflexivity|split; [exact S1|]]]]].
  split; [field; apply nz_qz, (size_ge _ _ _ _ H)|]. rewrite pos_this in PS. unfold Qcle in *. rewrite this_mul in B1. change (this 1) with 1%Q in N1. rewrite this_mul. repeat split; [nra|nra|exact CN].
Qed.
Print Assumptions C107_sizes.

(* no more pixels than needed: one more row of pairs would have been enough *)
Theorem C107_least fuel asec w size pitch w' y f : sound asec w size pitch -> w_res w = 0 -> setup fuel asec w size pitch = Ok (w', y, f) -> (w_n w <= size * y_scale y)%Z ->
  qz (y_final y) < qz size + qz (2 * w_n w) \/ qz (y_final y) < qz size * w_coeff w + qz (2 * w_n w) \/
  (exists tf, qz tf <= qz (y_scale y) * (qz size / qz (w_n w)) /\ qz (y_scale y) * (qz size / qz (w_n w)) < qz tf + 1 /\ qz (y_final y) < qz size * (qz (y_fov y) / qz tf) + qz (2 * w_n w)).
Proof.
  intros H R E. destruct (setup_inv _ _ _ _ _ _ _ _ H R E) as [s [S1 [S2 [RR [-> [-> ->]]]]]]. cbn [y_final y_scale y_fov]. intros N.
  pose proof (final_bounds asec w size pitch H s) as [_ B]. pose proof (tf_pos asec w size pitch H s N) as TP. pose proof (tf_le asec w size pitch H s S1) as TL.
  set (fov := fov_of (pixel asec w * qz (w_npx w) / (diffraction asec w size pitch / qz s))) in *. set (tf := qtrunc (qz s * np_sub (w_n w) size)) in *.
  unfold needed in *. destruct (qmax_cases (qmax 1 (if (0 <? tf)%Z then qz fov / qz tf else 1)) (w_coeff w)) as [Q|Q]; rewrite Q in B |- *; [|right; left; exact B].
  destruct (qmax_cases 1 (if (0 <? tf)%Z then qz fov / qz tf else 1)) as [Q'|Q']; rewrite Q' in B |- *; [left; rewrite Qcmult_1_r in B |- *; exact B|].
  rewrite (proj2 (Z.ltb_lt 0 tf) TP) in B |- *. right; right. exists tf. split; [unfold Qcle; rewrite this_qz; exact TL|split; [|exact B]].
  assert (EE : qz s * np_sub (w_n w) size = qz s * (qz size / qz (w_n w))). { unfold np_sub, lens_size. pose proof (nz_qz _ (n_ge _ _ _ _ H)). field. split; [assumption|exact q2_nz]. }
  unfold tf, qtrunc. rewrite EE. replace (qlt (qz s * (qz size / qz (w_n w))) 0) with false.
  2: { symmetry. apply qlt_false. apply Qlt_le_weak. apply (pos_mul (qz s)); [apply pos_qz, S1|]. apply pos_div; apply pos_qz; [apply (size_ge _ _ _ _ H)|apply (n_ge _ _ _ _ H)]. }
  unfold Qclt. rewrite this_add, (this_qz (qfloor _)). change (this 1) with 1%Q. apply qfloor_lt.
Qed.
Print Assumptions C107_least.

(* the pixels of the transforms sample the image of a point an integer number of times, and are finer than the sensor's *)
Theorem C107_fine fuel asec w size pitch w' y f : sound asec w size pitch -> w_res w = 0 -> setup fuel asec w size pitch = Ok (w', y, f) ->
  y_fft_px y * qz (y_scale y) = diffraction asec w size pitch /\ y_fft_px y < pixel asec w /\ f_pitch f * asec = y_fft_px y /\ (w_turb w = true -> y_scale y = 1%Z) /\
  (w_turb w = false -> diffraction asec w size pitch < pixel asec w -> 1 < pixel asec w -> y_scale y = 2%Z).
Proof.
  intros H R E. destruct (setup_inv _ _ _ _ _ _ _ _ H R E) as [s [S1 [S2 [RR [-> [-> ->]]]]]]. cbn [y_fft_px y_scale f_pitch].
  pose proof (nz_qz s S1) as NS. destruct H as [A H']. pose proof (pos_nz _ A) as NA. pose proof (conj A H' : sound asec w size pitch) as H. pose proof (pos_nz _ (d_pos _ _ _ _ H)) as NT.
  assert (INJ : forall k, (1 <= k)%Z -> diffraction asec w size pitch / qz s = diffraction asec w size pitch / qz k -> s = k).
  { intros k K X. pose proof (nz_qz k K) as NK. assert (Y : qz s = qz k). { apply (f_equal (fun x => diffraction asec w size pitch / x)) in X. replace (diffraction asec w size pitch / (diffraction asec w size pitch / qz s)) with (qz s) in X by (field; split; assumption). rewrite X. field; split; assumption. }
    apply Qc_iff in Y. rewrite !this_qz in Y. apply inject_Z_injective; exact Y. }
  split; [field; exact NS|split; [exact S2|split; [field; auto|]]]. unfold resolution in RR. cbv zeta in RR. rewrite (proj2 (is0_true _) R), (turb_eq _ _ _ _ H), (p_alt asec w) in RR. split.
  - intros W. rewrite W in RR. destruct (qlt (diffraction asec w size pitch) (pixel asec w)); [|discriminate]. apply INJ; [lia|].
    apply (f_equal (fun r => match r with Ok x => x | Err _ => 0 end)) in RR. cbv beta iota in RR. rewrite <- RR. change (qz 1) with 1. field. discriminate.
  - intros W L1 L2. rewrite W in RR. rewrite (proj2 (qlt_true _ _) L1) in RR. replace (qlt qh (pixel asec w / q2)) with true in RR.
    2: { symmetry. apply qlt_true. unfold Qclt in L2. change (this 1) with 1%Q in L2. rewrite this_div. change (this qh) with (1 # 2)%Q. change (this q2) with 2%Q. unfold Qdiv. change (/ 2)%Q with (1 # 2)%Q. lra. }
    cbn [andb] in RR. apply INJ; [lia|]. apply (f_equal (fun r => match r with Ok x => x | Err _ => 0 end)) in RR. cbv beta iota in RR. rewrite <- RR, qh_div, q2_z. reflexivity.
Qed.
Print Assumptions C107_fine.

(* otherwise the number of samples is one of ten, and the field of view is within 2% if one of the ten allows it *)
Theorem C107_choice fuel asec w size pitch w' y f : sound asec w size pitch -> w_res w = 0 -> setup fuel asec w size pitch = Ok (w', y, f) ->
  let t := diffraction asec w size pitch in let p := pixel asec w in w_turb w = false -> ~ (t < p /\ 1 < p) ->
  exists m, first_fine t p m /\ (m <= y_scale y < m + 10)%Z /\
    ((exists k, (m <= k < m + 10)%Z /\ field_error (w_wanted w) (t / qz k) < qz 2 / qz 100) -> field_error (w_wanted w) (y_fft_px y) < qz 2 / qz 100).
Proof.
  intros H R E t p W N. destruct (setup_inv _ _ _ _ _ _ _ _ H R E) as [s [S1 [S2 [RR [-> [-> ->]]]]]]. cbn [y_fft_px y_scale].
  destruct (resolution_choice _ _ _ _ H _ _ R W N RR) as [m [k [F [K [X Y]]]]]. assert (s = k) as ->; [|exists m; auto].
  pose proof (pos_nz _ (d_pos _ _ _ _ H)) as NT. destruct F as [F _]. pose proof (nz_qz k ltac:(lia)) as NK. pose proof (nz_qz s S1) as NS.
  assert (Z : qz s = qz k). { apply (f_equal (fun x => diffraction asec w size pitch / x)) in X. replace (diffraction asec w size pitch / (diffraction asec w size pitch / qz s)) with (qz s) in X by (field; split; assumption). rewrite X. field; split; assumption. }
  apply Qc_iff in Z. rewrite !this_qz in Z. apply inject_Z_injective; exact Z.
Qed.
Print Assumptions C107_choice.

(* the field of view of the sensor: an even number of pixels of the transforms, the one nearest to what was asked for *)
Theorem C107_fov fuel asec w size pitch w' y f : sound asec w size pitch -> w_res w = 0 -> setup fuel asec w size pitch = Ok (w', y, f) ->
  Z.Even (y_fov y) /\ pixel asec w' * qz (w_npx w) = qz (y_fov y) * y_fft_px y /\
  pixel asec w * qz (w_npx w) - y_fft_px y <= qz (y_fov y) * y_fft_px y /\ qz (y_fov y) * y_fft_px y <= pixel asec w * qz (w_npx w) + y_fft_px y.
Proof.
  intros H R E. destruct (setup_inv _ _ _ _ _ _ _ _ H R E) as [s [S1 [S2 [RR [-> [-> ->]]]]]]. cbn [y_fov y_fft_px].
  pose proof (fft_px_pos _ _ _ _ H s S1) as P. pose proof (pos_nz _ P) as NP. set (x := diffraction asec w size pitch / qz s) in *.
  destruct H as [A [_ [_ [_ [_ [B _]]]]]]. pose proof (pos_nz _ A) as NA. pose proof (nz_qz _ B) as NB.
  set (q := pixel asec w * qz (w_npx w) / x). assert (Q : q * x = pixel asec w * qz (w_npx w)) by (unfold q; field; exact NP).
  split; [now exists (qround (q / qz 2))|]. split; [unfold pixel at 1; cbn [w_px]; field; auto|]. rewrite <- Q. unfold fov_of. pose proof (qround_near (q / qz 2)) as NR. set (r := qround (q / qz 2)) in *.
  assert (E2 : (this (q / qz 2) == this q * (1 # 2))%Q) by (rewrite this_div, this_qz; change (inject_Z 2) with 2%Q; unfold Qdiv; change (/ 2)%Q with (1 # 2)%Q; reflexivity). rewrite E2 in NR.
  rewrite pos_this in P. unfold Qcle. rewrite this_sub, this_add, !this_mul, (this_qz (2 * r)), inject_Z_mult. change (inject_Z 2) with 2%Q. split; nra.
Qed.
Print Assumptions C107_fov.

(* some of the image is always kept *)
Theorem C107_nonempty fuel asec w size pitch w' y f : sound asec w size pitch -> w_res w = 0 -> setup fuel asec w size pitch = Ok (w', y, f) -> (2 <= y_fov y)%Z /\ (2 <= f_cutsize f)%Z.
Proof.
  intros H R E. destruct (setup_inv _ _ _ _ _ _ _ _ H R E) as [s [S1 [S2 [RR [-> [-> ->]]]]]]. cbn [y_fov f_cutsize].
  assert (Z2 : (2 <= fov_of (pixel asec w * qz (w_npx w) / (diffraction asec w size pitch / qz s)))%Z); [|split; exact Z2].
  pose proof (fft_px_pos _ _ _ _ H s S1) as P. pose proof (pos_nz _ P) as NP. set (x := diffraction asec w size pitch / qz s) in *. destruct H as [_ [_ [_ [_ [_ [B _]]]]]].
  set (q := pixel asec w * qz (w_npx w) / x). assert (Q : q * x = pixel asec w * qz (w_npx w)) by (unfold q; field; exact NP). unfold fov_of.
  assert (B' : (1 <= inject_Z (w_npx w))%Q) by (change 1%Q with (inject_Z 1); rewrite <- Zle_Qle; exact B). rewrite pos_this in P. unfold Qclt in S2. apply Qc_iff in Q. rewrite !this_mul, this_qz in Q.
  enough (1 <= qround (q / qz 2))%Z by lia. apply qround_ge. rewrite this_div, this_qz. change (inject_Z 2) with 2%Q. change (inject_Z 1) with 1%Q. unfold Qdiv. change (/ 2)%Q with (1 # 2)%Q.
  destruct (Qlt_le_dec 1 (this q)) as [L|L]; [lra|exfalso]. nra.
Qed.
Print Assumptions C107_nonempty.

(* what is kept of the focal plane: the field of view, centred *)
Theorem C107_cut fuel asec w size pitch w' y f : sound asec w size pitch -> w_res w = 0 -> setup fuel asec w size pitch = Ok (w', y, f) -> (w_n w <= size * y_scale y)%Z ->
  f_cutsize f = y_fov y /\ (0 <= f_cut f)%Z /\ Z.Even (f_cut f) /\ fst (kept f (y_fft y)) = (f_cut f / 2)%Z /\ (snd (kept f (y_fft y)) - fst (kept f (y_fft y)) = f_cutsize f)%Z /\
  (y_fft y - snd (kept f (y_fft y)) = fst (kept f (y_fft y)))%Z /\ f_ratio f * (qz (y_fft y) * y_fft_px y) = w_wanted w.
Proof.
  intros H R E. destruct (setup_inv _ _ _ _ _ _ _ _ H R E) as [s [S1 [S2 [RR [-> [-> ->]]]]]]. cbn [f_cutsize f_cut y_fov y_fft y_scale y_fft_px f_ratio]. intros N.
  pose proof (cut_nonneg asec w size pitch H s S1 N) as CN. pose proof (c_ge asec w size pitch H s) as C. pose proof (fft_px_pos _ _ _ _ H s S1) as P. pose proof (pos_nz _ P) as NP.
  set (fov := fov_of (pixel asec w * qz (w_npx w) / (diffraction asec w size pitch / qz s))) in *. assert (FE : exists k, fov = (2 * k)%Z) by (eexists; reflexivity). destruct FE as [k FE].
  set (c := qceil _) in *. assert (N2 : qz (2 * c * s) <> 0) by (apply nz_qz; nia). clearbody fov c. subst fov. unfold kept. cbn [f_cut]. replace (2 * c * s - 2 * k)%Z with (2 * (c * s - k))%Z by ring.
  assert (D1 : (2 * (c * s - k) / 2 = c * s - k)%Z) by (rewrite Z.mul_comm; apply Z.div_mul; lia). assert (D2 : (- (2 * (c * s - k)) / 2 = k - c * s)%Z) by (replace (- (2 * (c * s - k)))%Z with ((k - c * s) * 2)%Z by ring; apply Z.div_mul; lia).
  split; [reflexivity|split; [lia|split; [now exists (c * s - k)%Z|]]].
  assert (RA : w_wanted w / (qz (2 * c * s) * (diffraction asec w size pitch / qz s)) * (qz (2 * c * s) * (diffraction asec w size pitch / qz s)) = w_wanted w) by (clear - N2 NP; set (x := diffraction asec w size pitch / qz s) in *; field; split; assumption).
  split; [|split; [|split; [|exact RA]]]; destruct (Z.ltb_spec 0 (2 * (c * s - k))); cbn [fst snd]; rewrite ?D1, ?D2; lia.
Qed.
Print Assumptions C107_cut.

(* the rows of subapertures use every row of the interpolated field exactly once *)
Theorem C107_rows fuel asec w size pitch w' y f : sound asec w size pitch -> w_res w = 0 -> setup fuel asec w size pitch = Ok (w', y, f) -> forall r,
  (0 <= r < y_final y)%Z <-> exists i, (0 <= i < w_n w)%Z /\ (fst (rows_of y i) <= r < snd (rows_of y i))%Z /\ forall j, (fst (rows_of y j) <= r < snd (rows_of y j))%Z -> j = i.
Proof.
  intros H R E r. destruct (C107_sizes _ _ _ _ _ _ _ _ H R E) as [F [_ [P _]]]. rewrite F. unfold rows_of. cbn [fst snd]. set (b := y_sub y) in *. pose proof (n_ge _ _ _ _ H). split.
  - intros K. exists (r / b)%Z. pose proof (Z.div_mod r b ltac:(lia)) as D. pose proof (Z.mod_pos_bound r b ltac:(lia)) as M. split; [split; [apply Z.div_pos; lia|apply Z.div_lt_upper_bound; lia]|]. split; [nia|]. intros j J. apply Z.div_unique with (r - b * j)%Z; nia.
  - intros [i [I [J _]]]. nia.
Qed.
Print Assumptions C107_rows.

(* setting the sensor up a second time changes nothing *)
Theorem C107_again fuel fuel' asec w size pitch w' y f : sound asec w size pitch -> w_res w = 0 -> setup fuel asec w size pitch = Ok (w', y, f) ->
  setup fuel' asec w' size pitch = Ok (w', y, f).
Proof.
  intros H R E. destruct (setup_inv _ _ _ _ _ _ _ _ H R E) as [s [S1 [S2 [RR [EW [EY EF]]]]]]. pose proof (fft_px_pos _ _ _ _ H s S1) as P. pose proof (pos_nz _ P) as NP. assert (Y : (1 <= y_fov y)%Z) by (pose proof (C107_nonempty _ _ _ _ _ _ _ _ H R E); lia).
  assert (EFOV : y_fov y = fov_of (pixel asec w * qz (w_npx w) / (diffraction asec w size pitch / qz s))) by (rewrite EY; reflexivity). rewrite <- EFOV in EW.
  assert (EVEN : exists k, y_fov y = (2 * k)%Z) by (rewrite EFOV; eexists; reflexivity).
  assert (H' : sound asec w' size pitch). { destruct H as [A [B [C [D [D2 [D3 D4]]]]]]. rewrite EW. split; [exact A|split; [exact B|split; [exact C|split; [|split; [exact D2|split; [exact D3|exact D4]]]]]]. cbn [w_px]. apply pos_div; [|exact A]. apply pos_div; [|apply pos_qz, D3]. apply pos_mul; [apply pos_qz, Y|exact P]. }
  assert (RW : w_res w' = diffraction asec w' size pitch / qz s) by (rewrite EW; reflexivity). assert (RR' : resolution fuel' asec w' size pitch = Ok (diffraction asec w' size pitch / qz s)).
  { unfold resolution. cbv zeta. rewrite RW. replace (is0 (diffraction asec w' size pitch / qz s)) with false; [reflexivity|]. symmetry. apply is0_false. rewrite EW. exact NP. }
  assert (FOV' : fov_of (pixel asec w' * qz (w_npx w') / (diffraction asec w' size pitch / qz s)) = y_fov y).
  { destruct (C107_fov _ _ _ _ _ _ _ _ H R E) as [_ [FP _]]. assert (X1 : w_npx w' = w_npx w) by (rewrite EW; reflexivity). assert (X2 : diffraction asec w' size pitch = diffraction asec w size pitch) by (rewrite EW; reflexivity). rewrite X1, X2, FP.
    assert (X3 : y_fft_px y = diffraction asec w size pitch / qz s) by (rewrite EY; reflexivity). rewrite X3. replace (qz (y_fov y) * (diffraction asec w size pitch / qz s) / (diffraction asec w size pitch / qz s)) with (qz (y_fov y)).
    2: { set (x := diffraction asec w size pitch / qz s) in *. field. exact NP. }
    destruct EVEN as [k ->]. unfold fov_of. replace (qz (2 * k) / qz 2) with (qz k) by (rewrite qz_inj_mul; field; apply nz_qz; lia). now rewrite qround_qz. }
  unfold setup. rewrite (set_in_ef_eq asec w' size pitch H' s S1 fuel' RR'). cbn [bind fst snd]. rewrite (focal_eq asec w' size pitch H' s S1). rewrite FOV'. rewrite <- EFOV in EY, EF. remember (y_fov y) as fv. rewrite EW, EY, EF. reflexivity.
Qed.
Print Assumptions C107_again.

(* with fewer pixels than subapertures the field of view that is asked for may not fit in the transforms *)
Theorem C107_fits_refuted : exists asec w size pitch w' y f, sound asec w size pitch /\ w_res w = 0 /\ setup 100 asec w size pitch = Ok (w', y, f) /\ (f_cut f < 0)%Z.
Proof.
  set (asec := qz 200000). set (w := new_sensor asec (qz 500) (qz 10) (qz 10) 10 1 1 false). exists asec, w, 2%Z, (qz 1).
  assert (X : exists r, setup 100 asec w 2 (qz 1) = Ok r /\ (f_cut (snd r) < 0)%Z). { eexists. split; [vm_compute; reflexivity|reflexivity]. }
  destruct X as [[[w' y] f'] [X1 X2]]. exists w', y, f'. split; [repeat split; (reflexivity || (cbn; lia))|split; [reflexivity|split; [exact X1|exact X2]]].
Qed.
Print Assumptions C107_fits_refuted.

(* with 64 bit floating point numbers a pixel can be lost: a row of the interpolated field of 47 pixels, oversampled twice for
   8 subapertures, has 95 pixels instead of 96 and cannot be split *)
Theorem C107_rounding_refuted : exists size n, (1 <= n)%Z /\ (n <= size)%Z /\
  let z := sizes_of size n (f64 2) in z_final z = (n * z_sub z)%Z /\ z_whole z = (z_final z - 1)%Z /\ split_row z n = Err ValueError.
Proof. exists 47%Z, 8%Z. repeat split; (lia || (vm_compute; reflexivity)). Qed.
Print Assumptions C107_rounding_refuted.

(* the default oversampling of SH is 2 (sh.py:105), that of DistributedSH 0 (distributed_sh.py:27): left at their defaults, the
   two interpolate the same field to different sizes *)
Theorem C107_defaults_refuted : exists asec size pitch w' y f v' z g, let sensor := fun coeff => new_sensor asec (qz 750) (qz 4) (qz 1 / qz 2) 8 8 coeff false in
  sound asec (sensor (qz 2)) size pitch /\ setup 20 asec (sensor (qz 2)) size pitch = Ok (w', y, f) /\ setup 20 asec (sensor 0) size pitch = Ok (v', z, g) /\ (y_sub z < y_sub y)%Z /\ (y_fft z < y_fft y)%Z.
Proof.
  set (a := qz 206265). set (s := fun c => new_sensor a (qz 750) (qz 4) (qz 1 / qz 2) 8 8 c false).
  assert (X : exists r, setup 20 a (s (qz 2)) 128 (qz 1 / qz 16) = Ok r /\ (y_sub (snd (fst r)), y_fft (snd (fst r))) = (32, 64)%Z). { eexists. split; [vm_compute; reflexivity|reflexivity]. }
  assert (Y : exists r, setup 20 a (s 0) 128 (qz 1 / qz 16) = Ok r /\ (y_sub (snd (fst r)), y_fft (snd (fst r))) = (26, 52)%Z). { eexists. split; [vm_compute; reflexivity|reflexivity]. }
  destruct X as [[[w' y] f] [X1 X2]], Y as [[[v' z] g] [Y1 Y2]]. exists a, 128%Z, (qz 1 / qz 16), w', y, f, v', z, g. cbv zeta.
  split; [repeat split; (reflexivity || (cbn; lia))|]. split; [exact X1|]. split; [exact Y1|]. cbn [fst snd] in X2, Y2. injection X2 as -> ->. injection Y2 as -> ->. split; reflexivity.
Qed.
Print Assumptions C107_defaults_refuted.

(* 64 pixels of 12.5 cm, 8 subapertures of 8 pixels of half an arcsecond *)
Definition ex_asec : Qc := qz 206265.
Definition ex_sensor : sensor := new_sensor ex_asec (qz 750) (qz 4) (qz 1 / qz 2) 8 8 (qz 2) false.
Example C107_example : exists w' y f, setup 20 ex_asec ex_sensor 64 (qz 1 / qz 8) = Ok (w', y, f) /\ (y_scale y, y_fov y, y_final y, y_sub y, y_fft y) = (2, 52, 208, 26, 52)%Z /\ kept f (y_fft y) = (0, 52)%Z /\
  sound ex_asec ex_sensor 64 (qz 1 / qz 8) /\ (map (fun i => rows_of y (Z.of_nat i)) (seq 0 3) = [(0, 26); (26, 52); (52, 78)])%Z.
Proof.
  assert (X : exists r, setup 20 ex_asec ex_sensor 64 (qz 1 / qz 8) = Ok r /\ (y_scale (snd (fst r)), y_fov (snd (fst r)), y_final (snd (fst r)), y_sub (snd (fst r)), y_fft (snd (fst r))) = (2, 52, 208, 26, 52)%Z /\ kept (snd r) (y_fft (snd (fst r))) = (0, 52)%Z).
  { eexists. split; [vm_compute; reflexivity|split; reflexivity]. }
  destruct X as [[[w' y] f] [X1 [X2 X3]]]. exists w', y, f. repeat split; try assumption; try reflexivity; try (cbn; lia). cbn [fst snd] in X2. injection X2 as _ _ _ Z _. unfold rows_of. rewrite Z. reflexivity.
Qed.
(* a sensor with a small pixel: the third way to choose the resolution *)
Example C107_example_choice : exists r, setup 20 ex_asec (new_sensor ex_asec (qz 500) (qz 2) (qz 1 / qz 10) 10 20 1 false) 100 (qz 1 / qz 20) = Ok r /\ y_scale (snd (fst r)) = 5%Z /\ y_fov (snd (fst r)) = 48%Z /\ kept (snd r) (y_fft (snd (fst r))) = (1, 49)%Z.
Proof. eexists. split; [vm_compute; reflexivity|]. repeat split; reflexivity. Qed.
