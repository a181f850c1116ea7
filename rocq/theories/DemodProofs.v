(* Lemmas about the model of the demodulation. *)
From Coq Require Import Reals List ZArith Arith Lra Lia Bool.
From Verif Require Import PyBase PyLemmas Fourier DemodModel DemodSpec.
Local Open Scope R_scope.

(* ------------------------------------------------------------------- the angle of a point *)
Lemma hyp_sq q p : sqrt (p * p + q * q) * sqrt (p * p + q * q) = p * p + q * q.
Proof. apply sqrt_sqrt. nra. Qed.
Lemma atan2_polar q p : sqrt (p * p + q * q) * cos (atan2 q p) = p /\ sqrt (p * p + q * q) * sin (atan2 q p) = q.
Proof.
  unfold atan2. set (r := sqrt (p * p + q * q)). pose proof (hyp_sq q p) as S. pose proof (sqrt_pos (p * p + q * q)) as P. fold r in S, P.
  destruct (Req_EM_T r 0) as [Z|Z]; [rewrite Z in *; split; nra|].
  assert (R0 : 0 < r) by lra. assert (B : -1 <= p / r <= 1). { split; [apply Rmult_le_reg_r with r|apply Rmult_le_reg_r with r]; try exact R0; unfold Rdiv; rewrite Rmult_assoc, Rinv_l, Rmult_1_r by exact Z; nra. }
  assert (Q : 1 - (p / r)² = (q / r) * (q / r)). { unfold Rsqr. apply (Rmult_eq_reg_r (r * r)); [|nra]. unfold Rdiv. replace ((1 - p * / r * (p * / r)) * (r * r)) with (r * r - p * p * ((r * / r) * (r * / r))) by ring. replace (q * / r * (q * / r) * (r * r)) with (q * q * ((r * / r) * (r * / r))) by ring. rewrite Rinv_r by exact Z. lra. }
  assert (C : cos (acos (p / r)) = p / r) by (apply cos_acos; exact B).
  assert (N : sin (acos (p / r)) = sqrt ((q / r) * (q / r))) by (rewrite sin_acos by exact B; now rewrite Q).
  destruct (Rlt_dec q 0) as [L|L].
  - rewrite cos_neg, sin_neg, C, N. replace ((q / r) * (q / r)) with ((- q / r) * (- q / r)) by (unfold Rdiv; ring). rewrite sqrt_square by (apply Rmult_le_pos; [lra|left; now apply Rinv_0_lt_compat]). split; field; exact Z.
  - rewrite C, N. rewrite sqrt_square by (apply Rmult_le_pos; [lra|left; now apply Rinv_0_lt_compat]). split; field; exact Z.
Qed.
Lemma acos_pi x : -1 <= x <= 1 -> acos x = PI -> x = -1.
Proof. intros B E. rewrite <- (cos_acos x B), E. apply cos_PI. Qed.
Lemma atan2_range q p : - PI < atan2 q p <= PI.
Proof.
  pose proof PI_RGT_0 as PP. unfold atan2. set (r := sqrt (p * p + q * q)). pose proof (hyp_sq q p) as S. pose proof (sqrt_pos (p * p + q * q)) as P. fold r in S, P.
  destruct (Req_EM_T r 0) as [Z|Z]; [lra|]. pose proof (acos_bound (p / r)) as A. destruct (Rlt_dec q 0) as [L|L]; [|lra]. split; [|lra].
  assert (R0 : 0 < r) by lra. assert (B : -1 <= p / r <= 1). { split; [apply Rmult_le_reg_r with r|apply Rmult_le_reg_r with r]; try exact R0; unfold Rdiv; rewrite Rmult_assoc, Rinv_l, Rmult_1_r by exact Z; nra. }
  destruct (Req_dec (acos (p / r)) PI) as [E|E]; [|lra]. apply acos_pi in E; [|exact B]. exfalso. assert (X : p = - r) by (apply (Rmult_eq_reg_r (/ r)); [|apply Rinv_neq_0_compat; exact Z]; fold (p / r); rewrite E; field; exact Z). rewrite X in S. assert (q * q = 0) by nra. nra.
Qed.
Lemma atan2_zero r : 0 <= r -> atan2 0 r = 0.
Proof.
  intros R0. unfold atan2. replace (r * r + 0 * 0) with (r * r) by ring. rewrite sqrt_square by exact R0. destruct (Req_EM_T r 0) as [Z|Z]; [reflexivity|]. destruct (Rlt_dec 0 0) as [L|_]; [lra|]. replace (r / r) with 1 by (field; exact Z). apply acos_1.
Qed.
Lemma hyp_scale c q p : 0 <= c -> sqrt (c * p * (c * p) + c * q * (c * q)) = c * sqrt (p * p + q * q).
Proof. intros H. replace (c * p * (c * p) + c * q * (c * q)) with ((c * c) * (p * p + q * q)) by ring. rewrite sqrt_mult by nra. now rewrite sqrt_square. Qed.
Lemma atan2_scale c q p : 0 < c -> atan2 (c * q) (c * p) = atan2 q p.
Proof.
  intros H. unfold atan2. rewrite hyp_scale by lra. set (r := sqrt (p * p + q * q)). destruct (Req_EM_T r 0) as [Z|Z].
  - rewrite Z, Rmult_0_r. destruct (Req_EM_T 0 0); [reflexivity|congruence].
  - destruct (Req_EM_T (c * r) 0) as [Y|Y]; [apply Rmult_integral in Y; lra|]. replace (c * p / (c * r)) with (p / r) by (field; split; lra). destruct (Rlt_dec (c * q) 0), (Rlt_dec q 0); try reflexivity; exfalso; nra.
Qed.

(* ------------------------------------------------------------------- detrending *)
Lemma detrend_above n d f i : detrend n d f i = above_line (n - 1) d f i.
Proof. unfold detrend, above_line, Rdiv. ring. Qed.
Lemma above_offset l d f c i : above_line l d (fun i => f i + c) i = above_line l d f i.
Proof. unfold above_line, Rdiv. ring. Qed.
Lemma above_scale l d f c i : above_line l d (fun i => c * f i) i = c * above_line l d f i.
Proof. unfold above_line, Rdiv. ring. Qed.
Lemma above_ramp l f a b i : (0 < l)%nat -> above_line l (INR l) (fun i => f i + a + b * INR i) i = above_line l (INR l) f i.
Proof. intros L. unfold above_line. change (INR 0) with 0. field. apply not_0_INR. lia. Qed.
Lemma above_ends l d f : above_line l d f 0 = 0.
Proof. unfold above_line. change (INR 0) with 0. unfold Rdiv. ring. Qed.

(* ------------------------------------------------------------------- components *)
Lemma mean_ext n f g : (forall i, (i < n)%nat -> f i = g i) -> mean n f = mean n g.
Proof. intros H. unfold mean. now rewrite (rsum_ext n f g H). Qed.
Lemma fst_component n x fc fs : fst (component n x fc fs) = mean n (fun i => x i * cos (omega fc * time fs i)).
Proof.
  unfold component, mean, creal. cbn [fst snd cmul]. rewrite fst_csum, snd_csum. unfold cis, cmul. cbn [fst snd]. 
  rewrite (rsum_ext n _ (fun i => x i * cos (omega fc * time fs i))).
  2: { intros i I. unfold omega, time. replace (INR i * (1 / fs)) with (INR i / fs) by (unfold Rdiv; ring). ring. }
  unfold Rdiv. ring.
Qed.
Lemma snd_component n x fc fs : snd (component n x fc fs) = mean n (fun i => x i * sin (omega fc * time fs i)).
Proof.
  unfold component, mean, creal. cbn [fst snd cmul]. rewrite fst_csum, snd_csum. unfold cis, cmul. cbn [fst snd]. 
  rewrite (rsum_ext n (fun i => x i * sin (2 * PI * fc * (INR i / fs)) + 0 * cos (2 * PI * fc * (INR i / fs))) (fun i => x i * sin (omega fc * time fs i))).
  2: { intros i I. unfold omega, time. replace (INR i * (1 / fs)) with (INR i / fs) by (unfold Rdiv; ring). ring. }
  unfold Rdiv. ring.
Qed.
Lemma component_ext n x y fc fs : (forall i, (i < n)%nat -> x i = y i) -> component n x fc fs = component n y fc fs.
Proof. intros H. unfold component. f_equal. apply csum_ext. intros i I. now rewrite H. Qed.
Lemma modulus_hyp z : modulus z = sqrt (fst z * fst z + snd z * snd z).
Proof. reflexivity. Qed.

(* the phased carriers turn the component by the phase *)
Lemma dem_mean n x fc fs phi :
  mean n (fun i => x i * dem_cos fc fs phi i) = fst (component n x fc fs) * cos phi + snd (component n x fc fs) * sin phi /\
  mean n (fun i => x i * dem_sin fc fs phi i) = snd (component n x fc fs) * cos phi - fst (component n x fc fs) * sin phi.
Proof.
  rewrite fst_component, snd_component. unfold dem_cos, dem_sin, mean. split.
  - rewrite (rsum_ext n _ (fun i => x i * cos (omega fc * time fs i) * cos phi + x i * sin (omega fc * time fs i) * sin phi)) by (intros i I; rewrite cos_minus; ring). rewrite rsum_add, !rsum_mul_r. unfold Rdiv. ring.
  - rewrite (rsum_ext n _ (fun i => x i * sin (omega fc * time fs i) * cos phi + (x i * cos (omega fc * time fs i)) * (- sin phi))) by (intros i I; rewrite sin_minus; ring). rewrite rsum_add, !rsum_mul_r. unfold Rdiv. ring.
Qed.
Lemma dem_hyp n x fc fs phi : let q := mean n (fun i => x i * dem_sin fc fs phi i) in let p := mean n (fun i => x i * dem_cos fc fs phi i) in
  sqrt (q * q + p * p) = modulus (component n x fc fs).
Proof.
  cbv zeta. destruct (dem_mean n x fc fs phi) as [-> ->]. rewrite modulus_hyp. set (P := fst _). set (Q := snd _). f_equal. pose proof (sin2_cos2 phi) as S. unfold Rsqr in S.
  replace ((Q * cos phi - P * sin phi) * (Q * cos phi - P * sin phi) + (P * cos phi + Q * sin phi) * (P * cos phi + Q * sin phi)) with ((P * P + Q * Q) * (sin phi * sin phi + cos phi * cos phi)) by ring. rewrite S. ring.
Qed.
Lemma dem_zero n x fc fs : let phi := atan2 (snd (component n x fc fs)) (fst (component n x fc fs)) in
  mean n (fun i => x i * dem_sin fc fs phi i) = 0 /\ mean n (fun i => x i * dem_cos fc fs phi i) = modulus (component n x fc fs).
Proof.
  cbv zeta. set (P := fst (component n x fc fs)). set (Q := snd (component n x fc fs)). destruct (dem_mean n x fc fs (atan2 Q P)) as [E1 E2]. rewrite E1, E2. clear E1 E2. fold P Q. destruct (atan2_polar Q P) as [A B].
  rewrite modulus_hyp. fold P Q. pose proof (sin2_cos2 (atan2 Q P)) as S. unfold Rsqr in S. set (r := sqrt (P * P + Q * Q)) in *. set (t := atan2 Q P) in *. clearbody t r P Q. rewrite <- A, <- B. split; [ring|]. 
  replace (r * cos t * cos t + r * sin t * sin t) with (r * (sin t * sin t + cos t * cos t)) by ring. rewrite S. ring.
Qed.

(* ------------------------------------------------------------------- moduli *)
Lemma modulus_sq z : modulus z * modulus z = abs2 z. Proof. apply sqrt_sqrt, abs2_nonneg. Qed.
Lemma modulus_pos z : 0 <= modulus z. Proof. apply sqrt_pos. Qed.
Lemma modulus_mul a b : modulus (cmul a b) = modulus a * modulus b.
Proof. unfold modulus. rewrite abs2_mul. apply sqrt_mult; apply abs2_nonneg. Qed.
Lemma modulus_real x : modulus (creal x) = Rabs x.
Proof. unfold modulus. rewrite abs2_real. change (x * x) with (Rsqr x). apply sqrt_Rsqr_abs. Qed.
Lemma modulus_cis x : modulus (cis x) = 1. Proof. unfold modulus. rewrite abs2_cis. apply sqrt_1. Qed.
Lemma modulus_eq a x : 0 <= x -> abs2 a = x * x -> modulus a = x.
Proof. intros X H. unfold modulus. rewrite H. now apply sqrt_square. Qed.
Lemma modulus_sub a b : Rabs (modulus a - modulus b) <= modulus (csub a b).
Proof.
  pose proof (modulus_pos a) as PA. pose proof (modulus_pos b) as PB. pose proof (modulus_pos (csub a b)) as PC. pose proof (modulus_sq a) as SA. pose proof (modulus_sq b) as SB. pose proof (modulus_sq (csub a b)) as SC.
  set (x := modulus a) in *. set (y := modulus b) in *. set (z := modulus (csub a b)) in *.
  assert (CS : fst a * fst b + snd a * snd b <= x * y).
  { destruct (Rle_dec (fst a * fst b + snd a * snd b) 0) as [L|L]; [nra|]. apply Rsqr_incr_0_var; [|nra]. unfold Rsqr. replace (x * y * (x * y)) with ((x * x) * (y * y)) by ring. rewrite SA, SB. unfold abs2.
    assert (0 <= (fst a * snd b - snd a * fst b) * (fst a * snd b - snd a * fst b)) by apply Rle_0_sqr. nra. }
  assert (E : z * z = x * x + y * y - 2 * (fst a * fst b + snd a * snd b)) by (rewrite SA, SB, SC; unfold abs2, csub, cadd, copp; cbn [fst snd]; ring).
  assert (K : (x - y) * (x - y) <= z * z) by nra. apply Rabs_le. split; nra.
Qed.

(* ------------------------------------------------------------------- equal signals *)
Lemma last_mean_ext nt n4 x y : (forall k, (k < nt - 2)%nat -> x k = y k) -> last_mean nt n4 x = last_mean nt n4 y.
Proof.
  intros H. unfold last_mean. destruct (Nat.ltb_spec (nt - 2 - n4) (nt - 2)) as [L|L]; [apply mean_ext; intros i I; apply H; lia|]. destruct (Nat.ltb_spec 0 (nt - 2)); [apply H; lia|reflexivity].
Qed.
Lemma last_mean_scale nt n4 c x : last_mean nt n4 (fun k => c * x k) = c * last_mean nt n4 x.
Proof.
  unfold last_mean. destruct (_ <? _)%nat; [unfold mean; rewrite rsum_mul_l; unfold Rdiv; ring|]. destruct (_ <? _)%nat; ring.
Qed.
Lemma reference_component nt f fc fs : let z := component nt (above_line (nt - 1) (INR nt) f) fc fs in reference_phase nt f fc fs = atan2 (snd z) (fst z).
Proof.
  cbv zeta. unfold reference_phase. rewrite fst_component, snd_component. f_equal; apply mean_ext; intros i I; now rewrite detrend_above.
Qed.
Lemma window_means f fc fs phi j : let x := above_line j (INR j) f in qa f fc fs phi j = mean (S j) (fun i => x i * dem_sin fc fs phi i) /\ pa f fc fs phi j = mean (S j) (fun i => x i * dem_cos fc fs phi i).
Proof.
  cbv zeta. unfold qa, pa, mean. rewrite S_INR. split; f_equal; apply rsum_ext; intros i I; rewrite detrend_above; cbn [Nat.sub]; rewrite Nat.sub_0_r; reflexivity.
Qed.
Lemma window_amplitude f fc fs phi j : 2 * sqrt (qa f fc fs phi j * qa f fc fs phi j + pa f fc fs phi j * pa f fc fs phi j) = amplitude f fc fs j.
Proof. unfold amplitude. destruct (window_means f fc fs phi j) as [-> ->]. rewrite (dem_hyp (S j)). reflexivity. Qed.
Lemma demodulate_simple nt f fc fs : fs <> 0 -> (0 < nt)%nat -> let z := component nt (above_line (nt - 1) (INR nt) f) fc fs in
  demodulate nt f fc fs false = Ok (2 * modulus z, atan2 (snd z) (fst z)).
Proof.
  intros FS NT. cbv zeta. unfold demodulate. destruct (Req_EM_T fs 0); [contradiction|]. destruct (Nat.eqb_spec nt 0); [lia|]. cbv zeta. rewrite reference_component. set (x := above_line (nt - 1) (INR nt) f).
  rewrite (mean_ext nt _ (fun i => x i * dem_sin fc fs (atan2 (snd (component nt x fc fs)) (fst (component nt x fc fs))) i)) by (intros i I; rewrite detrend_above; reflexivity).
  rewrite (mean_ext nt (fun i => detrend nt (INR nt) f i * _) (fun i => x i * dem_cos fc fs (atan2 (snd (component nt x fc fs)) (fst (component nt x fc fs))) i)) by (intros i I; rewrite detrend_above; reflexivity).
  destruct (dem_zero nt x fc fs) as [-> ->]. pose proof (modulus_pos (component nt x fc fs)) as P. rewrite atan2_zero by exact P. rewrite Rplus_0_l, Rmult_0_l, Rplus_0_l. rewrite sqrt_square by exact P. reflexivity.
Qed.
Lemma demodulate_ext nt f g fc fs c : (forall l d i, above_line l d f i = above_line l d g i) -> demodulate nt f fc fs c = demodulate nt g fc fs c.
Proof.
  intros H. destruct (Req_EM_T fs 0) as [Z|Z]; [unfold demodulate; destruct (Req_EM_T fs 0); [reflexivity|contradiction]|].
  destruct (Nat.eq_dec nt 0) as [N|N]; [subst; unfold demodulate; destruct (Req_EM_T fs 0); reflexivity|].
  assert (CE : forall n l d, component n (above_line l d f) fc fs = component n (above_line l d g) fc fs) by (intros; apply component_ext; intros; apply H).
  destruct c; [|rewrite !demodulate_simple by (auto; lia); now rewrite CE].
  unfold demodulate. destruct (Req_EM_T fs 0); [contradiction|]. destruct (Nat.eqb_spec nt 0); [lia|]. cbv zeta. rewrite !reference_component, CE. set (phi := atan2 _ _).
  assert (W : forall k, qa f fc fs phi k = qa g fc fs phi k /\ pa f fc fs phi k = pa g fc fs phi k).
  { intros k. destruct (window_means f fc fs phi k) as [-> ->]. destruct (window_means g fc fs phi k) as [-> ->]. split; apply mean_ext; intros i I; now rewrite H. }
  f_equal. f_equal; [|f_equal]; apply last_mean_ext; intros k K; destruct (W (k + 2)%nat) as [-> ->]; reflexivity.
Qed.
Lemma value_cumulated nt f fc fs v p : demodulate nt f fc fs true = Ok (v, p) -> v = last_mean nt (n4mean nt fc fs) (fun k => amplitude f fc fs (k + 2)).
Proof.
  unfold demodulate. destruct (Req_EM_T fs 0); [discriminate|]. destruct (Nat.eqb_spec nt 0); [discriminate|]. cbv zeta. intros H. apply (f_equal (fun r => match r with Ok x => fst x | Err _ => 0 end)) in H. cbn [fst] in H. subst v. apply last_mean_ext. intros k K. apply window_amplitude.
Qed.
Lemma component_scale n c x fc fs : component n (fun i => c * x i) fc fs = cmul (creal c) (component n x fc fs).
Proof.
  unfold component. rewrite (csum_ext n _ (fun i => cmul (creal c) (cmul (creal (x i)) (cis (2 * PI * fc * (INR i / fs)))))).
  - rewrite csum_mul_l. set (s := csum n _). clearbody s. apply c_ext; unfold cmul, creal; cbn [fst snd]; ring.
  - intros i I. apply c_ext; unfold cmul, creal; cbn [fst snd]; ring.
Qed.
Lemma amplitude_scale c f fc fs j : amplitude (fun i => c * f i) fc fs j = Rabs c * amplitude f fc fs j.
Proof.
  unfold amplitude. rewrite (component_ext _ _ (fun i => c * above_line j (INR j) f i)) by (intros; apply above_scale). rewrite component_scale, modulus_mul, modulus_real. ring.
Qed.

(* ------------------------------------------------------------------- a tone *)
Section Tone.
Variables (n k : nat) (fc fs : R).
Hypothesis FS : fs <> 0.
Hypothesis N0 : (0 < n)%nat.
Hypothesis ratio : fc * INR n = INR k * fs.
Hypothesis K0 : (0 < k)%nat.
Hypothesis K1 : (2 * k < n)%nat.
Let kz := Z.of_nat k.
Lemma n_nz : INR n <> 0. Proof. apply not_0_INR. lia. Qed.
Lemma carrier_root i : cis (2 * PI * fc * (INR i / fs)) = root n (Z.of_nat i * kz).
Proof using FS N0 ratio.
  clear K0 K1. unfold root. f_equal. unfold kz. rewrite mult_IZR, <- !INR_IZR_INZ. assert (E : fc = INR k * fs / INR n) by (apply (Rmult_eq_reg_r (INR n)); [rewrite ratio; field; apply not_0_INR; lia|apply not_0_INR; lia]). rewrite E. field. split; [apply not_0_INR; lia|exact FS].
Qed.
Lemma not_div j : (0 < j < n)%nat -> ~ Z.divide (Z.of_nat n) (Z.of_nat j).
Proof using. clear. intros J D. apply Z.divide_pos_le in D; lia. Qed.
Lemma sum_root : csum n (fun i => root n (Z.of_nat i * kz)) = c0.
Proof. apply root_sum; [exact N0|]. apply not_div. lia. Qed.
Lemma sum_root2 : csum n (fun i => root n (Z.of_nat i * (2 * kz))) = c0.
Proof. apply root_sum; [exact N0|]. unfold kz. replace (2 * Z.of_nat k)%Z with (Z.of_nat (2 * k)) by lia. apply not_div. lia. Qed.
Lemma ramp_telescope m : cmul (csub c1 (root n kz)) (csum m (fun i => cmul (creal (INR i)) (root n (Z.of_nat i * kz)))) =
  csub (csub (csum (S m) (fun i => root n (Z.of_nat i * kz))) c1) (cmul (creal (INR m)) (root n (Z.of_nat m * kz))).
Proof.
  induction m as [|m IH].
  - cbn [csum]. rewrite Z.mul_0_l, root_0 by exact N0. change (INR 0) with 0. unfold creal, c0, c1, cmul, csub, cadd, copp. cbn [fst snd]. apply c_ext; cbn [fst snd]; ring.
  - cbn [csum]. cbn [csum] in IH. set (s := csum m (fun i => cmul _ _)) in *. set (t := csum m _) in *. 
    assert (E : root n (Z.of_nat (S m) * kz) = cmul (root n (Z.of_nat m * kz)) (root n kz)) by (rewrite <- root_add by exact N0; f_equal; lia). rewrite E. set (r := root n kz) in *. set (q := root n (Z.of_nat m * kz)) in *.
    transitivity (cadd (cmul (csub c1 r) s) (cmul (csub c1 r) (cmul (creal (INR m)) q))); [apply c_ext; unfold cmul, cadd; cbn [fst snd]; ring|]. rewrite IH. rewrite S_INR. apply c_ext; unfold creal, c0, c1, cmul, csub, cadd, copp; cbn [fst snd]; ring.
Qed.
Lemma ramp_sum : cmul (csub c1 (root n kz)) (csum n (fun i => cmul (creal (INR i)) (root n (Z.of_nat i * kz)))) = creal (- INR n).
Proof.
  rewrite ramp_telescope. cbn [csum]. rewrite sum_root. rewrite root_mult by exact N0. apply c_ext; unfold creal, c0, c1, cmul, csub, cadd, copp; cbn [fst snd]; ring.
Qed.
Lemma step_modulus : modulus (csub c1 (root n kz)) = 2 * sin (PI * INR k / INR n).
Proof.
  assert (A : 0 < PI * INR k / INR n < PI).
  { pose proof PI_RGT_0. assert (0 < INR n) by (apply lt_0_INR; lia). assert (0 < INR k) by (apply lt_0_INR; lia). assert (INR k < INR n) by (apply lt_INR; lia). split.
    - apply Rdiv_lt_0_compat; nra.
    - apply Rmult_lt_reg_r with (INR n); [lra|]. unfold Rdiv. rewrite Rmult_assoc, Rinv_l, Rmult_1_r by lra. nra. }
  pose proof (sin_gt_0 _ (proj1 A) (proj2 A)) as S. apply modulus_eq; [lra|]. unfold root, kz. rewrite <- INR_IZR_INZ. replace (2 * PI * INR k / INR n) with (2 * (PI * INR k / INR n)) by (unfold Rdiv; ring). set (t := PI * INR k / INR n) in *. unfold abs2, csub, cadd, copp, c1, cis. cbn [fst snd]. rewrite cos_2a_sin, sin_2a. pose proof (sin2_cos2 t) as Q. unfold Rsqr in Q.
  assert (cos t * cos t = 1 - sin t * sin t) by lra. replace (0 + - (2 * sin t * cos t)) with (- (2 * sin t) * cos t) by ring. replace (- (2 * sin t) * cos t * (- (2 * sin t) * cos t)) with (4 * (sin t * sin t) * (cos t * cos t)) by ring. rewrite H. ring.
Qed.
Lemma half_tone phi : csum n (fun i => cmul (creal (cos (2 * PI * INR k * INR i / INR n - phi))) (root n (Z.of_nat i * kz))) = cmul (creal (INR n / 2)) (cis phi).
Proof.
  rewrite (csum_ext n _ (fun i => cadd (cmul (cmul (creal (1 / 2)) (cis (- phi))) (root n (Z.of_nat i * (2 * kz)))) (cmul (creal (1 / 2)) (cis phi)))).
  - rewrite csum_add, csum_mul_l, sum_root2. assert (E : forall m z, csum m (fun _ => z) = cmul (creal (INR m)) z). { intros m z. induction m as [|m IH]; [cbn [csum]; change (INR 0) with 0; apply c_ext; unfold creal, c0, cmul; cbn [fst snd]; ring|]. cbn [csum]. rewrite IH, S_INR. apply c_ext; unfold creal, cadd, cmul; cbn [fst snd]; ring. } rewrite E. apply c_ext; unfold creal, cadd, cmul, c0; cbn [fst snd]; field.
  - intros i I. unfold root. assert (T1 : 2 * PI * IZR (Z.of_nat i * kz) / INR n = 2 * PI * INR k * INR i / INR n) by (unfold kz; rewrite mult_IZR, <- !INR_IZR_INZ; unfold Rdiv; ring). assert (T2 : 2 * PI * IZR (Z.of_nat i * (2 * kz)) / INR n = 2 * PI * INR k * INR i / INR n + 2 * PI * INR k * INR i / INR n) by (unfold kz; rewrite !mult_IZR, <- !INR_IZR_INZ; unfold Rdiv; ring).
    rewrite T1, T2. set (t := 2 * PI * INR k * INR i / INR n). rewrite cis_add, cis_opp. unfold cis, creal, cconj, cmul, cadd. cbn [fst snd]. rewrite cos_minus. pose proof (sin2_cos2 t) as Q. unfold Rsqr in Q. apply c_ext; cbn [fst snd].
    + apply Rminus_diag_uniq. transitivity (1 / 2 * cos phi * (sin t * sin t + cos t * cos t - 1)); [field|rewrite Q; ring].
    + apply Rminus_diag_uniq. transitivity (1 / 2 * sin phi * (sin t * sin t + cos t * cos t - 1)); [field|rewrite Q; ring].
Qed.
Lemma tone_component o A phi l : let f := fun i => o + A * cos (2 * PI * INR k * INR i / INR n - phi) in let tilt := (f l - f 0%nat) / INR n in
  exists ramp, modulus ramp = 1 / (2 * sin (PI * INR k / INR n)) /\
  cmul (creal 2) (component n (above_line l (INR n) f) fc fs) = csub (phasor A phi) (cmul (creal (2 * tilt)) ramp).
Proof.
  cbv zeta. set (f := fun i => o + A * cos (2 * PI * INR k * INR i / INR n - phi)). set (tilt := (f l - f 0%nat) / INR n).
  set (R := csum n (fun i => cmul (creal (INR i)) (root n (Z.of_nat i * kz)))). exists (cmul (creal (1 / INR n)) R). pose proof n_nz as NZ. split.
  - pose proof (f_equal modulus ramp_sum) as E. rewrite modulus_mul, step_modulus, modulus_real, Rabs_Ropp, Rabs_pos_eq in E by apply pos_INR. fold R in E. rewrite modulus_mul, modulus_real, Rabs_pos_eq. 2: { apply Rmult_le_pos; [lra|]. left. apply Rinv_0_lt_compat, lt_0_INR. lia. }
    assert (S0 : 2 * sin (PI * INR k / INR n) <> 0) by (intros Z; rewrite Z in E; lra). apply (Rmult_eq_reg_l (2 * sin (PI * INR k / INR n))); [|exact S0]. transitivity (2 * sin (PI * INR k / INR n) * modulus R * (1 / INR n)); [ring|]. rewrite E. field. split; [|exact NZ]. intros Z; apply S0; rewrite Z; ring.
  - unfold component. rewrite (csum_ext n _ (fun i => cadd (cmul (creal A) (cmul (creal (cos (2 * PI * INR k * INR i / INR n - phi))) (root n (Z.of_nat i * kz)))) (cadd (cmul (creal (o - f 0%nat)) (root n (Z.of_nat i * kz))) (cmul (creal (- tilt)) (cmul (creal (INR i)) (root n (Z.of_nat i * kz))))))).
    + rewrite csum_add, csum_add, !csum_mul_l. rewrite half_tone, sum_root. fold R. apply c_ext; unfold phasor, creal, c0, c1, cmul, csub, cadd, copp; cbn [fst snd]; field; exact NZ.
    + intros i I. rewrite carrier_root. unfold above_line. fold tilt. unfold f at 1. apply c_ext; unfold creal, cadd, cmul; cbn [fst snd]; ring.
Qed.
End Tone.
