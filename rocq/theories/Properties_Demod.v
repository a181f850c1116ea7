(* C106: demodulation of a signal. *)
From Coq Require Import Reals List ZArith Arith Lra Lia Bool.
From Verif Require Import PyBase PyLemmas Fourier DemodModel DemodSpec DemodProofs.
Local Open Scope R_scope.

Theorem C106_defined : forall nt f fc fs c, (exists r, demodulate nt f fc fs c = Ok r) <-> fs <> 0 /\ (0 < nt)%nat.
Proof.
  intros nt f fc fs c. unfold demodulate. destruct (Req_EM_T fs 0) as [Z|Z]; [split; [intros [r H]; discriminate|tauto]|]. destruct (Nat.eqb_spec nt 0) as [N|N]; [split; [intros [r H]; discriminate|intros [_ H]; lia]|].
  split; [intros _; split; [exact Z|lia]|]. intros _. destruct c; eexists; reflexivity.
Qed.
Print Assumptions C106_defined.

(* the amplitude and the phase are those of twice the component at the carrier *)
Theorem C106_simple : forall nt f fc fs v p, demodulate nt f fc fs false = Ok (v, p) ->
  phasor v p = cmul (creal 2) (component nt (above_line (nt - 1) (INR nt) f) fc fs) /\ 0 <= v /\ - PI < p <= PI.
Proof.
  intros nt f fc fs v p H. destruct (proj1 (C106_defined nt f fc fs false) (ex_intro _ _ H)) as [FS NT]. rewrite demodulate_simple in H by assumption. set (z := component nt _ fc fs) in *.
  assert (V : v = 2 * modulus z) by exact (eq_sym (f_equal (fun r => match r with Ok x => fst x | Err _ => 0 end) H)). assert (P : p = atan2 (snd z) (fst z)) by exact (eq_sym (f_equal (fun r => match r with Ok x => snd x | Err _ => 0 end) H)). clear H. clearbody z. subst v p. split; [|split; [pose proof (modulus_pos z); lra|apply atan2_range]].
  destruct (atan2_polar (snd z) (fst z)) as [A B]. rewrite <- modulus_hyp in A, B. unfold phasor, creal, cis, cmul. apply c_ext; cbn [fst snd].
  - transitivity (2 * (modulus z * cos (atan2 (snd z) (fst z)))); [ring|]. rewrite A. ring.
  - transitivity (2 * (modulus z * sin (atan2 (snd z) (fst z)))); [ring|]. rewrite B. ring.
Qed.
Print Assumptions C106_simple.
(* cumulated: the mean amplitude of the last windows, each of which starts at the first sample and is free of its line *)
Theorem C106_cumulated : forall nt f fc fs v p, (2 < nt)%nat -> demodulate nt f fc fs true = Ok (v, p) ->
  exists k, k = Nat.max 1 (Nat.min (n4mean nt fc fs) (nt - 2)) /\ v = rsum k (fun i => amplitude f fc fs (nt - k + i)) / INR k.
Proof.
  intros nt f fc fs v p N H. apply value_cumulated in H. subst v. eexists. split; [reflexivity|]. unfold last_mean. set (n4 := n4mean nt fc fs). destruct (Nat.ltb_spec (nt - 2 - n4) (nt - 2)) as [L|L].
  - replace (Nat.max 1 (Nat.min n4 (nt - 2))) with (nt - 2 - (nt - 2 - n4))%nat by lia. unfold mean. f_equal. apply rsum_ext. intros i I. f_equal. lia.
  - replace (Nat.max 1 (Nat.min n4 (nt - 2))) with 1%nat by lia. destruct (Nat.ltb_spec 0 (nt - 2)); [|lia]. cbn [rsum]. replace (nt - 1 + 0)%nat with (nt - 2 - 1 + 2)%nat by lia. change (INR 1) with 1. field.
Qed.
Print Assumptions C106_cumulated.
Theorem C106_short : forall nt f fc fs v p, (nt <= 2)%nat -> demodulate nt f fc fs true = Ok (v, p) -> v = 0.
Proof.
  intros nt f fc fs v p N H. apply value_cumulated in H. subst v. unfold last_mean. replace (nt - 2)%nat with 0%nat by lia. reflexivity.
Qed.
Print Assumptions C106_short.

(* a constant does not matter; the amplitude follows the size of the signal, the phase does not *)
Theorem C106_offset : forall nt f o fc fs c, demodulate nt (fun i => f i + o) fc fs c = demodulate nt f fc fs c.
Proof. intros. apply demodulate_ext. intros. apply above_offset. Qed.
Print Assumptions C106_offset.
Theorem C106_scale : forall nt f a fc fs c v p v' p', demodulate nt f fc fs c = Ok (v, p) -> demodulate nt (fun i => a * f i) fc fs c = Ok (v', p') ->
  v' = Rabs a * v /\ (0 < a -> p' = p).
Proof.
  intros nt f a fc fs c v p v' p' H H'. destruct (proj1 (C106_defined nt f fc fs c) (ex_intro _ _ H)) as [FS NT].
  assert (CE : forall n l d, component n (above_line l d (fun i => a * f i)) fc fs = cmul (creal a) (component n (above_line l d f) fc fs)) by (intros; rewrite <- component_scale; apply component_ext; intros; apply above_scale).
  assert (F : forall z, fst (cmul (creal a) z) = a * fst z) by (intros z; unfold cmul, creal; cbn [fst snd]; ring). assert (S : forall z, snd (cmul (creal a) z) = a * snd z) by (intros z; unfold cmul, creal; cbn [fst snd]; ring).
  destruct c.
  - split.
    + apply value_cumulated in H, H'. subst v v'. rewrite <- last_mean_scale. apply last_mean_ext. intros k K. apply amplitude_scale.
    + intros A. unfold demodulate in H, H'. destruct (Req_EM_T fs 0); [contradiction|]. destruct (Nat.eqb_spec nt 0); [lia|]. cbv zeta in H, H'. rewrite reference_component in H, H'. rewrite CE, F, S, atan2_scale in H' by exact A. set (phi := atan2 _ _) in *.
      apply (f_equal (fun r => match r with Ok x => snd x | Err _ => 0 end)) in H, H'. cbn [snd] in H, H'. subst p p'. f_equal. apply last_mean_ext. intros k K. set (j := (k + 2)%nat). destruct (window_means f fc fs phi j) as [-> ->]. destruct (window_means (fun i => a * f i) fc fs phi j) as [-> ->].
      assert (ME : forall g, mean (Datatypes.S j) (fun i => above_line j (INR j) (fun i => a * f i) i * g i) = a * mean (Datatypes.S j) (fun i => above_line j (INR j) f i * g i)).
      { intros g. unfold mean. rewrite (rsum_ext _ _ (fun i => a * (above_line j (INR j) f i * g i))) by (intros i I; rewrite above_scale; ring). rewrite rsum_mul_l. unfold Rdiv. ring. }
      rewrite !ME. now apply atan2_scale.
  - rewrite demodulate_simple in H, H' by assumption. rewrite CE in H'. set (z := component nt _ fc fs) in *. split.
    + assert (v = 2 * modulus z) by exact (eq_sym (f_equal (fun r => match r with Ok x => fst x | Err _ => 0 end) H)). assert (v' = 2 * modulus (cmul (creal a) z)) by exact (eq_sym (f_equal (fun r => match r with Ok x => fst x | Err _ => 0 end) H')). clear H H'. clearbody z. subst v v'. rewrite modulus_mul, modulus_real. ring.
    + intros A. assert (p = atan2 (snd z) (fst z)) by exact (eq_sym (f_equal (fun r => match r with Ok x => snd x | Err _ => 0 end) H)). assert (p' = atan2 (snd (cmul (creal a) z)) (fst (cmul (creal a) z))) by exact (eq_sym (f_equal (fun r => match r with Ok x => snd x | Err _ => 0 end) H')). clear H H'. clearbody z. subst p p'. rewrite F, S. now apply atan2_scale.
Qed.
Print Assumptions C106_scale.
(* cumulated, the amplitude is not disturbed by a drift *)
Theorem C106_ramp : forall nt f a b fc fs v p v' p', demodulate nt f fc fs true = Ok (v, p) -> demodulate nt (fun i => f i + a + b * INR i) fc fs true = Ok (v', p') -> v' = v.
Proof.
  intros nt f a b fc fs v p v' p' H H'. apply value_cumulated in H, H'. subst v v'. apply last_mean_ext. intros k K. unfold amplitude. do 2 f_equal. apply component_ext. intros i I. apply above_ramp. lia.
Qed.
Print Assumptions C106_ramp.
Lemma rsum_S n f : rsum (S n) f = rsum n f + f n. Proof. reflexivity. Qed.
Lemma rsum_O f : rsum 0 f = 0. Proof. reflexivity. Qed.
(* but in one pass it is: a drift alone has an amplitude *)
Theorem C106_ramp_refuted : exists nt fc fs b v p, demodulate nt (fun i => b * INR i) fc fs false = Ok (v, p) /\ 0 < v.
Proof.
  exists 2%nat, 1, 2, 1. eexists. eexists. split; [apply demodulate_simple; [lra|lia]|]. set (z := component _ _ _ _). assert (F : fst z = - (1 / 4)).
  { unfold z. rewrite fst_component. unfold mean, omega, time. rewrite !rsum_S, !rsum_O. unfold above_line. cbn [Nat.sub]. change (INR 0) with 0. change (INR 1) with 1. change (INR 2) with (1 + 1). replace (2 * PI * 1 * (1 * (1 / 2))) with PI by field. rewrite cos_PI. field. }
  assert (A : 0 < abs2 z) by (unfold abs2; rewrite F; nra). apply Rmult_lt_0_compat; [lra|]. now apply sqrt_lt_R0.
Qed.
Print Assumptions C106_ramp_refuted.

(* a tone with a whole number k of periods: the error of the measured phasor is the difference of the ends *)
Theorem C106_tone : forall nt k fc fs o A phi v p, let f := fun i => o + A * cos (2 * PI * INR k * INR i / INR nt - phi) in
  fc * INR nt = INR k * fs -> (0 < k)%nat -> (2 * k < nt)%nat -> demodulate nt f fc fs false = Ok (v, p) ->
  modulus (csub (phasor v p) (phasor A phi)) = Rabs (f (nt - 1)%nat - f 0%nat) / (INR nt * sin (PI * INR k / INR nt)).
Proof.
  intros nt k fc fs o A phi v p f R K0 K1 H. destruct (proj1 (C106_defined nt f fc fs false) (ex_intro _ _ H)) as [FS NT]. destruct (C106_simple _ _ _ _ _ _ H) as [-> _].
  destruct (tone_component nt k fc fs FS NT R K0 K1 o A phi (nt - 1)) as [ramp [M E]]. change (cmul (creal 2) (component nt (above_line (nt - 1) (INR nt) f) fc fs) = csub (phasor A phi) (cmul (creal (2 * ((f (nt - 1)%nat - f 0%nat) / INR nt))) ramp)) in E. rewrite E. clear E. set (d := f (nt - 1)%nat - f 0%nat). clearbody d.
  replace (csub (csub (phasor A phi) (cmul (creal (2 * (d / INR nt))) ramp)) (phasor A phi)) with (cmul (creal (- (2 * (d / INR nt)))) ramp) by (apply c_ext; unfold phasor, csub, cadd, copp, cmul, creal; cbn [fst snd]; ring).
  assert (N : 0 < INR nt) by (apply lt_0_INR; lia). assert (AB : Rabs (2 * (d / INR nt)) = 2 * (Rabs d / INR nt)) by (unfold Rdiv; rewrite !Rabs_mult, (Rabs_pos_eq 2) by lra; rewrite (Rabs_pos_eq (/ INR nt)) by (left; now apply Rinv_0_lt_compat); reflexivity). rewrite modulus_mul, modulus_real, M, Rabs_Ropp, AB.
  assert (S0 : sin (PI * INR k / INR nt) <> 0). { pose proof (step_modulus nt k NT K0 K1) as Q. intros Z. rewrite Z in Q. apply (root_not_one nt (Z.of_nat k)); [exact NT|apply not_div; lia|]. unfold modulus in Q. replace (2 * 0) with 0 in Q by ring. apply sqrt_eq_0 in Q; [|apply abs2_nonneg]. unfold abs2 in Q. apply c_ext; cbn [c0 fst snd]; nra. }
  field. split; [exact S0|lra].
Qed.
Print Assumptions C106_tone.
(* so the amplitude and the phase are exact when the ends are equal, *)
Theorem C106_tone_exact : forall nt k fc fs o A phi v p, let f := fun i => o + A * cos (2 * PI * INR k * INR i / INR nt - phi) in
  fc * INR nt = INR k * fs -> (0 < k)%nat -> (2 * k < nt)%nat -> 0 <= A -> f (nt - 1)%nat = f 0%nat -> demodulate nt f fc fs false = Ok (v, p) ->
  v = A /\ (0 < A -> cos p = cos phi /\ sin p = sin phi).
Proof.
  intros nt k fc fs o A phi v p f R K0 K1 PA E H. pose proof (C106_tone nt k fc fs o A phi v p R K0 K1 H) as T. fold f in T. rewrite E in T. replace (f 0%nat - f 0%nat) with 0 in T by ring. rewrite Rabs_R0 in T. unfold Rdiv in T. rewrite Rmult_0_l in T. unfold modulus in T. apply sqrt_eq_0 in T; [|apply abs2_nonneg].
  destruct (C106_simple _ _ _ _ _ _ H) as [_ [V _]]. unfold abs2, csub, cadd, copp, phasor, cmul, creal, cis in T. cbn [fst snd] in T.
  assert (T' : (v * cos p - A * cos phi) * (v * cos p - A * cos phi) + (v * sin p - A * sin phi) * (v * sin p - A * sin phi) = 0) by (rewrite <- T; ring). clear T. 
  assert (SZ : forall x y, x * x + y * y = 0 -> x = 0 /\ y = 0) by (intros x y Q; split; nra). apply SZ in T'. destruct T' as [X Y]. assert (X' : v * cos p = A * cos phi) by lra. assert (Y' : v * sin p = A * sin phi) by lra. clear X Y. rename X' into X. rename Y' into Y. pose proof (sin2_cos2 p) as SP. pose proof (sin2_cos2 phi) as SQ. unfold Rsqr in SP, SQ.
  assert (V2 : v * v = A * A). { transitivity ((v * cos p) * (v * cos p) + (v * sin p) * (v * sin p)); [transitivity (v * v * (sin p * sin p + cos p * cos p)); [rewrite SP; ring|ring]|]. rewrite X, Y. transitivity (A * A * (sin phi * sin phi + cos phi * cos phi)); [ring|rewrite SQ; ring]. }
  assert (VA : v = A) by nra. split; [exact VA|]. intros A0. rewrite VA in X, Y. split; apply (Rmult_eq_reg_l A); lra.
Qed.
Print Assumptions C106_tone_exact.
(* and otherwise the amplitude is wrong by no more than the difference of the ends, shrinking with the number of periods *)
Theorem C106_tone_amplitude : forall nt k fc fs o A phi v p, let f := fun i => o + A * cos (2 * PI * INR k * INR i / INR nt - phi) in
  fc * INR nt = INR k * fs -> (0 < k)%nat -> (2 * k < nt)%nat -> 0 <= A -> demodulate nt f fc fs false = Ok (v, p) ->
  Rabs (v - A) <= Rabs (f (nt - 1)%nat - f 0%nat) / (INR nt * sin (PI * INR k / INR nt)).
Proof.
  intros nt k fc fs o A phi v p f R K0 K1 PA H. pose proof (C106_tone nt k fc fs o A phi v p R K0 K1 H) as T. fold f in T. rewrite <- T. clear T. destruct (C106_simple _ _ _ _ _ _ H) as [_ [V _]].
  assert (M : forall a t, 0 <= a -> modulus (phasor a t) = a). { intros a t P. unfold phasor. rewrite modulus_mul, modulus_real, modulus_cis, Rabs_pos_eq by exact P. ring. }
  rewrite <- (M v p V) at 1. rewrite <- (M A phi PA) at 1. apply modulus_sub.
Qed.
Print Assumptions C106_tone_amplitude.
(* it is wrong: one period of four samples has 5/8 of the power *)
Theorem C106_tone_refuted : exists nt k fc fs A v p, fc * INR nt = INR k * fs /\ (0 < k)%nat /\ (2 * k < nt)%nat /\
  demodulate nt (fun i => A * cos (2 * PI * INR k * INR i / INR nt)) fc fs false = Ok (v, p) /\ v * v = 5 / 8 * (A * A) /\ 0 < A.
Proof.
  exists 4%nat, 1%nat, 1, 4, 1. eexists. eexists. split; [cbn [INR]; ring|]. split; [lia|]. split; [lia|]. split; [apply demodulate_simple; [lra|lia]|]. split; [|lra]. set (z := component _ _ _ _).
  assert (C0 : cos 0 = 1) by apply cos_0. assert (C1 : cos (PI / 2) = 0) by apply cos_PI2. assert (C3 : cos (3 * (PI / 2)) = 0) by apply cos_3PI2. assert (S3 : sin (3 * (PI / 2)) = -1) by apply sin_3PI2.
  assert (F : fst z = 3 / 8 /\ snd z = - (1 / 8)).
  { unfold z. rewrite fst_component, snd_component. unfold mean, omega, time. rewrite !rsum_S, !rsum_O. unfold above_line. cbn [Nat.sub INR].
    replace (2 * PI * 1 * 0 / (1 + 1 + 1 + 1)) with 0 by field. replace (2 * PI * 1 * 1 / (1 + 1 + 1 + 1)) with (PI / 2) by field. replace (2 * PI * 1 * (1 + 1) / (1 + 1 + 1 + 1)) with PI by field. replace (2 * PI * 1 * (1 + 1 + 1) / (1 + 1 + 1 + 1)) with (3 * (PI / 2)) by field.
    replace (2 * PI * 1 * (0 * (1 / 4))) with 0 by field. replace (2 * PI * 1 * (1 * (1 / 4))) with (PI / 2) by field. replace (2 * PI * 1 * ((1 + 1) * (1 / 4))) with PI by field. replace (2 * PI * 1 * ((1 + 1 + 1) * (1 / 4))) with (3 * (PI / 2)) by field.
    rewrite cos_0, sin_0, C1, C3, S3, cos_PI, sin_PI, sin_PI2. split; field. }
  destruct F as [F S]. transitivity (4 * (modulus z * modulus z)); [ring|]. rewrite modulus_sq. unfold abs2. rewrite F, S. field.
Qed.
Print Assumptions C106_tone_refuted.

(* ------------------------------------------------------------------- the averaged windows *)
Lemma floor_spec x : IZR (Int_part x) <= x < IZR (Int_part x) + 1.
Proof. pose proof (base_Int_part x) as [A B]. lra. Qed.
Lemma floor_unique x z : IZR z <= x < IZR z + 1 -> Int_part x = z.
Proof.
  intros [A B]. pose proof (floor_spec x) as [C D]. assert (IZR (Int_part x) < IZR (z + 1)) by (rewrite plus_IZR; lra). assert (IZR z < IZR (Int_part x + 1)) by (rewrite plus_IZR; lra). apply lt_IZR in H, H0. lia.
Qed.
Lemma last_close_lt fc fs p j : last_close fc fs p = Some j -> (j < p)%nat.
Proof. induction p as [|p IH]; cbn [last_close]; [discriminate|]. destruct (Rle_dec _ _); intros H; [injection H as <-; lia|]. apply IH in H. lia. Qed.
Lemma first_min_lt fc fs p : (0 < p)%nat -> (first_min fc fs p < p)%nat.
Proof. induction p as [|p IH]; intros H; [lia|]. cbn [first_min]. destruct (Rlt_dec _ _); [lia|]. destruct p; [cbn; lia|]. specialize (IH ltac:(lia)). lia. Qed.
(* there are never more than there are samples after the first *)
Theorem C106_windows : forall nt fc fs, 0 < fs -> (n4mean nt fc fs <= Nat.max 1 (nt - 1))%nat.
Proof.
  intros nt fc fs FS. unfold n4mean. destruct (Z.to_nat (Int_part (max_time nt fs * fc))) as [|p0] eqn:E; [pose proof (Nat.div_le_upper_bound nt 4 nt); pose proof (Nat.div_lt nt 4); destruct nt as [|[|n]]; cbn [Nat.sub]; [cbn; lia|cbn; lia|]; specialize (H0 ltac:(lia) ltac:(lia)); lia|]. set (p := S p0) in *.
  set (j := match last_close fc fs p with Some j => j | None => first_min fc fs p end). assert (J : (j < p)%nat). { unfold j. destruct (last_close fc fs p) as [i|] eqn:L; [eapply last_close_lt; exact L|apply first_min_lt; unfold p; lia]. }
  assert (I : Int_part (max_time nt fs * fc) = Z.of_nat p) by lia. pose proof (floor_spec (max_time nt fs * fc)) as [A _]. rewrite I, <- INR_IZR_INZ in A.
  assert (P0 : 0 < INR p) by (apply lt_0_INR; unfold p; lia). assert (I0 : 0 < / fs) by now apply Rinv_0_lt_compat.
  assert (T : max_time nt fs = INR (nt - 1) / fs). { unfold max_time, time. rewrite Rmax_right; [unfold Rdiv; ring|]. apply Rmult_le_pos; [apply pos_INR|]. unfold Rdiv. lra. }
  assert (T0 : 0 <= max_time nt fs) by (unfold max_time; apply Rmax_l). assert (FC : 0 < fc) by (destruct (Rlt_dec 0 fc); [assumption|exfalso; nra]).
  assert (V : test_vect fc fs j <= INR (nt - 1)).
  { unfold test_vect. apply Rmult_le_reg_r with (fc * / fs); [apply Rmult_lt_0_compat; assumption|]. replace (INR (S j) * fs / fc * (fc * / fs)) with (INR (S j)) by (field; split; lra). rewrite T in A. assert (INR (S j) <= INR p) by (apply le_INR; lia). unfold Rdiv in A. lra. }
  pose proof (floor_spec (test_vect fc fs j)) as [B _]. assert (Z : (Int_part (test_vect fc fs j) <= Z.of_nat (nt - 1))%Z) by (apply le_IZR; rewrite <- INR_IZR_INZ; lra). lia.
Qed.
Print Assumptions C106_windows.
(* when N samples are one period, the averaged windows are a whole number of periods, as many as fit *)
Theorem C106_whole_periods : forall nt fc N, 0 < fc -> (0 < N)%nat -> (N < nt)%nat -> (n4mean nt fc (INR N * fc) = N * ((nt - 1) / N))%nat.
Proof.
  intros nt fc N FC N0 L. assert (NR : 0 < INR N) by now apply lt_0_INR. unfold n4mean.
  assert (T : max_time nt (INR N * fc) * fc = INR (nt - 1) / INR N). { unfold max_time, time. rewrite Rmax_right; [field; split; lra|]. apply Rmult_le_pos; [apply pos_INR|]. unfold Rdiv. rewrite Rmult_1_l. left. apply Rinv_0_lt_compat. nra. }
  assert (I : Int_part (max_time nt (INR N * fc) * fc) = Z.of_nat ((nt - 1) / N)).
  { rewrite T. apply floor_unique. rewrite <- INR_IZR_INZ. pose proof (Nat.div_mod (nt - 1) N ltac:(lia)) as D. pose proof (Nat.mod_upper_bound (nt - 1) N ltac:(lia)) as U. apply (f_equal INR) in D. rewrite plus_INR, mult_INR in D. apply lt_INR in U. pose proof (pos_INR ((nt - 1) mod N)). split.
    - apply Rmult_le_reg_r with (INR N); [exact NR|]. unfold Rdiv. rewrite Rmult_assoc, Rinv_l, Rmult_1_r by lra. nra.
    - apply Rmult_lt_reg_r with (INR N); [exact NR|]. unfold Rdiv. rewrite Rmult_assoc, Rinv_l, Rmult_1_r by lra. nra. }
  rewrite I, Nat2Z.id. assert (P : (0 < (nt - 1) / N)%nat) by (apply Nat.div_str_pos; lia). set (p := ((nt - 1) / N)%nat) in *. destruct p as [|q]; [lia|].
  assert (TV : forall j, test_vect fc (INR N * fc) j = INR (S j * N)) by (intros j; unfold test_vect; rewrite mult_INR; field; lra).
  cbn [last_close]. destruct (Rle_dec (error fc (INR N * fc) q) (1 / 1000)) as [_|X].
  - rewrite TV, Int_part_INR, Nat2Z.id. lia.
  - exfalso. apply X. unfold error, frac_part. rewrite TV, Int_part_INR, <- INR_IZR_INZ. rewrite Rmin_left; lra.
Qed.
Print Assumptions C106_whole_periods.

(* ------------------------------------------------------------------- examples *)
(* a tone whose ends are equal: three samples of one period, starting at the crest between the last and the first *)
Example C106_tone_example : exists nt k fc fs A phi, let f := fun i => 5 + A * cos (2 * PI * INR k * INR i / INR nt - phi) in
  fc * INR nt = INR k * fs /\ (0 < k)%nat /\ (2 * k < nt)%nat /\ 0 < A /\ f (nt - 1)%nat = f 0%nat /\ f 0%nat <> f 1%nat.
Proof.
  exists 3%nat, 1%nat, 1, 3, 2, (2 * PI / 3). cbv zeta. cbn [INR Nat.sub]. split; [ring|]. split; [lia|]. split; [lia|]. split; [lra|].
  replace (2 * PI * 1 * (1 + 1) / (1 + 1 + 1) - 2 * PI / 3) with (2 * (PI / 3)) by field. replace (2 * PI * 1 * 0 / (1 + 1 + 1) - 2 * PI / 3) with (- (2 * (PI / 3))) by field. replace (2 * PI * 1 * 1 / (1 + 1 + 1) - 2 * PI / 3) with 0 by field. rewrite cos_neg, cos_0, cos_2a_cos, cos_PI3. split; [reflexivity|lra].
Qed.
Example C106_periods_example : n4mean 1000 5 (INR 100 * 5) = 900%nat.
Proof. rewrite (C106_whole_periods 1000 5 100); [reflexivity|lra|lia|lia]. Qed.
