(* C113: periodic and random signals (WaveGenerator, RandomGenerator). *)
From Coq Require Import Reals ZArith List Bool Arith Lia Lra.
From Verif Require Import PyBase PyLemmas Arith ZernModel ZernSpec ZernProofs WaveModel WaveSpec WaveProofs.
Import ListNotations.
Local Open Scope R_scope.

(* vectors among the arguments, all of the same length *)
Definition same_length (k : nat) (ps : list param) : Prop := forall l, In (Ve l) ps -> length l = k.

(* waves *)
Theorem C113_wave_accepted kd amp freq offset const slope vsize o :
  (exists w, wave_init kd amp freq offset const slope vsize o = Ok w) <-> kd <> OtherWave /\ exists k, same_length k [amp; freq; offset; slope; const].
Proof.
  unfold wave_init. assert (V : (exists n, validate [amp; freq; offset; slope; const] = Ok n) <-> exists k, same_length k [amp; freq; offset; slope; const]).
  { split.
    - intros [n H]. apply validate_ok in H. destruct H as [[H _]|[_ H]]; [exists 0%nat; intros l Hl; destruct (H _ Hl); discriminate|now exists n].
    - intros [k H]. destruct (validate_err [amp; freq; offset; slope; const]) as [[n N]|N]; [now exists n|]. exfalso. unfold validate in N. destruct (sizes [amp; freq; offset; slope; const]) as [|n r] eqn:E; [discriminate|].
      assert (A : forall y, In y (n :: r) -> y = k). { intros y Hy. rewrite <- E in Hy. unfold sizes in Hy. apply in_flat_map in Hy. destruct Hy as ([x|l] & H1 & H2); [destruct H2|]. destruct H2 as [<-|[]]. now apply H. }
      replace (forallb (Nat.eqb n) r) with true in N; [discriminate|]. symmetry. apply forallb_forall. intros y Hy. apply Nat.eqb_eq. rewrite (A y) by (now right). apply A. now left. }
  rewrite <- V. destruct kd; try (split; [intros [w H]; apply bind_ok in H as (n & N & _); split; [discriminate|now exists n]|intros [_ [n N]]; rewrite N; cbn [bind]; now eexists]).
  split; [intros [w H]; discriminate|intros [H _]; now destruct H].
Qed.
Print Assumptions C113_wave_accepted.
Theorem C113_wave_refused kd amp freq offset const slope vsize o : (forall w, wave_init kd amp freq offset const slope vsize o <> Ok w) -> wave_init kd amp freq offset const slope vsize o = Err ValueError.
Proof.
  intros H. unfold wave_init in *. destruct kd; try reflexivity; destruct (validate_err [amp; freq; offset; slope; const]) as [[n N]|N]; rewrite N in *; try reflexivity; cbn [bind] in H; exfalso; now eapply H.
Qed.
Print Assumptions C113_wave_refused.

(* k elements: the length of the vectors, or, without vectors, [vsize] *)
Definition elements (k : nat) (ps : list param) (vsize : nat) : Prop := (1 <= k)%nat /\ same_length k ps /\ if existsb (fun p => match p with Ve _ => true | _ => false end) ps then (vsize = 1 \/ vsize = k)%nat else k = vsize.
Lemma no_vectors ps : existsb (fun p => match p with Ve _ => true | _ => false end) ps = false -> forall p, In p ps -> exists x, p = Sc x.
Proof. intros E [x|l] H; [now exists x|]. exfalso. assert (T : existsb (fun p => match p with Ve _ => true | _ => false end) ps = true) by (apply existsb_exists; exists (Ve l); now split). congruence. Qed.
Lemma with_vectors ps : existsb (fun p => match p with Ve _ => true | _ => false end) ps = true -> exists l, In (Ve l) ps.
Proof. intros E. apply existsb_exists in E. destruct E as ([x|l] & H & T); [discriminate|]. now exists l. Qed.
Lemma same_fits k ps p : same_length k ps -> In p ps -> fits k (values p).
Proof. intros S H. destruct p as [x|l]; [now left|]. right. now apply S. Qed.
Theorem C113_wave kd amp freq offset const slope vsize o k t : kd <> OtherWave -> elements k [amp; freq; offset; slope; const] vsize -> (o = 1 \/ o = k)%nat ->
  exists w v, wave_init kd amp freq offset const slope vsize o = Ok w /\ wave_trigger w t = Ok v /\ length v = k /\
    forall i, (i < k)%nat -> nth i v 0 = at_ (values slope) i * t + at_ (values amp) i * shape_of kd (2 * PI * at_ (values freq) i * t + at_ (values offset) i) + at_ (values const) i.
Proof.
  intros K (Hk & S & E) O. set (ps := [amp; freq; offset; slope; const]) in *.
  assert (A : exists n, validate ps = Ok n /\ (if existsb (fun p => match p with Ve _ => true | _ => false end) ps then n = k else n = 1)%nat).
  { destruct (existsb (fun p => match p with Ve _ => true | _ => false end) ps) eqn:X.
    - exists k. split; [|reflexivity]. apply validate_ok. right. split; [now apply with_vectors|exact S].
    - exists 1%nat. split; [|reflexivity]. apply validate_ok. left. split; [now apply no_vectors|reflexivity]. }
  destruct A as (n & V & N).
  set (o1 := if (o =? 1)%nat then longest ps else o). set (o2 := if ((o1 =? 1) && (1 <? vsize))%nat then vsize else o1).
  assert (I : wave_init kd amp freq offset const slope vsize o = Ok (mkW kd amp freq offset slope const vsize o2)). { unfold wave_init. fold ps. fold o1. fold o2. rewrite V. destruct kd; try reflexivity. now destruct K. }
  assert (O2 : o2 = k).
  { assert (L : longest ps = n). { apply longest_valid; [exact V|discriminate|]. destruct (existsb _ ps); lia. }
    unfold o2, o1. rewrite L. destruct (existsb (fun p => match p with Ve _ => true | _ => false end) ps) eqn:X; subst n.
    - destruct (Nat.eqb_spec o 1) as [->|N1].
      + destruct (Nat.eqb_spec k 1) as [->|]; [|reflexivity]. cbn [andb]. destruct (Nat.ltb_spec 1 vsize); [lia|reflexivity].
      + replace o with k by lia. destruct (Nat.eqb_spec k 1); [lia|reflexivity].
    - subst k. destruct (Nat.eqb_spec o 1) as [->|N1].
      + cbn [Nat.eqb andb]. destruct (Nat.ltb_spec 1 vsize); [reflexivity|lia].
      + replace o with vsize by lia. destruct (Nat.eqb_spec vsize 1); [lia|reflexivity]. }
  exists (mkW kd amp freq offset slope const vsize o2).
  destruct (wave_value (mkW kd amp freq offset slope const vsize o2) k t Hk) as (v & Tr & Lv & Nv); cbn [w_amp w_freq w_offset w_slope w_const w_vsize w_out w_kind];
    try (apply (same_fits k ps); [exact S|cbn; tauto]); [destruct (existsb _ ps); lia|exact O2|].
  exists v. repeat split; [exact I|exact Tr|exact Lv|]. intros i Hi. rewrite (Nv i Hi). cbn [w_amp w_freq w_offset w_slope w_const w_vsize w_out w_kind]. do 2 f_equal. f_equal. f_equal. ring.
Qed.
Print Assumptions C113_wave.
Example C113_wave_example : exists w, wave_init Sin (Ve [2; 3]) (Sc (1 / 4)) (Sc 0) (Sc 1) (Sc 0) 1 1 = Ok w /\ wave_trigger w 1 = Ok [2 * 1 + 1; 3 * 1 + 1].
Proof.
  destruct (C113_wave Sin (Ve [2; 3]) (Sc (1 / 4)) (Sc 0) (Sc 1) (Sc 0) 1 1 2 1) as (w & v & I & T & L & V); [discriminate| |now left|].
  - split; [lia|]. split; [|now left]. intros l [E|[E|[E|[E|[E|[]]]]]]; try discriminate E. injection E as <-. reflexivity.
  - exists w. split; [exact I|]. rewrite T. destruct v as [|a [|b [|c v]]]; try discriminate. assert (A := V 0%nat ltac:(lia)). assert (B := V 1%nat ltac:(lia)). cbn in A, B. replace (2 * PI * (1 / 4) * 1 + 0) with (PI / 2) in A, B by field. rewrite sin_PI2 in A, B. f_equal. f_equal; [lra|f_equal; lra].
Qed.

(* shapes *)
Theorem C113_bounds kd p : -1 <= shape_of kd p <= 1.
Proof.
  assert (P := PI_RGT_0). destruct kd; cbn [shape_of]; [apply SIN_bound| | |lra].
  - unfold sign. destruct (Rlt_dec 0 (sin p)); [lra|]. destruct (Rlt_dec (sin p) 0); lra.
  - assert (B := asin_bound (sin p)). split; apply (Rmult_le_reg_r PI); try exact P; unfold Rdiv; rewrite Rmult_assoc, Rinv_l by lra; lra.
Qed.
Print Assumptions C113_bounds.
Theorem C113_periodic kd f t o : f <> 0 -> shape_of kd (2 * PI * f * (t + 1 / f) + o) = shape_of kd (2 * PI * f * t + o).
Proof.
  intros H. assert (E : sin (2 * PI * f * (t + 1 / f) + o) = sin (2 * PI * f * t + o)). { replace (2 * PI * f * (t + 1 / f) + o) with (2 * PI * f * t + o + 2 * INR 1 * PI) by (cbn [INR]; field; exact H). apply sin_period. }
  destruct kd; cbn [shape_of]; rewrite ?E; reflexivity.
Qed.
Print Assumptions C113_periodic.
Theorem C113_half_wave kd p : shape_of kd (p + PI) = - shape_of kd p.
Proof.
  destruct kd; cbn [shape_of]; rewrite ?neg_sin; [reflexivity| | |ring].
  - unfold sign. destruct (Rlt_dec 0 (- sin p)), (Rlt_dec 0 (sin p)), (Rlt_dec (- sin p) 0), (Rlt_dec (sin p) 0); lra.
  - rewrite asin_opp. unfold Rdiv. ring.
Qed.
Print Assumptions C113_half_wave.
Theorem C113_square p : 0 < p < PI -> shape_of Square p = 1 /\ shape_of Square (p + PI) = -1.
Proof. intros H. assert (S : shape_of Square p = 1). { cbn [shape_of]. unfold sign. destruct (Rlt_dec 0 (sin p)) as [L|L]; [reflexivity|]. exfalso. apply L, sin_gt_0; lra. } split; [exact S|]. rewrite C113_half_wave, S. ring. Qed.
Print Assumptions C113_square.
(* the square wave has a third value, at the edges *)
Theorem C113_two_values_refuted : exists k, shape_of Square (INR k * PI) <> 1 /\ shape_of Square (INR k * PI) <> -1.
Proof. exists 0%nat. cbn [INR]. rewrite Rmult_0_l. cbn [shape_of]. rewrite sin_0. unfold sign. destruct (Rlt_dec 0 0); lra. Qed.
Print Assumptions C113_two_values_refuted.
Theorem C113_triangle p : - (PI / 2) <= p <= PI / 2 -> shape_of Triangle p = p / (PI / 2) /\ shape_of Triangle (PI - p) = shape_of Triangle p.
Proof.
  intros H. assert (P := PI_RGT_0). cbn [shape_of]. rewrite <- sin_PI_x with (x := PI - p). replace (PI - (PI - p)) with p by ring. rewrite asin_sin by lra. split; [field; lra|reflexivity].
Qed.
Print Assumptions C113_triangle.
(* arguments that are accepted, with every frame failing *)
Theorem C113_accepted_fails_refuted : exists amp vsize o w, wave_init Sin amp (Sc 1) (Sc 0) (Sc 0) (Sc 0) vsize o = Ok w /\ forall t, wave_trigger w t = Err ValueError.
Proof. exists (Ve [1; 2]), 1%nat, 3%nat. eexists. split; reflexivity. Qed.
Print Assumptions C113_accepted_fails_refuted.

(* random numbers *)
Theorem C113_random_refused d p rms const vsize o f l : random_init d (Some p) const vsize o (Some rms) f l = Err ValueError /\ ((o < f)%nat -> random_init d None const vsize o (Some rms) f l = Err ValueError).
Proof. split; [reflexivity|]. intros H. unfold random_init. replace (o <? f)%nat with true by (symmetry; now apply Nat.ltb_lt). reflexivity. Qed.
Print Assumptions C113_random_refused.
Theorem C113_unknown_distribution amp const vsize o rms f l : random_init OtherDistribution amp const vsize o rms f l = Err ValueError.
Proof.
  unfold random_init. assert (S : forall r n, (exists v, scaled_amps r n f l = Ok v) \/ scaled_amps r n f l = Err ValueError).
  { intros r n. unfold scaled_amps. assert (M : forall ks, (exists v, map_res (fun i => if (i <? f)%nat then Ok 0 else weight l i) ks = Ok v) \/ map_res (fun i => if (i <? f)%nat then Ok 0 else weight l i) ks = Err ValueError).
    { induction ks as [|i ks IH]; [left; now eexists|]. cbn [map_res]. assert (W : (exists v, (if (i <? f)%nat then Ok 0 else weight l i) = Ok v) \/ (if (i <? f)%nat then Ok 0 else weight l i) = Err ValueError) by (destruct (i <? f)%nat; [left; now eexists|]; unfold weight; destruct l; try (left; now eexists); now right).
      destruct W as [[v ->]| ->]; [|now right]. cbn [bind]. destruct IH as [[vs ->]| ->]; [left; now eexists|now right]. }
    destruct (M (seq 0 n)) as [[v ->]| ->]; [left; cbn [bind]; now eexists|now right]. }
  destruct amp as [p|], rms as [r|]; try reflexivity. destruct (o <? f)%nat; [reflexivity|]. destruct (S r o) as [[v ->]| ->]; reflexivity.
Qed.
Print Assumptions C113_unknown_distribution.
(* amplitudes of the modes *)
Theorem C113_amplitudes rms n f l : l <> OtherLaw -> exists amps k, scaled_amps rms n f l = Ok amps /\ length amps = n /\
  (forall i, (i < f)%nat -> nth i amps 0 = 0) /\
  (forall N d, (d <= N)%nat -> (f <= tri N + d < n)%nat -> nth (tri N + d) amps 0 = k * match l with Inverse => inverse_weight N | Linear => linear_weight N | _ => 1 end) /\
  ((f < n)%nat -> squares amps = rms ^ 2 /\ (0 < rms -> 0 < k)) /\ ((n <= f)%nat -> squares amps = 0).
Proof.
  intros H. destruct (scaled_spec rms n f l H) as (k & E & K). exists (map (fun i => k * base l f i) (seq 0 n)), k. split; [exact E|]. split; [now rewrite map_length, seq_length|].
  assert (B : forall i, (i < f)%nat -> base l f i = 0) by (intros i Hi; unfold base; now replace (i <? f)%nat with true by (symmetry; now apply Nat.ltb_lt)).
  split; [|split; [|split]].
  - intros i Hi. destruct (Nat.lt_ge_cases i n) as [L|L]; [rewrite (nth_map_seq (fun i => k * base l f i)) by exact L; rewrite B by exact Hi; ring|apply nth_overflow; rewrite map_length, seq_length; exact L].
  - intros N d Hd Hf. rewrite (nth_map_seq (fun i => k * base l f i)) by lia. rewrite base_at by lia. reflexivity.
  - intros Hf. destruct (K Hf) as [P ->]. assert (Q : 0 < sqrt (squares (map (base l f) (seq 0 n)))) by now apply sqrt_lt_R0. set (s := sqrt _) in *.
    replace (map (fun i => rms / s * base l f i) (seq 0 n)) with (map (fun a => a * (rms / s)) (map (base l f) (seq 0 n))) by (rewrite map_map; apply map_ext; intros; ring). rewrite squares_scale. split.
    + assert (SS : s * s = squares (map (base l f) (seq 0 n))) by (apply sqrt_sqrt; lra). rewrite <- SS. field. lra.
    + intros R0. now apply Rdiv_lt_0_compat.
  - intros Hf. apply squares_zero. intros a Ha. apply in_map_iff in Ha. destruct Ha as (i & <- & Hi). apply in_seq in Hi. rewrite B by lia. ring.
Qed.
Print Assumptions C113_amplitudes.
Theorem C113_unknown_law rms n f : scaled_amps rms n f OtherLaw = if (f <? n)%nat then Err ValueError else Ok (repeat 0 n).
Proof.
  unfold scaled_amps. assert (M : forall m a, map_res (fun i => if (i <? f)%nat then Ok 0 else weight OtherLaw i) (seq a m) = if (Nat.max a f <? a + m)%nat then Err ValueError else Ok (repeat 0 m)).
  { induction m as [|m IH]; intros a; [cbn [seq map_res repeat]; now replace (Nat.max a f <? a + 0)%nat with false by (symmetry; apply Nat.ltb_ge; lia)|]. cbn [seq map_res]. destruct (Nat.ltb_spec a f) as [L|L].
    - cbn [bind]. rewrite IH. replace (Nat.max (S a) f <? S a + m)%nat with (Nat.max a f <? a + S m)%nat. + destruct (Nat.max a f <? a + S m)%nat; reflexivity. + destruct (Nat.ltb_spec (Nat.max a f) (a + S m)), (Nat.ltb_spec (Nat.max (S a) f) (S a + m)); try reflexivity; lia.
    - cbn [weight bind]. replace (Nat.max a f <? a + S m)%nat with true by (symmetry; apply Nat.ltb_lt; lia). reflexivity. }
  rewrite M. cbn [Nat.max Nat.add]. replace (Nat.max 0 f) with f by lia. destruct (f <? n)%nat; [reflexivity|]. cbn [bind].
  rewrite total_squares, (squares_zero (repeat 0 n)) by (intros a Ha; now apply repeat_spec in Ha). rewrite sqrt_0. destruct (Rlt_dec 0 0); [lra|reflexivity].
Qed.
Print Assumptions C113_unknown_law.
Example C113_amplitudes_example : scaled_amps 5 3 1 Constant = Ok [0; 5 / sqrt 2; 5 / sqrt 2].
Proof. unfold scaled_amps, weight. cbn [seq map_res Nat.ltb Nat.leb bind map rtotal fold_right]. replace (0 ^ 2 + (1 ^ 2 + (1 ^ 2 + 0))) with 2 by ring. assert (0 < sqrt 2) by (apply sqrt_lt_R0; lra). destruct (Rlt_dec 0 (sqrt 2)); [|lra]. cbn [map]. assert (A : forall a b c a' b' c' : R, a = a' -> b = b' -> c = c' -> @Ok (list R) [a; b; c] = Ok [a'; b'; c']) by (intros; subst; reflexivity). apply A; ring. Qed.

(* values *)
Lemma random_ready d amp const vsize o k : d <> OtherDistribution -> elements k [amp; const] vsize -> (o = 1 \/ o = k)%nat ->
  exists o', (match d with OtherDistribution => Err ValueError | _ => _ <- validate [amp; const] ;; Ok (mkRn d amp const vsize (let o1 := if (o =? 1)%nat then Nat.max (Nat.max (length (values amp)) (length (values const))) o else o in if (o1 =? 1)%nat then vsize else o1)) end) = Ok (mkRn d amp const vsize o') /\ o' = k.
Proof.
  intros D (Hk & S & E) O. assert (A : exists n, validate [amp; const] = Ok n /\ (if existsb (fun p => match p with Ve _ => true | _ => false end) [amp; const] then n = k else n = 1)%nat).
  { destruct (existsb (fun p => match p with Ve _ => true | _ => false end) [amp; const]) eqn:X.
    - exists k. split; [|reflexivity]. apply validate_ok. right. split; [now apply with_vectors|exact S].
    - exists 1%nat. split; [|reflexivity]. apply validate_ok. left. split; [now apply no_vectors|reflexivity]. }
  destruct A as (n & V & N). rewrite V. cbn [bind]. eexists. split; [destruct d; try reflexivity; now destruct D|]. cbv zeta.
  assert (L : Nat.max (length (values amp)) (length (values const)) = n).
  { assert (L := longest_valid _ _ V ltac:(discriminate)). unfold longest in L. cbn [map fold_right] in L. rewrite Nat.max_0_r in L. apply L. destruct (existsb _ _); lia. }
  rewrite L. destruct (existsb (fun p => match p with Ve _ => true | _ => false end) [amp; const]) eqn:X; subst n.
  - destruct (Nat.eqb_spec o 1) as [->|N1]; [destruct (Nat.eqb_spec (Nat.max k 1) 1); lia|]. destruct (Nat.eqb_spec o 1); lia.
  - destruct (Nat.eqb_spec o 1) as [->|N1]; [cbn; lia|]. destruct (Nat.eqb_spec o 1); lia.
Qed.
Theorem C113_random d amp const vsize o f l k draw : d <> OtherDistribution -> elements k [match amp with Some a => a | None => Sc 1 end; const] vsize -> (o = 1 \/ o = k)%nat -> length draw = k ->
  let a := match amp with Some a => a | None => Sc 1 end in
  exists g v, random_init d amp const vsize o None f l = Ok g /\ random_trigger g draw = Ok v /\ length v = k /\
    forall i, (i < k)%nat -> nth i v 0 = at_ (values const) i + at_ (values a) i * (match d with Normal => nth i draw 0 | _ => nth i draw 0 - 1 / 2 end).
Proof.
  intros D E O Hd a. fold a in E. destruct (random_ready d a const vsize o k D E O) as (o' & I & Ho). exists (mkRn d a const vsize o').
  assert (I' : random_init d amp const vsize o None f l = Ok (mkRn d a const vsize o')) by (unfold random_init; destruct amp as [p|]; cbn [bind]; exact I).
  destruct E as (Hk & S & E). assert (Hv : (vsize = 1 \/ vsize = k)%nat) by (destruct (existsb _ _); lia).
  destruct d; [| |now destruct D].
  - destruct (normal_value (mkRn Normal a const vsize o') k draw Hk eq_refl) as (v & T & L & V); cbn [r_amp r_const r_vsize r_out]; try assumption; try (apply (same_fits k [a; const]); [exact S|cbn; tauto]).
    exists v. repeat split; try assumption. intros i Hi. rewrite (V i Hi). cbn [r_amp r_const]. ring.
  - destruct (uniform_value (mkRn Uniform a const vsize o') k draw Hk eq_refl) as (v & T & L & V); cbn [r_amp r_const r_vsize r_out]; try assumption; try (apply (same_fits k [a; const]); [exact S|cbn; tauto]).
    exists v. repeat split; assumption.
Qed.
Print Assumptions C113_random.
Theorem C113_modal d const vsize n rms f l draw : d <> OtherDistribution -> l <> OtherLaw -> (1 <= n)%nat -> (f <= n)%nat -> same_length n [const] -> (vsize = 1 \/ vsize = n)%nat -> length draw = n ->
  exists amps g v, scaled_amps rms n f l = Ok amps /\ random_init d None const vsize n (Some rms) f l = Ok g /\ random_trigger g draw = Ok v /\ length v = n /\
    (forall i, (i < n)%nat -> nth i v 0 = at_ (values const) i + nth i amps 0 * (match d with Normal => nth i draw 0 | _ => nth i draw 0 - 1 / 2 end)) /\
    (forall i, (i < f)%nat -> nth i v 0 = at_ (values const) i).
Proof.
  intros D Hl Hn Hf S Hv Hd. destruct (C113_amplitudes rms n f l Hl) as (amps & k & A & La & Z0 & _).
  assert (E : elements n [Ve amps; const] vsize). { split; [exact Hn|]. split; [|exact Hv]. intros l0 [E|E]; [injection E as <-; exact La|now apply S]. }
  destruct (C113_random d (Some (Ve amps)) const vsize n f l n draw D E (or_intror eq_refl) Hd) as (g & v & I & T & L & V). exists amps, g, v.
  assert (At : forall i, (i < n)%nat -> at_ amps i = nth i amps 0). { intros i Hi. destruct (Nat.eq_dec (length amps) 1) as [O1|O1]; [|apply at_nth; lia]. destruct (at_one amps O1) as (x & -> & _). cbn in *. now replace i with 0%nat by lia. }
  assert (V' : forall i, (i < n)%nat -> nth i v 0 = at_ (values const) i + nth i amps 0 * (match d with Normal => nth i draw 0 | _ => nth i draw 0 - 1 / 2 end)) by (intros i Hi; rewrite (V i Hi); cbn [values]; now rewrite At by exact Hi).
  repeat split; try assumption.
  - unfold random_init in *. replace (n <? f)%nat with false by (symmetry; now apply Nat.ltb_ge). rewrite A. cbn [bind] in *. exact I.
  - intros i Hi. rewrite V' by lia. rewrite Z0 by exact Hi. ring.
Qed.
Print Assumptions C113_modal.
Theorem C113_uniform_bounds const amp vsize o f l k draw : elements k [amp; const] vsize -> (o = 1 \/ o = k)%nat -> length draw = k -> (forall u, In u draw -> 0 <= u < 1) ->
  exists g v, random_init Uniform (Some amp) const vsize o None f l = Ok g /\ random_trigger g draw = Ok v /\ forall i, (i < k)%nat -> Rabs (nth i v 0 - at_ (values const) i) <= Rabs (at_ (values amp) i) / 2.
Proof.
  intros E O Hd U. destruct (C113_random Uniform (Some amp) const vsize o f l k draw ltac:(discriminate) E O Hd) as (g & v & I & T & L & V). exists g, v. repeat split; try assumption. intros i Hi. rewrite (V i Hi).
  replace (at_ (values const) i + at_ (values amp) i * (nth i draw 0 - 1 / 2) - at_ (values const) i) with (at_ (values amp) i * (nth i draw 0 - 1 / 2)) by ring. rewrite Rabs_mult.
  assert (B := U (nth i draw 0) ltac:(apply nth_In; lia)). assert (C : Rabs (nth i draw 0 - 1 / 2) <= 1 / 2) by (unfold Rabs; destruct (Rcase_abs _); lra). assert (P := Rabs_pos (at_ (values amp) i)). nra.
Qed.
Print Assumptions C113_uniform_bounds.
Example C113_random_example : exists g, random_init Normal (Some (Ve [2; 0])) (Sc 10) 1 1 None 0 Inverse = Ok g /\ random_trigger g [-1; 7] = Ok [-1 * 2 + 10; 7 * 0 + 10].
Proof.
  eexists. split; [reflexivity|]. unfold random_trigger. cbn. assert (A : forall a b a' b' : R, a = a' -> b = b' -> @Ok (list R) [a; b] = Ok [a'; b']) by (intros; subst; reflexivity). apply A; ring.
Qed.
(* the requested rms is not that of the amplitudes when all modes are forced to zero; an unknown law is then accepted *)
Theorem C113_all_forced_refuted : exists rms n f amps, rms ^ 2 <> 0 /\ scaled_amps rms n f OtherLaw = Ok amps /\ squares amps <> rms ^ 2.
Proof. exists 1, 1%nat, 1%nat, [0]. split; [lra|]. split; [rewrite C113_unknown_law; reflexivity|]. cbn. lra. Qed.
Print Assumptions C113_all_forced_refuted.
