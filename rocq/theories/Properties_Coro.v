(* C100: the perfect coronagraph (PsfCoronagraph). *)
From Coq Require Import Reals List ZArith Bool Arith Lia Lra QArith Qcanon.
From Verif Require Import PyBase PyLemmas Fourier PsfModel PsfSpec PsfProofs PsfProofs2 CoroProofs Properties_Psf.
Import ListNotations.
Local Open Scope R_scope.

Definition bright (n m : nat) (amp : image) : Prop := (forall i j, (i < n)%nat -> (j < m)%nat -> 0 <= amp i j) /\ 0 < energy n m amp.
(* the image, in units of the total light of the image without coronagraph *)
Definition shown (n m : nat) (average : bool) (amp phase : image) (w : nat) (im : image) : Prop :=
  coronagraph_psf n m average amp phase w (INR w * INR w * energy n m amp) = Ok im.

Lemma shown_values n m average amp phase w im : (0 < n)%nat -> bright n m amp -> shown n m average amp phase w im ->
  (n <= w)%nat /\ (m <= w)%nat /\ 0 < INR w * INR w * energy n m amp /\
  rsum2 w w im = rsum2 n m (fun i j => abs2 (removed n m average amp phase i j)) / energy n m amp /\
  forall k l, im k l = abs2 (spectrum n m w w (removed n m average amp phase) (Z.of_nat k - Z.of_nat (w / 2)) (Z.of_nat l - Z.of_nat (w / 2))) / (INR w * INR w * energy n m amp).
Proof.
  intros Hn [B1 B2] H. unfold shown, coronagraph_psf in H. destruct ((n <=? w)%nat && (m <=? w)%nat) eqn:E; [|discriminate].
  apply andb_true_iff in E. destruct E as [E1 E2]. apply Nat.leb_le in E1. apply Nat.leb_le in E2. assert (Hw : (0 < w)%nat) by lia. assert (W : 0 < INR w) by (apply lt_0_INR; lia).
  assert (P : 0 < INR w * INR w * energy n m amp) by (apply Rmult_lt_0_compat; [apply Rmult_lt_0_compat; auto|auto]).
  assert (X : im = fun k l => p_val (psf_of w w (corner n m (removed n m average amp phase)) false false) k l / (INR w * INR w * energy n m amp)) by congruence.
  destruct (psf_of_any n m w w (removed n m average amp phase) false Hw Hw E1 E2) as [S V].
  repeat split; auto.
  - rewrite X. unfold Rdiv. rewrite rsum2_mul_r, S. field. split; lra.
  - intros k l. rewrite X. now rewrite V.
Qed.

(* Subtraction of the average: nothing is left on the axis. *)
Theorem C100_dark_axis : forall n m amp phase w im, (0 < n)%nat -> bright n m amp -> shown n m true amp phase w im -> im (w / 2)%nat (w / 2)%nat = 0.
Proof.
  intros n m amp phase w im Hn B H. destruct (shown_values _ _ _ _ _ _ _ Hn B H) as (_ & _ & _ & _ & V). rewrite V, !Z.sub_diag, spectrum_axis.
  destruct B as [B1 B2]. rewrite removed_average_sum; [|auto|now apply lit_count_pos]. rewrite abs2_0. unfold Rdiv. ring.
Qed.
Print Assumptions C100_dark_axis.

(* The light left is the total less what the average field carries; for a pupil lit uniformly, one less the Strehl ratio. *)
Theorem C100_light_left : forall n m amp phase w im, (0 < n)%nat -> bright n m amp -> shown n m true amp phase w im ->
  (forall k l, 0 <= im k l) /\
  rsum2 w w im = 1 - abs2 (csum2 n m (fun i j => cmul (creal (amp i j)) (cis (phase i j)))) / (rsum2 n m (fun i j => if Rlt_dec 0 (amp i j) then 1 else 0) * energy n m amp) /\
  0 <= rsum2 w w im <= 1 /\
  (forall c, (forall i j, (i < n)%nat -> (j < m)%nat -> amp i j = 0 \/ amp i j = c) -> rsum2 w w im = 1 - strehl n m amp phase).
Proof.
  intros n m amp phase w im Hn B H. destruct (shown_values _ _ _ _ _ _ _ Hn B H) as (E1 & E2 & P & S & V). destruct B as [B1 B2]. pose proof (lit_count_pos n m amp B1 B2) as K.
  assert (NN : forall k l, 0 <= im k l). { intros. rewrite V. apply Rle_mult_inv_pos; [apply abs2_nonneg|exact P]. }
  assert (T : rsum2 w w im = 1 - abs2 (field_sum n m amp phase) / (lit_count n m amp * energy n m amp)).
  { rewrite S, removed_average_energy by auto. field. split; lra. }
  split; [exact NN|]. split; [exact T|]. split.
  - split; [apply rsum2_nonneg; auto|]. rewrite T. assert (0 <= abs2 (field_sum n m amp phase) / (lit_count n m amp * energy n m amp)); [|lra].
    apply Rle_mult_inv_pos; [apply abs2_nonneg|]. apply Rmult_lt_0_compat; auto.
  - intros c Hc. rewrite T. unfold strehl, Rminus. do 2 f_equal. unfold Rdiv. f_equal. f_equal.
    assert (Ar : area n m amp = c * lit_count n m amp).
    { unfold area, lit_count. rewrite <- rsum2_mul_l. apply rsum2_ext. intros i j Hi Hj. unfold lit. pose proof (B1 i j Hi Hj). destruct (Rlt_dec 0 (amp i j)), (Hc i j Hi Hj); lra. }
    assert (En : energy n m amp = c * c * lit_count n m amp).
    { unfold energy, lit_count. rewrite <- rsum2_mul_l. apply rsum2_ext. intros i j Hi Hj. unfold lit. pose proof (B1 i j Hi Hj). destruct (Rlt_dec 0 (amp i j)), (Hc i j Hi Hj); nra. }
    rewrite Ar, En. ring.
Qed.
Print Assumptions C100_light_left.

(* The image is dark everywhere exactly when the lit pixels have one and the same field. *)
Theorem C100_extinction : forall n m amp phase w im, (0 < n)%nat -> bright n m amp -> shown n m true amp phase w im ->
  (forall k l, (k < w)%nat -> (l < w)%nat -> im k l = 0) <->
  (forall i j i' j', (i < n)%nat -> (j < m)%nat -> (i' < n)%nat -> (j' < m)%nat -> 0 < amp i j -> 0 < amp i' j' -> amp i j = amp i' j' /\ same_wave (phase i j) (phase i' j')).
Proof.
  intros n m amp phase w im Hn B H. destruct (shown_values _ _ _ _ _ _ _ Hn B H) as (E1 & E2 & P & S & V). pose proof (C100_light_left _ _ _ _ _ _ Hn B H) as (NN & T & _ & _).
  destruct B as [B1 B2]. pose proof (lit_count_pos n m amp B1 B2) as K.
  assert (Eq : (forall k l, (k < w)%nat -> (l < w)%nat -> im k l = 0) <-> rsum2 n m (fun i j => abs2 (removed n m true amp phase i j)) = 0).
  { split.
    - intros Z. assert (X : rsum2 w w im = 0). { rewrite (rsum2_ext w w _ (fun _ _ => 0 * 0)); [rewrite rsum2_mul_l; ring|]. intros. rewrite Z by auto. ring. }
      rewrite X in S. apply (Rmult_eq_reg_r (/ energy n m amp)); [|apply Rinv_neq_0_compat; lra]. unfold Rdiv in S. rewrite <- S. ring.
    - intros Z. apply (rsum2_zero w w im); [auto|]. rewrite S, Z. unfold Rdiv. ring. }
  rewrite Eq. set (a := cmul (creal (/ lit_count n m amp)) (field_sum n m amp phase)).
  assert (Rem : forall i j, (i < n)%nat -> (j < m)%nat -> removed n m true amp phase i j = csub (pupil_field amp phase i j) (cmul a (creal (lit amp i j)))) by (intros; now apply removed_average).
  split.
  - intros Z i j i' j' Hi Hj Hi' Hj' L L'.
    assert (U : forall i j, (i < n)%nat -> (j < m)%nat -> 0 < amp i j -> pupil_field amp phase i j = a).
    { clear i j i' j' Hi Hj Hi' Hj' L L'. intros i j Hi Hj L. pose proof (rsum2_zero n m _ (fun _ _ _ _ => abs2_nonneg _) Z i j Hi Hj) as X. cbn beta in X. rewrite Rem in X by auto. unfold lit in X. destruct (Rlt_dec 0 (amp i j)); [|lra].
      destruct (pupil_field amp phase i j) as [u1 u2]. clearbody a. destruct a as [a1 a2]. unfold abs2, csub, cadd, copp, cmul, creal in X. cbn [fst snd] in X.
      assert (X' : Rsqr (u1 - a1) + Rsqr (u2 - a2) = 0) by (rewrite <- X; unfold Rsqr; ring). pose proof (Rle_0_sqr (u1 - a1)). pose proof (Rle_0_sqr (u2 - a2)).
      assert (u1 = a1 /\ u2 = a2) as [-> ->]; [|reflexivity]. split; apply Rminus_diag_uniq; apply Rsqr_0_uniq; lra. }
    pose proof (U i j Hi Hj L) as A1. pose proof (U i' j' Hi' Hj' L') as A2.
    assert (Am : amp i j = amp i' j').
    { assert (Q : amp i j * amp i j = amp i' j' * amp i' j') by (rewrite <- !(abs2_field) with (phase := phase); congruence). nra. }
    split; [exact Am|]. apply cis_eq. rewrite <- A1 in A2. unfold pupil_field in A2. rewrite Am in A2.
    destruct (cis (phase i j)) as [x1 x2]. destruct (cis (phase i' j')) as [y1 y2]. unfold cmul, creal in A2. cbn [fst snd] in A2. injection A2 as Q1 Q2.
    f_equal; apply (Rmult_eq_reg_l (amp i' j')); lra.
  - intros U. rewrite (rsum2_ext n m _ (fun _ _ => 0 * 0)); [rewrite rsum2_mul_l; ring|]. intros i j Hi Hj. rewrite Rem by auto.
    assert (Sum : forall i j, (i < n)%nat -> (j < m)%nat -> 0 < amp i j -> a = pupil_field amp phase i j).
    { clear i j Hi Hj. intros i j Hi Hj L. unfold a, field_sum. rewrite (csum2_ext n m _ (fun i' j' => cmul (pupil_field amp phase i j) (creal (lit amp i' j')))).
      - rewrite csum2_mul_l, csum2_real. fold (lit_count n m amp).
        replace (cmul (creal (/ lit_count n m amp)) (cmul (pupil_field amp phase i j) (creal (lit_count n m amp)))) with (cmul (creal (/ lit_count n m amp * lit_count n m amp)) (pupil_field amp phase i j)) by (generalize (pupil_field amp phase i j); intros; cring).
        rewrite Rinv_l by lra. generalize (pupil_field amp phase i j). intros. cring.
      - intros i' j' Hi' Hj'. rewrite <- (field_lit amp phase i' j' (B1 i' j' Hi' Hj')). unfold lit. destruct (Rlt_dec 0 (amp i' j')) as [L'|L'].
        + f_equal. destruct (U i' j' i j Hi' Hj' Hi Hj L' L) as [Am Wv]. unfold pupil_field. rewrite Am. f_equal. now apply cis_eq.
        + generalize (pupil_field amp phase i j) (pupil_field amp phase i' j'). intros. cring. }
    unfold lit. destruct (Rlt_dec 0 (amp i j)) as [L|L].
    + rewrite (Sum i j Hi Hj L). generalize (pupil_field amp phase i j). intros [u1 u2]. unfold abs2, csub, cadd, copp, cmul, creal. cbn [fst snd]. ring.
    + unfold pupil_field. replace (amp i j) with 0 by (pose proof (B1 i j Hi Hj); lra). generalize (cis (phase i j)). intros [u1 u2]. clearbody a. destruct a as [a1 a2]. unfold abs2, csub, cadd, copp, cmul, creal. cbn [fst snd]. ring.
Qed.
Print Assumptions C100_extinction.

(* Both formulas are blind to a piston, the average to whole waves too. *)
Theorem C100_blind_to_piston : forall n m average amp phase c w im im', (0 < n)%nat -> bright n m amp -> shown n m average amp phase w im ->
  shown n m average amp (fun i j => phase i j + c) w im' -> forall k l, im' k l = im k l.
Proof.
  intros n m average amp phase c w im im' Hn B H H' k l. destruct (shown_values _ _ _ _ _ _ _ Hn B H) as (_ & _ & _ & _ & V). destruct (shown_values _ _ _ _ _ _ _ Hn B H') as (_ & _ & _ & _ & V').
  rewrite V, V'. f_equal. rewrite (spectrum_ext _ _ _ _ _ _ _ _ (fun i j _ _ => removed_piston n m average amp phase c i j)), spectrum_mul, abs2_mul, abs2_cis. ring.
Qed.
Print Assumptions C100_blind_to_piston.
Theorem C100_average_blind_to_waves : forall n m amp phase (turns : nat -> nat -> Z) w im im', (0 < n)%nat -> bright n m amp -> shown n m true amp phase w im ->
  shown n m true amp (fun i j => phase i j + 2 * PI * IZR (turns i j)) w im' -> forall k l, im' k l = im k l.
Proof.
  intros n m amp phase turns w im im' Hn B H H' k l. destruct (shown_values _ _ _ _ _ _ _ Hn B H) as (_ & _ & _ & _ & V). destruct (shown_values _ _ _ _ _ _ _ Hn B H') as (_ & _ & _ & _ & V').
  rewrite V, V'. do 2 f_equal. apply spectrum_ext. intros. apply removed_waves.
Qed.
Print Assumptions C100_average_blind_to_waves.

(* The formula with mean and variance of the phase removes everything when the phase is flat, whatever the amplitude. *)
Theorem C100_flat_phase : forall n m amp phase w im c, (0 < n)%nat -> bright n m amp -> (forall i j, (i < n)%nat -> (j < m)%nat -> 0 < amp i j -> phase i j = c) -> shown n m false amp phase w im ->
  forall k l, im k l = 0.
Proof.
  intros n m amp phase w im c Hn B Hc H k l. destruct (shown_values _ _ _ _ _ _ _ Hn B H) as (_ & _ & _ & _ & V). rewrite V. destruct B as [B1 B2]. pose proof (lit_count_pos n m amp B1 B2) as K.
  destruct (var_zero n m amp phase c K Hc) as [M Va].
  rewrite (spectrum_ext n m w w _ (fun i j => cmul c0 c0)).
  - rewrite spectrum_mul, cmul_0_l, abs2_0. unfold Rdiv. ring.
  - intros i j Hi Hj. rewrite removed_core by auto. rewrite M, Va, Ropp_0, exp_0, sqrt_1. rewrite cmul_0_l.
    unfold pupil_field. destruct (Rlt_dec 0 (amp i j)) as [L|L].
    + rewrite (Hc i j Hi Hj L). generalize (cis c). intros; unfold Fourier.c0; cring.
    + replace (amp i j) with 0 by (pose proof (B1 i j Hi Hj); lra). generalize (cis c) (cis (phase i j)). intros; unfold Fourier.c0; cring.
Qed.
Print Assumptions C100_flat_phase.

(* Over a run, the PSF object does what it does alone; the images of the coronagraph are averaged over the same frames. *)
Section R.
Variables (n m : nat) (nd : Qc) (lambda start : R) (average : bool).
Let w := out_size nd n.
Definition coro_image (e : frame) : image := fun k l => p_val (psf_of w w (corner n m (removed n m average (f_amp e) (phi_at lambda e))) false false) k l / (INR w * INR w * energy n m (f_amp e)).
Definition coro_known (es : list frame) (c : coro) : Prop :=
  (forall i j, c_int c i j = rlist (map (fun e => coro_image e i j) (filter (fun e => in_time start (f_t e)) es))) /\
  (forall i j, c_sq c i j = rlist (map (fun e => coro_image e i j * coro_image e i j) (filter (fun e => in_time start (f_t e)) es))) /\
  (forall l e, es = l ++ [e] -> shown n m average (f_amp e) (phi_at lambda e) w (c_img c) /\ forall i j, c_img c i j = coro_image e i j).
Lemma coro_run_known e0 rest : (0 < n)%nat -> sized n m nd -> energy n m (f_amp e0) <> 0 ->
  exists c s, coro_run n m nd lambda start average (e0 :: rest) = Ok c /\ psf_run n m nd lambda start (e0 :: rest) = Ok s /\ c_psf c = s /\ coro_known (e0 :: rest) c.
Proof.
  intros Hn Hs He.
  assert (Step : forall es c e s2 s3, psf_prepare n m nd (c_psf c) e = Ok s2 -> psf_trigger n m nd lambda s2 e = Ok s3 -> o_total s3 = INR w * INR w * energy n m (f_amp e) ->
     (es = [] /\ c = coro_setup \/ coro_known es c) -> exists c', coro_step n m nd lambda start average c e = Ok c' /\ c_psf c' = psf_post start s3 e /\ coro_known (es ++ [e]) c').
  { intros es c e s2 s3 P1 P2 P3 K. unfold coro_step. rewrite P1. cbn [bind]. rewrite P2. cbn [bind]. unfold coronagraph_of. rewrite P3. fold w.
    assert (Sh : coronagraph_psf n m average (f_amp e) (phi_at lambda e) w (INR w * INR w * energy n m (f_amp e)) = Ok (coro_image e)).
    { unfold coronagraph_psf. destruct Hs as (Z1 & Z2 & _). fold w in Z1, Z2. apply Nat.leb_le in Z1. apply Nat.leb_le in Z2. rewrite Z1, Z2. reflexivity. }
    rewrite Sh. cbn [bind]. eexists. split; [reflexivity|]. split; [now destruct (in_time start (f_t e))|].
    assert (O : (forall i j, c_int c i j = rlist (map (fun e => coro_image e i j) (filter (fun e => in_time start (f_t e)) es))) /\
      (forall i j, c_sq c i j = rlist (map (fun e => coro_image e i j * coro_image e i j) (filter (fun e => in_time start (f_t e)) es)))).
    { destruct K as [[-> ->]|(K1 & K2 & _)]; [split; intros; reflexivity|auto]. }
    destruct O as [O1 O2]. unfold coro_known. rewrite filter_app. cbn [filter]. destruct (in_time start (f_t e)); cbn [c_int c_sq c_img]; (split; [|split]).
    - intros i j. rewrite map_app, rlist_app, O1. unfold rlist at 3. cbn [map fold_right]. ring.
    - intros i j. rewrite map_app, rlist_app, O2. unfold rlist at 3. cbn [map fold_right]. ring.
    - intros l e' El. apply app_inj_tail in El. destruct El as [_ <-]. split; [exact Sh|reflexivity].
    - intros. rewrite app_nil_r. apply O1.
    - intros. rewrite app_nil_r. apply O2.
    - intros l e' El. apply app_inj_tail in El. destruct El as [_ <-]. split; [exact Sh|reflexivity]. }
  assert (Split : forall s e s', psf_step n m nd lambda start s e = Ok s' -> exists s2 s3, psf_prepare n m nd s e = Ok s2 /\ psf_trigger n m nd lambda s2 e = Ok s3 /\ s' = psf_post start s3 e).
  { intros s e s' H. unfold psf_step in H. destruct (psf_prepare n m nd s e) as [s2|] eqn:P1; [|discriminate]. cbn [bind] in H. destruct (psf_trigger n m nd lambda s2 e) as [s3|] eqn:P2; [|discriminate]. cbn [bind] in H.
    exists s2, s3. split; [reflexivity|]. split; [exact P2|]. congruence. }
  assert (Tot : forall s e, o_total (psf_post start s e) = o_total s) by (intros; unfold psf_post; destruct (in_time start (f_t e)); reflexivity).
  induction rest as [|e l IH] using rev_ind.
  - destruct (step_known n m nd lambda start e0 [] psf_setup e0 Hn Hs He) as [s' [E K]]; [auto|]. destruct (Split _ _ _ E) as (s2 & s3 & P1 & P2 & ->).
    destruct (k_last _ _ _ _ _ _ _ _ K [] e0 eq_refl) as (_ & _ & T). rewrite Tot in T.
    destruct (Step [] coro_setup e0 s2 s3 P1 P2 T) as [c' [E' [C' K']]]; [auto|]. exists c', (psf_post start s3 e0). split; [unfold coro_run; cbn [fold_res]; now rewrite E'|]. split; [unfold psf_run; cbn [fold_res]; now rewrite E|]. auto.
  - destruct IH as (c & s & Ec & Es & <- & K). destruct (run_known n m nd lambda start e0 l Hn Hs He) as [s1 [Es1 Ks]]. assert (X : s1 = c_psf c) by congruence. subst s1.
    destruct (step_known n m nd lambda start e0 (e0 :: l) (c_psf c) e Hn Hs He) as [s' [E K2]]; [auto|]. destruct (Split _ _ _ E) as (s2 & s3 & P1 & P2 & ->).
    destruct (k_last _ _ _ _ _ _ _ _ K2 (e0 :: l) e eq_refl) as (_ & _ & T). rewrite Tot in T.
    destruct (Step (e0 :: l) c e s2 s3 P1 P2 T) as [c' [E' [C' K']]]; [auto|]. exists c', (psf_post start s3 e).
    unfold coro_run, psf_run in *. change (e0 :: l ++ [e]) with ((e0 :: l) ++ [e]). rewrite !fold_res_snoc, Ec, Es. cbn [bind]. auto.
Qed.
End R.
Theorem C100_long_exposure : forall n m nd lambda start average e0 rest, (0 < n)%nat -> energy n m (f_amp e0) <> 0 ->
  (exists s, psf_run n m nd lambda start (e0 :: rest) = Ok s) ->
  exists c, coro_run n m nd lambda start average (e0 :: rest) = Ok c /\ psf_run n m nd lambda start (e0 :: rest) = Ok (c_psf c) /\
  (forall l e, e0 :: rest = l ++ [e] -> shown n m average (f_amp e) (phi_at lambda e) (out_size nd n) (c_img c)) /\
  let taken := filter (fun e => in_time start (f_t e)) (e0 :: rest) in let im := fun i j => map (fun e => coro_image n m nd lambda average e i j) taken in
  (taken <> [] -> forall i j, c_int (coro_finalize c) i j = PsfSpec.average (im i j) /\ 0 <= c_std (coro_finalize c) i j /\
     c_std (coro_finalize c) i j * c_std (coro_finalize c) i j = PsfSpec.average (map (fun x => (x - PsfSpec.average (im i j)) * (x - PsfSpec.average (im i j))) (im i j))).
Proof.
  intros n m nd lambda start av e0 rest Hn He [s Hs]. destruct (coro_run_known n m nd lambda start av e0 rest Hn (run_sized _ _ _ _ _ _ _ _ Hs) He) as (c & s' & Ec & Es & <- & (K1 & K2 & K3)).
  exists c. split; [exact Ec|]. split; [exact Es|]. split; [intros l e El; exact (proj1 (K3 l e El))|]. intros taken im Ht i j. fold taken in K1, K2.
  pose proof (run_has _ _ _ _ _ _ _ _ Hn He Es) as K. pose proof (k_count _ _ _ _ _ _ _ _ K) as Kc. fold taken in Kc.
  assert (L : (0 < length taken)%nat) by (destruct taken; [congruence|cbn; lia]). assert (LN : 0 < INR (length taken)) by (apply lt_0_INR; exact L).
  assert (F : o_count (psf_finalize (c_psf c)) = length taken). { unfold psf_finalize. destruct (0 <? o_count (c_psf c))%nat; exact Kc. }
  unfold coro_finalize. rewrite F. replace (0 <? length taken)%nat with true by (symmetry; now apply Nat.ltb_lt). cbn [c_int c_std].
  assert (AV : c_int c i j / INR (length taken) = PsfSpec.average (im i j)). { rewrite K1. unfold PsfSpec.average, im. now rewrite map_length. }
  rewrite AV. split; [reflexivity|]. split; [apply sqrt_pos|]. rewrite sqrt_sqrt; [|apply Rmax_r].
  set (mu := PsfSpec.average (im i j)).
  assert (V : c_sq c i j / INR (length taken) - mu * mu = PsfSpec.average (map (fun x => (x - mu) * (x - mu)) (im i j))).
  { rewrite K2. unfold PsfSpec.average. rewrite map_length. replace (length (im i j)) with (length taken) by (unfold im; now rewrite map_length).
    unfold im. rewrite map_map. rewrite (map_ext (fun x => (coro_image n m nd lambda av x i j - mu) * (coro_image n m nd lambda av x i j - mu))
        (fun x => coro_image n m nd lambda av x i j * coro_image n m nd lambda av x i j + (-2 * mu * coro_image n m nd lambda av x i j + mu * mu))) by (intros; ring).
    rewrite rlist_add, rlist_add, rlist_mul, rlist_const.
    assert (M : rlist (map (fun e => coro_image n m nd lambda av e i j) taken) = mu * INR (length taken)). { unfold mu, PsfSpec.average, im. rewrite map_length. field. lra. }
    rewrite M. field. lra. }
  rewrite V. apply Rmax_left. unfold PsfSpec.average. apply Rle_mult_inv_pos; [|unfold im; rewrite !map_length; exact LN].
  apply rlist_nonneg. intros x Hx. apply in_map_iff in Hx. destruct Hx as [y [<- _]]. change (0 <= Rsqr (y - mu)). apply Rle_0_sqr.
Qed.
Print Assumptions C100_long_exposure.

(* Examples: two pixels, in an array of 2 x 2. *)
Definition two (a b : R) : image := fun i _ => if Nat.eqb i 0 then a else b.
Lemma two_bright a b : 0 < a -> 0 < b -> bright 2 1 (two a b) /\ energy 2 1 (two a b) = a * a + b * b /\ lit_count 2 1 (two a b) = 2.
Proof.
  intros Ha Hb. assert (E : energy 2 1 (two a b) = a * a + b * b) by (unfold energy, rsum2, two; cbn [rsum Nat.eqb]; ring). split; [split|split; [exact E|]].
  - intros i j _ _. unfold two. destruct (Nat.eqb i 0); lra.
  - rewrite E. nra.
  - unfold lit_count, rsum2, lit, two. cbn [rsum Nat.eqb]. destruct (Rlt_dec 0 a); [|lra]. destruct (Rlt_dec 0 b); [|lra]. ring.
Qed.
Lemma two_shown average amp phase : exists im, shown 2 1 average amp phase 2 im.
Proof. eexists. unfold shown, coronagraph_psf. cbn [Nat.leb andb]. reflexivity. Qed.
Lemma two_sum f : csum2 2 1 f = cadd (f 0%nat 0%nat) (f 1%nat 0%nat).
Proof. unfold csum2. cbn [csum]. unfold c0. cring. Qed.

(* Half a wave between two equal pixels: the average is zero and all the light stays. *)
Example C100_light_left_example : exists im, shown 2 1 true (two 1 1) (two 0 PI) 2 im /\ im 1%nat 1%nat = 0 /\ rsum2 2 2 im = 1.
Proof.
  destruct (two_shown true (two 1 1) (two 0 PI)) as [im H]. exists im. split; [exact H|]. assert (H01 : 0 < 1) by lra. destruct (two_bright 1 1 H01 H01) as (B & E & K). assert (H02 : (0 < 2)%nat) by lia.
  split; [exact (C100_dark_axis _ _ _ _ _ _ H02 B H)|]. destruct (C100_light_left _ _ _ _ _ _ H02 B H) as (_ & -> & _). rewrite two_sum. unfold two. cbn [Nat.eqb]. rewrite cis_0, cis_pi.
  replace (abs2 _) with 0; [unfold Rdiv; ring|]. unfold abs2, cadd, cmul, creal, c1. cbn [fst snd]. ring.
Qed.
(* With unequal amplitudes and a flat phase the average does not remove everything. *)
Theorem C100_average_flat_phase_refuted : exists amp im, bright 2 1 amp /\ shown 2 1 true amp (fun _ _ => 0) 2 im /\ rsum2 2 2 im = 1 / 10.
Proof.
  exists (two 1 2). destruct (two_shown true (two 1 2) (fun _ _ => 0)) as [im H]. exists im. assert (H01 : 0 < 1) by lra. assert (H2 : 0 < 2) by lra. destruct (two_bright 1 2 H01 H2) as (B & E & K).
  split; [exact B|]. split; [exact H|]. assert (H02 : (0 < 2)%nat) by lia. destruct (C100_light_left _ _ _ _ _ _ H02 B H) as (_ & -> & _).
  change (rsum2 2 1 (fun i j => if Rlt_dec 0 (two 1 2 i j) then 1 else 0)) with (lit_count 2 1 (two 1 2)). rewrite two_sum, E, K, cis_0. unfold two. cbn [Nat.eqb].
  unfold abs2, cadd, cmul, creal, c1. cbn [fst snd]. field.
Qed.
Print Assumptions C100_average_flat_phase_refuted.
(* The other formula leaves light on the axis, and depends on how the phase is wrapped. *)
Theorem C100_core_dark_axis_refuted : exists phase im, shown 2 1 false (two 1 1) phase 2 im /\ im 1%nat 1%nat <> 0.
Proof.
  exists (two 0 PI). destruct (two_shown false (two 1 1) (two 0 PI)) as [im H]. exists im. split; [exact H|]. assert (H01 : 0 < 1) by lra. destruct (two_bright 1 1 H01 H01) as (B & E & K). assert (H02 : (0 < 2)%nat) by lia.
  destruct (shown_values _ _ _ _ _ _ _ H02 B H) as (_ & _ & P & _ & V). rewrite V. change (Z.of_nat 1 - Z.of_nat (2 / 2))%Z with 0%Z. rewrite spectrum_axis, two_sum.
  rewrite !removed_core by (try rewrite K; unfold two; cbn [Nat.eqb]; lra).
  assert (M : mean_phase 2 1 (two 1 1) (two 0 PI) = PI / 2).
  { unfold mean_phase. rewrite K. unfold rsum2, lit, two. cbn [rsum Nat.eqb]. destruct (Rlt_dec 0 1); [|lra]. field. }
  rewrite M. set (q := sqrt (exp (- var_phase 2 1 (two 1 1) (two 0 PI)))).
  assert (Q : 0 < q) by (apply sqrt_lt_R0, exp_pos). rewrite E. unfold pupil_field, two. cbn [Nat.eqb]. rewrite cis_0, cis_pi. unfold cis. rewrite cos_PI2, sin_PI2.
  unfold abs2, csub, copp, cadd, cmul, creal, c1. cbn [fst snd INR]. apply Rgt_not_eq. apply Rdiv_lt_0_compat; nra.
Qed.
Print Assumptions C100_core_dark_axis_refuted.
Theorem C100_core_blind_to_waves_refuted : exists (turns : nat -> nat -> Z) im im', shown 2 1 false (two 1 1) (fun _ _ => 0) 2 im /\
  shown 2 1 false (two 1 1) (fun i j => 0 + 2 * PI * IZR (turns i j)) 2 im' /\ im 1%nat 1%nat = 0 /\ im' 1%nat 1%nat <> 0.
Proof.
  set (turns := fun i _ : nat => if Nat.eqb i 0 then 0%Z else 1%Z). set (ph := fun i j => 0 + 2 * PI * IZR (turns i j)).
  destruct (two_shown false (two 1 1) (fun _ _ => 0)) as [im H]. destruct (two_shown false (two 1 1) ph) as [im' H']. exists turns, im, im'. split; [exact H|]. split; [exact H'|].
  assert (H01 : 0 < 1) by lra. destruct (two_bright 1 1 H01 H01) as (B & E & K). assert (H02 : (0 < 2)%nat) by lia.
  split; [apply (C100_flat_phase 2 1 _ _ _ _ 0 H02 B (fun _ _ _ _ _ => eq_refl) H)|].
  destruct (shown_values _ _ _ _ _ _ _ H02 B H') as (_ & _ & P & _ & V). rewrite V. change (Z.of_nat 1 - Z.of_nat (2 / 2))%Z with 0%Z. rewrite spectrum_axis, two_sum.
  rewrite !removed_core by (try rewrite K; unfold two; cbn [Nat.eqb]; lra).
  assert (M : mean_phase 2 1 (two 1 1) ph = PI).
  { unfold mean_phase. rewrite K. unfold rsum2, lit, two, ph, turns. cbn [rsum Nat.eqb]. destruct (Rlt_dec 0 1); [|lra]. field. }
  rewrite M. set (q := sqrt (exp (- var_phase 2 1 (two 1 1) ph))).
  assert (Q : 0 < q) by (apply sqrt_lt_R0, exp_pos). rewrite E. unfold pupil_field, two, ph, turns. cbn [Nat.eqb]. rewrite !cis_add, !cis_2PI_Z, cis_0, cis_pi.
  unfold abs2, csub, copp, cadd, cmul, creal, c1. cbn [fst snd INR]. apply Rgt_not_eq. apply Rdiv_lt_0_compat; nra.
Qed.
Print Assumptions C100_core_blind_to_waves_refuted.
