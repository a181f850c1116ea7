From Coq Require Import List ZArith Bool Arith QArith Qcanon Lqa Lia.
From Verif Require Import PyBase PyLemmas Arith ArithLemmas FilterSpec SumLemmas OpticalModel ExtModel QcTac InterpModel InterpProofs AtmoModel AtmoSpec AtmoProofs SlopecSpec InfModel InfSpec InfProofs.
Import ListNotations.
Local Open Scope nat_scope.

(* [x] is n whole lines and a fraction f *)
Definition whole (x : Qc) (n : nat) (f : Qc) : Prop := (x = qnat n + f /\ 0 <= f /\ f < 1)%Qc.
Lemma whole_ex x : (0 <= x)%Qc -> exists n f, whole x n f.
Proof.
  intros H. pose proof (floor_nonneg x H) as Hz. destruct (floor_bounds x) as [A B]. exists (Z.to_nat (qfloor x)), (x - qnat (Z.to_nat (qfloor x)))%Qc.
  assert (E : qnat (Z.to_nat (qfloor x)) = qz (qfloor x)) by (unfold qnat, qz; now rewrite Z2Nat.id).
  rewrite E. unfold whole. rewrite E. split; [ring|]. unfold qz. split; qclra.
Qed.
Lemma qnat_0_le n : (0 <= qnat n)%Qc. Proof. apply (qnat_le 0 n). lia. Qed.
Lemma qnat_qz n : qnat n = qz (Z.of_nat n). Proof. reflexivity. Qed.
Lemma whole_le x y n f m k : whole x n f -> whole y m k -> (x <= y)%Qc -> n <= m.
Proof.
  intros (-> & F1 & F2) (-> & K1 & K2) H. assert (L : (qz (Z.of_nat n) < qz (Z.of_nat m + 1))%Qc).
  { rewrite qz_add, <- !qnat_qz. change (qz 1) with 1%Qc. qclra. }
  apply qz_lt in L. lia.
Qed.
Lemma whole_unique x n f m k : whole x n f -> whole x m k -> n = m /\ f = k.
Proof.
  intros A B. assert (n = m) by (apply Nat.le_antisymm; [eapply whole_le; [exact A|exact B|apply Qcle_refl]|eapply whole_le; [exact B|exact A|apply Qcle_refl]]).
  subst m. split; [reflexivity|]. destruct A as (-> & _), B as (B & _). qclra.
Qed.

(* numpy.modf of a displacement in one of the two senses *)
Definition sense (after : bool) : Qc := if after then 1%Qc else (- (1))%Qc.
Lemma qz_opp z : qz (- z) = (- qz z)%Qc. Proof. apply Qc_iff. unfold qz. rewrite this_opp, !this_q, inject_Z_opp. reflexivity. Qed.
Lemma modf_sense after x n f : whole x n f ->
  modf (sense after * x) = ((sense after * f)%Qc, (if after then Z.of_nat n else - Z.of_nat n)%Z).
Proof.
  intros (-> & F1 & F2). pose proof (qnat_0_le n) as P.
  assert (Fl : qfloor (qnat n + f) = Z.of_nat n) by (apply qfloor_unique; rewrite <- qnat_qz; qclra).
  assert (T : qtrunc (sense after * (qnat n + f)) = (if after then Z.of_nat n else - Z.of_nat n)%Z).
  { unfold qtrunc, sense. destruct after.
    - destruct (qlt (1 * (qnat n + f)) 0) eqn:E; [exfalso; qclra|]. rewrite <- Fl. f_equal. ring.
    - destruct (qlt (- (1) * (qnat n + f)) 0) eqn:E.
      + f_equal. rewrite <- Fl. f_equal. ring.
      + assert (Z0 : (qnat n + f)%Qc = 0%Qc) by qclra. rewrite <- Fl, Z0. replace (- (1) * 0)%Qc with 0%Qc by ring. reflexivity. }
  unfold modf. rewrite T. f_equal. destruct after; unfold sense; rewrite ?qz_opp, <- qnat_qz; ring.
Qed.
Lemma modf_0 : modf 0 = (0%Qc, 0%Z).
Proof. unfold modf. assert (T : qtrunc 0 = 0%Z) by reflexivity. rewrite T. f_equal. Qed.
Lemma qabs_sense after f : (0 <= f)%Qc -> qabs (sense after * f) = f.
Proof. intros H. unfold qabs, sense. destruct after; destruct (qlt _ 0) eqn:E; qclra. Qed.
Lemma veps_pos : (0 < veps)%Qc. Proof. reflexivity. Qed.
Lemma veps_1 after : qlt veps (qabs (sense after)) = true. Proof. destruct after; reflexivity. Qed.
Lemma veps_0 : qlt veps (qabs 0) = false. Proof. reflexivity. Qed.
Lemma sense_sign after f : (0 < f)%Qc -> qlt 0 (sense after * f) = after.
Proof. intros H. unfold sense. destruct after; [|apply not_true_iff_false; intros E]; qclra. Qed.

Lemma shown_square n m f a : square_of n f a -> m <= n -> square_of m f (shown m a).
Proof.
  intros (L & W & V) Hm. unfold shown. split; [|split].
  - rewrite map_length, firstn_length. lia.
  - intros i Hi. rewrite nth_map_nil by (now destruct m). rewrite firstn_nth, firstn_length by auto. rewrite W by lia. lia.
  - intros i j Hi Hj. rewrite nth_map_nil by (now destruct m). rewrite firstn_nth, firstn_nth by auto. apply V; lia.
Qed.
Lemma blend_square m f u v a b : square_of m u b -> square_of m v a -> square_of m (fun i j => f * u i j + (1 - f) * v i j)%Qc (blend f b a).
Proof.
  intros (L & W & V) (L' & W' & V'). unfold blend.
  assert (R : forall i, i < m -> nth i (map2 (map2 (fun y x => f * y + (1 - f) * x)%Qc) b a) [] = map2 (fun y x => f * y + (1 - f) * x)%Qc (nth i b []) (nth i a [])) by (intros; apply map2_nth; lia).
  split; [|split].
  - rewrite map2_length. lia.
  - intros i Hi. rewrite R by auto. rewrite map2_length, W, W' by auto. lia.
  - intros i j Hi Hj. rewrite R by auto. rewrite (map2_nth _ _ _ j 0%Qc 0%Qc) by (rewrite ?W, ?W'; auto). now rewrite V, V'.
Qed.
Lemma scaled_square m c w f a : square_of m f a -> square_of m (fun i j => f i j * (c * w))%Qc (scaled c w a).
Proof.
  intros (L & W & V). unfold scaled. split; [|split].
  - now rewrite map_length.
  - intros i Hi. rewrite nth_map_nil by reflexivity. rewrite map_length. auto.
  - intros i j Hi Hj. rewrite nth_map_nil by reflexivity. rewrite (nth_indep _ 0%Qc ((fun x => x * (c * w)) 0)%Qc) by (rewrite map_length, W by auto; auto).
    rewrite (map_nth (fun x => x * (c * w))%Qc). now rewrite V.
Qed.

Section W.
Variables cosd sind root : Qc -> Qc.
Variable pitch : Qc.
Hypothesis Hroot : forall x, (0 <= x)%Qc -> root (x * x)%Qc = x.
Variables row after : bool.
(* the direction of motion, from the two components of the wind *)
Definition heads (dir : Qc) : Prop := if row then (cosd dir = sense after /\ sind dir = 0)%Qc else (cosd dir = 0 /\ sind dir = sense after)%Qc.

Variable l : leaf.
Notation g := (l_geom l).
Notation N := (g_n g).
Hypothesis Hg : geom_ok g.
Hypothesis Hn : forall k, length (l_noise l k) = N.
Hypothesis Hm : l_size l <= N.
Variable P : nat -> nat -> Qc.
Hypothesis Gr : forall n, grows g (l_noise l) after P n.

(* the screen and its track when the effective position is x *)
Definition riding (x : Qc) (s : inf) (k : track) : Prop :=
  exists n f, whole x n f /\ at_step g row after P n (i_full s) /\ ready (l_noise l) row n s /\ t_eff k = x /\
    (if row then t_rows k = (sense after * f)%Qc /\ t_cols k = 0%Qc else t_rows k = 0%Qc /\ t_cols k = (sense after * f)%Qc).

Lemma waft_step x s k v dir dt : riding x s k -> heads dir ->
  let y := (t_pos k + v * dt / pitch + v * l_extra l / pitch)%Qc in (x <= y)%Qc ->
  let r := waft cosd sind root pitch l s k v dir dt in
  riding y (fst (fst r)) (snd (fst r)) /\ t_pos (snd (fst r)) = (t_pos k + v * dt / pitch)%Qc /\
  forall m q, whole y m q -> square_of (l_size l) (fun i j => glimpse veps P m q (across row i j) (depth row after N i j)) (snd r).
Proof.
  intros (n & f & Wx & A & R & Te & Ta) Hd y Hxy. assert (Hy : (0 <= y)%Qc).
  { destruct Wx as (Ex & F1 & _). pose proof (qnat_0_le n) as Pn. qclra. }
  destruct (whole_ex y Hy) as (m & q & Wy). pose proof (whole_le _ _ _ _ _ _ Wx Wy Hxy) as Hnm.
  assert (Wd : whole (y - x + f) (m - n) q).
  { destruct Wx as (Ex & _), Wy as (Ey & Q1 & Q2). split; [|now split]. rewrite Ex, Ey. replace (qnat (m - n)) with (qnat m - qnat n)%Qc; [ring|].
    rewrite !qnat_qz, Nat2Z.inj_sub, qz_sub by auto. reflexivity. }
  destruct Wy as (Ey & Q1 & Q2).
  assert (Md : modf (sense after * (y - x + f)) = ((sense after * q)%Qc, (if after then Z.of_nat (m - n) else - Z.of_nat (m - n))%Z)) by exact (modf_sense after _ _ _ Wd).
  assert (Nz : Z.abs_nat (if after then Z.of_nat (m - n) else - Z.of_nat (m - n)) = m - n) by (destruct after; lia).
  assert (Sg : m - n <> 0 -> Z.ltb 0 (if after then Z.of_nat (m - n) else - Z.of_nat (m - n)) = after) by (intros; destruct after; [apply Z.ltb_lt|apply Z.ltb_ge]; lia).
  set (s2 := add_lines g (l_noise l) (m - n) s row after).
  assert (S2 : forall b, (m - n <> 0 -> b = after) -> add_lines g (l_noise l) (m - n) s row b = s2).
  { intros b Hb. unfold s2. destruct (Nat.eq_dec (m - n) 0) as [Z|Z]; [now rewrite Z|now rewrite Hb]. }
  destruct (add_lines_strip g Hg (l_noise l) Hn row after P (m - n) n s A R Gr) as [A2 R2]. fold s2 in A2, R2. replace (n + (m - n)) with m in A2, R2 by lia.
  set (s3 := if qlt veps q then add_line g (l_noise l) s2 row after false else s2).
  assert (A3 : square_of (l_size l) (fun i j => glimpse veps P m q (across row i j) (depth row after N i j))
      (blend q (shown (l_size l) (i_full s3)) (shown (l_size l) (i_full s2)))).
  { pose proof (shown_square _ _ _ _ A2 Hm) as B2. unfold s3, glimpse. destruct (qlt veps q) eqn:E.
    - destruct (add_line_strip g Hg (l_noise l) Hn row after P m s2 false A2 R2 (Gr m)) as [A3 _].
      pose proof (shown_square _ _ _ _ A3 Hm) as B3. eapply square_ext; [apply blend_square; [exact B3|exact B2]|].
      intros i j Hi Hj. cbv beta. destruct (Qclt_le_dec veps q) as [_|X]; [|exfalso; qclra].
      replace (m + depth row after N i j + 1)%nat with (S m + depth row after N i j)%nat by lia. ring.
    - eapply square_ext; [apply blend_square; [exact B2|exact B2]|]. intros i j Hi Hj. cbv beta. destruct (Qclt_le_dec veps q) as [X|_]; [exfalso; qclra|]. ring. }
  assert (R3 : ready (l_noise l) row m (mkInf (i_full s2) (i_col s3) (i_row s3) (i_drawn s3))).
  { unfold s3. destruct (qlt veps q).
    - destruct (add_line_strip g Hg (l_noise l) Hn row after P m s2 false A2 R2 (Gr m)) as [_ (X1 & X2 & X3)]. split; [exact X2|]. right. split; [exact X1|exact X3].
    - exact R2. }
  assert (Root : root (sense after * q * (sense after * q))%Qc = q).
  { replace (sense after * q * (sense after * q))%Qc with (q * q)%Qc by (destruct after; cbn [sense]; ring). now apply Hroot. }
  assert (Goal : waft cosd sind root pitch l s k v dir dt =
    (mkInf (i_full s2) (i_col s3) (i_row s3) (i_drawn s3),
     mkTrack (t_pos k + v * dt / pitch)%Qc y (if row then sense after * q else 0)%Qc (if row then 0 else sense after * q)%Qc,
     blend q (shown (l_size l) (i_full s3)) (shown (l_size l) (i_full s2)))).
  { unfold waft. fold y. rewrite Te. unfold heads in Hd. destruct row; destruct Hd as [Hc Hs]; destruct Ta as [Tr Tc]; rewrite Hc, Hs, Tr, Tc.
    - replace ((y - x) * sense after + sense after * f)%Qc with (sense after * (y - x + f))%Qc by ring. replace ((y - x) * 0 + 0)%Qc with 0%Qc by ring.
      rewrite Md, modf_0, veps_1, !veps_0, Nz. rewrite (S2 _ Sg), qabs_sense by exact Q1.
      replace (sense after * q * (sense after * q) + 0 * 0)%Qc with (sense after * q * (sense after * q))%Qc by ring. rewrite Root. unfold s3. destruct (qlt veps q) eqn:E; [|reflexivity].
      rewrite sense_sign; [reflexivity|]. pose proof veps_pos. qclra.
    - replace ((y - x) * sense after + sense after * f)%Qc with (sense after * (y - x + f))%Qc by ring. replace ((y - x) * 0 + 0)%Qc with 0%Qc by ring.
      rewrite Md, modf_0, veps_1, !veps_0, Nz. rewrite (S2 _ Sg), qabs_sense by exact Q1.
      replace (0 * 0 + sense after * q * (sense after * q))%Qc with (sense after * q * (sense after * q))%Qc by ring. rewrite Root. unfold s3. destruct (qlt veps q) eqn:E; [|reflexivity].
      rewrite sense_sign; [reflexivity|]. pose proof veps_pos. qclra. }
  rewrite Goal. cbn [fst snd]. split; [|split].
  - exists m, q. split; [split; auto|]. split; [exact A2|]. split; [exact R3|]. split; [reflexivity|]. destruct row; now split.
  - reflexivity.
  - intros m' q' W'. destruct (whole_unique _ _ _ _ _ W' (conj Ey (conj Q1 Q2))) as [-> ->]. exact A3.
Qed.
End W.
