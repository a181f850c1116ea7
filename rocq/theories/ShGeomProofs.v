(* Proofs about the geometry of a Shack-Hartmann sensor. *)
From Coq Require Import List ZArith Bool Arith QArith Qcanon Qround Lqa Lia.
From Verif Require Import PyBase PyLemmas Arith OpticalModel ExtModel InterpModel InterpProofs AtmoProofs ScreenModel ScreenProofs RadialModel QcTac MaskModel MaskProofs GeomModel GeomProofs ShGeomModel ShGeomSpec.
Import ListNotations.
Local Open Scope Qc_scope.

Lemma pos_this x : 0 < x <-> (0 < this x)%Q. Proof. reflexivity. Qed.
Lemma pos_nz x : 0 < x -> x <> 0. Proof. intros H ->. now apply Qlt_irrefl in H. Qed.
Lemma pos_mul x y : 0 < x -> 0 < y -> 0 < x * y.
Proof. rewrite !pos_this, this_mul. intros A B. nra. Qed.
Lemma pos_inv x : 0 < x -> 0 < / x.
Proof. rewrite !pos_this, this_inv. apply Qinv_lt_0_compat. Qed.
Lemma pos_div x y : 0 < x -> 0 < y -> 0 < x / y. Proof. intros A B. apply pos_mul, pos_inv; assumption. Qed.
Lemma pos_qz z : (1 <= z)%Z -> 0 < qz z.
Proof. intros H. rewrite pos_this, this_qz. change 0%Q with (inject_Z 0). rewrite <- Zlt_Qlt. lia. Qed.
Lemma pos_metres x : 0 < x -> 0 < metres x. Proof. intros H. apply pos_div; [exact H|apply pos_qz; lia]. Qed.
Lemma nz_qz z : (1 <= z)%Z -> qz z <> 0. Proof. intros H. apply pos_nz, pos_qz, H. Qed.
Lemma q2_z : q2 = qz 2. Proof. apply Qc_is_canon. reflexivity. Qed.
Lemma q2_nz : q2 <> 0. Proof. rewrite q2_z. apply nz_qz. lia. Qed.
Lemma qh_q2 : qh * q2 = 1. Proof. apply Qc_is_canon. reflexivity. Qed.
Lemma qh_div x : x * qh = x / q2. Proof. unfold qh. fold q2. field. exact q2_nz. Qed.
Lemma qtrunc_qz z : qtrunc (qz z) = z.
Proof.
  unfold qtrunc. assert (F : forall y, qfloor (qz y) = y) by (intros y; apply qfloor_unique; unfold Qcle, Qclt; rewrite ?this_add; change (this 1) with 1%Q; lra).
  destruct (qlt (qz z) 0); [|apply F]. unfold qceil. replace (- qz z) with (qz (- z)); [rewrite F; lia|]. apply Qc_iff. rewrite this_opp, !this_qz, inject_Z_opp. reflexivity.
Qed.
Lemma qz_sub a b : qz (a - b) = qz a - qz b.
Proof. apply Qc_iff. rewrite this_sub, !this_qz. unfold Zminus. rewrite inject_Z_plus, inject_Z_opp. reflexivity. Qed.
(* a fraction with a larger denominator is smaller *)
Lemma div_anti t a b : 0 < t -> (1 <= a)%Z -> (a <= b)%Z -> t / qz b <= t / qz a.
Proof.
  intros T A B. assert (Hb : (1 <= b)%Z) by lia. unfold Qcle.
  pose proof (div_times t (qz a) (nz_qz a A)) as Ea. pose proof (div_times t (qz b) (nz_qz b Hb)) as Eb. set (x := t / qz a) in *. set (y := t / qz b) in *.
  assert (Px : (0 < this x)%Q) by (apply pos_div; [exact T|apply pos_qz, A]). assert (Py : (0 < this y)%Q) by (apply pos_div; [exact T|apply pos_qz, Hb]).
  assert (E : (this x * inject_Z a == this y * inject_Z b)%Q). { rewrite <- !this_qz, <- !this_mul, Ea, Eb. reflexivity. }
  assert (L : (inject_Z a <= inject_Z b)%Q) by (rewrite <- Zle_Qle; exact B). assert (L1 : (1 <= inject_Z a)%Q) by (change 1%Q with (inject_Z 1); rewrite <- Zle_Qle; exact A).
  destruct (Qlt_le_dec (this x) (this y)) as [C|C]; [exfalso|exact C]. nra.
Qed.

(* ------------------------------------------------------------------------- the search *)
Lemma smallest_spec fuel : forall i t p r, smallest fuel i t p = Ok r -> (i <= r)%Z /\ t / qz (r + 2) < p /\ forall k, (i <= k < r)%Z -> p <= t / qz (k + 2).
Proof.
  induction fuel as [|f IH]; intros i t p r H; [discriminate|]. cbn [smallest] in H. destruct (qlt (t / qz (i + 2)) p) eqn:E.
  - injection H as <-. apply qlt_true in E. split; [lia|split; [exact E|intros; lia]].
  - apply qlt_false in E. destruct (IH _ _ _ _ H) as [A [B C]]. split; [lia|split; [exact B|]]. intros k K. destruct (Z.eq_dec k i) as [->|N]; [exact E|apply C; lia].
Qed.
Lemma smallest_mono fuel : forall fuel' i t p r, smallest fuel i t p = Ok r -> (fuel <= fuel')%nat -> smallest fuel' i t p = Ok r.
Proof.
  induction fuel as [|f IH]; intros [|f'] i t p r H L; try discriminate; [lia|]. cbn [smallest] in *. destruct (qlt (t / qz (i + 2)) p); [exact H|]. apply (IH f' _ _ _ _ H). lia.
Qed.
Lemma smallest_found fuel : forall i t p, t / qz (i + Z.of_nat fuel + 2) < p -> exists r, smallest (S fuel) i t p = Ok r.
Proof.
  induction fuel as [|f IH]; intros i t p H.
  - exists i. cbn [smallest]. replace (i + Z.of_nat 0 + 2)%Z with (i + 2)%Z in H by lia. now rewrite (proj2 (qlt_true _ _) H).
  - cbn [smallest]. destruct (qlt (t / qz (i + 2)) p) eqn:E; [now exists i|]. apply (IH (i + 1)%Z). replace (i + 1 + Z.of_nat f + 2)%Z with (i + Z.of_nat (S f) + 2)%Z by lia. exact H.
Qed.
Lemma smallest_total t p : 0 < t -> 0 < p -> exists f r, forall fuel, (f <= fuel)%nat -> smallest fuel 0 t p = Ok r.
Proof.
  intros T P. set (b := Z.to_nat (qceil (t / p))). destruct (smallest_found b 0 t p) as [r R].
  - assert (Q : 0 < t / p) by (apply pos_div; assumption). destruct (qceil_spec (t / p)) as [A _].
    assert (Z1 : (1 <= qceil (t / p))%Z). { rewrite pos_this in Q. assert (X : (inject_Z 0 < inject_Z (qceil (t / p)))%Q) by (change (inject_Z 0) with 0%Q; lra). apply zlt in X. lia. }
    replace (0 + Z.of_nat b + 2)%Z with (qceil (t / p) + 2)%Z by (unfold b; lia). set (k := (qceil (t / p) + 2)%Z) in *.
    pose proof (div_times t (qz k) (nz_qz k ltac:(lia))) as E. pose proof (div_times t p (pos_nz _ P)) as E2. set (y := t / qz k) in *. set (q := t / p) in *. unfold Qclt.
    assert (E' : (this y * inject_Z k == this q * this p)%Q) by (rewrite <- this_qz, <- !this_mul, E, E2; reflexivity).
    assert (K : (this q < inject_Z k)%Q). { unfold k. rewrite inject_Z_plus. change (inject_Z 2) with 2%Q. lra. }
    rewrite pos_this in Q, P. destruct (Qlt_le_dec (this y) (this p)) as [L|L]; [exact L|exfalso]. nra.
  - exists (S b), r. intros fuel F. apply (smallest_mono _ _ _ _ _ _ R F).
Qed.

(* ------------------------------------------------------------------------- the choice *)
Lemma argmin_from_bound l : forall best at_ pos, (argmin_from best at_ pos l = at_ \/ (pos <= argmin_from best at_ pos l < pos + length l)%nat).
Proof.
  induction l as [|v l IH]; intros best a pos; cbn [argmin_from length]; [now left|]. destruct (qlt v best).
  - destruct (IH v pos (S pos)) as [E|E]; right; lia.
  - destruct (IH best a (S pos)) as [E|E]; [now left|right; lia].
Qed.
Lemma argmin_bound l m : argmin l = Ok m -> (m < length l)%nat.
Proof. destruct l as [|v l]; cbn [argmin]; [discriminate|]. intros H. injection H as <-. destruct (argmin_from_bound l v 0 1) as [E|E]; cbn [length]; lia. Qed.
Lemma argmin_total l : l <> [] -> exists m, argmin l = Ok m. Proof. destruct l; [contradiction|]. intros _. cbn. eauto. Qed.
Lemma goods_spec w l : l <> [] -> goods w l <> [] /\ (forall k, In k (goods w l) -> (k < length l)%nat) /\ ((exists t, In t l /\ good w t = true) -> forall k, In k (goods w l) -> good w (nth_trial l k) = true).
Proof.
  intros N. unfold goods. set (g := filter (fun k => good w (nth_trial l k)) (seq 0 (length l))).
  assert (F : forall k, In k g <-> (k < length l)%nat /\ good w (nth_trial l k) = true). { intros k. unfold g. rewrite filter_In, in_seq. intuition lia. }
  destruct g as [|a r] eqn:Eg; cbn [length Nat.eqb].
  - split; [destruct l; [contradiction|discriminate]|]. split; [intros k K; apply in_seq in K; lia|]. intros [t [T1 T2]]. exfalso. apply In_nth with (d := no_trial) in T1. destruct T1 as [j [J1 J2]].
    apply (proj2 (F j)). split; [exact J1|]. unfold nth_trial. now rewrite J2.
  - split; [discriminate|]. split; [intros k K; apply F, K|intros _ k K; apply F, K].
Qed.
Lemma choose_spec w l : l <> [] -> exists k, choose w l = Ok (nth_trial l k) /\ (k < length l)%nat /\ ((exists t, In t l /\ good w t = true) -> good w (nth_trial l k) = true).
Proof.
  intros N. destruct (goods_spec w l N) as [G1 [G2 G3]]. unfold choose. destruct (argmin_total (map (ratio_mcm l) (goods w l))) as [m M]; [destruct (goods w l); [contradiction|discriminate]|].
  rewrite M. cbn [bind]. cbv zeta. apply argmin_bound in M. rewrite map_length in M.
  assert (I1 : In (nth m (goods w l) O) (goods w l)) by (apply nth_In, M). assert (I0 : In (nth 0 (goods w l) O) (goods w l)) by (apply nth_In; lia).
  destruct (negb (nth m (goods w l) 0 =? 0)%nat && _).
  - exists (nth m (goods w l) O). repeat split; [apply G2, I1|intros T; apply G3; assumption].
  - exists (nth 0 (goods w l) O). repeat split; [apply G2, I0|intros T; apply G3; assumption].
Qed.

(* --------------------------------------------------------------------- the resolution *)
Section S.
Variables (asec : Qc) (w : sensor) (size : Z) (pitch : Qc).
Hypothesis H : sound asec w size pitch.
Let t := diffraction asec w size pitch.
Let p := pixel asec w.
Lemma d_pos : 0 < t.
Proof. destruct H as [A [B [_ [_ [D [_ [F G]]]]]]]. unfold t, diffraction. apply pos_mul; [|exact A]. apply pos_div; [apply pos_metres, B|]. apply pos_div; [apply pos_mul; [apply pos_qz, F|exact G]|apply pos_qz, D]. Qed.
Lemma p_pos : 0 < p. Proof. destruct H as [A [_ [_ [B _]]]]. apply pos_mul; assumption. Qed.
Lemma turb_eq : turb_scale asec w size pitch = t.
Proof.
  destruct H as [A [B [_ [_ [D [_ [F G]]]]]]]. pose proof (nz_qz _ D). pose proof (nz_qz _ F). pose proof (pos_nz _ G). pose proof q2_nz.
  unfold turb_scale, t, diffraction, np_sub, lens_size. f_equal. field. repeat split; assumption.
Qed.
Lemma scale_back s : (1 <= s)%Z -> qround (t / (t / qz s)) = s.
Proof. intros S. pose proof (pos_nz _ d_pos). pose proof (nz_qz s S). replace (t / (t / qz s)) with (qz s) by (field; repeat split; assumption). apply qround_qz. Qed.
Lemma trial_eq imin k : (0 <= imin)%Z -> let s := (imin + Z.of_nat k + 2)%Z in make_trial asec w size pitch t imin k =
  mkTrial (t / qz s) s (t / qz s) (2 * qround (w_wanted w / (t / qz s) / qz 2)) (Z.lcm (w_npx w) (2 * qround (w_wanted w / (t / qz s) / qz 2))).
Proof.
  intros I s. unfold make_trial. fold s. cbv zeta. rewrite scale_back by lia.
  assert (E : metres (w_nm w) * qz (w_n w) / (qz size * pitch * qz s) * asec = t / qz s).
  { destruct H as [A [B [_ [_ [D [_ [F G]]]]]]]. pose proof (nz_qz _ D). pose proof (nz_qz _ F). pose proof (pos_nz _ G). pose proof (nz_qz s ltac:(lia)). unfold t, diffraction. field. repeat split; assumption. }
  rewrite E, q2_z, Z.mul_comm. reflexivity.
Qed.
Lemma good_eq imin k : (0 <= imin)%Z -> good w (make_trial asec w size pitch t imin k) = qlt (field_error (w_wanted w) (t / qz (imin + Z.of_nat k + 2))) (qz 2 / qz 100).
Proof. intros I. rewrite (trial_eq imin k I). reflexivity. Qed.

Lemma p_alt : w_px w * asec = p. Proof. reflexivity. Qed.
(* the resolutions that can be chosen *)
Lemma resolution_spec fuel r : w_res w = 0 -> resolution fuel asec w size pitch = Ok r -> exists s, (1 <= s)%Z /\ r = t / qz s /\ t / qz s < p.
Proof.
  intros R E. unfold resolution in E. cbv zeta in E. rewrite turb_eq, p_alt in E. rewrite (proj2 (is0_true _) R) in E. destruct (w_turb w).
  - destruct (qlt t p) eqn:L; [|discriminate]. injection E as <-. apply qlt_true in L. exists 1%Z. replace (t / qz 1) with t by (change (qz 1) with 1; field; discriminate). repeat split; [lia|exact L].
  - destruct (qlt t p && qlt qh (p / q2)) eqn:L.
    + injection E as <-. apply andb_true_iff in L. destruct L as [L _]. apply qlt_true in L. exists 2%Z. rewrite qh_div, q2_z. repeat split; [lia|].
      pose proof (div_anti t 1 2 d_pos ltac:(lia) ltac:(lia)) as D. replace (t / qz 1) with t in D by (change (qz 1) with 1; field; discriminate). unfold Qcle, Qclt in *. lra.
    + apply bind_ok in E. destruct E as [imin [? E]]. match goal with K : smallest _ _ _ _ = Ok _ |- _ => destruct (smallest_spec _ _ _ _ _ K) as [A [B _]] end.
      apply bind_ok in E. destruct E as [tr [? E]]. injection E as <-. match goal with K : choose _ ?l = Ok _ |- _ => destruct (choose_spec w l ltac:(discriminate)) as [k [K1 [K2 _]]]; assert (KK : tr = nth_trial l k) by congruence; subst tr end.
      rewrite map_length, seq_length in K2. unfold nth_trial. rewrite nth_map_seq by exact K2. rewrite trial_eq by lia. cbn [t_res].
      exists (imin + Z.of_nat k + 2)%Z. repeat split; [lia|]. pose proof (div_anti t (imin + 2) (imin + Z.of_nat k + 2) d_pos ltac:(lia) ltac:(lia)) as D. unfold Qcle, Qclt in *. lra.
Qed.
Lemma resolution_total : w_res w = 0 -> exists f, if w_turb w && negb (qlt t p) then forall fuel, resolution fuel asec w size pitch = Err ValueError else exists r, forall fuel, (f <= fuel)%nat -> resolution fuel asec w size pitch = Ok r.
Proof.
  intros R. destruct (smallest_total t p d_pos p_pos) as [f [i I]]. exists f. destruct (w_turb w) eqn:W; cbn [andb].
  - destruct (qlt t p) eqn:L; cbn [negb]; [exists t|]; intros fuel; try intros _; unfold resolution; cbv zeta; rewrite turb_eq, p_alt, (proj2 (is0_true _) R), W, L; reflexivity.
  - destruct (qlt t p && qlt qh (p / q2)) eqn:L.
    + exists (t * qh). intros fuel _. unfold resolution; cbv zeta; rewrite turb_eq, p_alt, (proj2 (is0_true _) R), W, L; reflexivity.
    + destruct (choose_spec w (map (make_trial asec w size pitch t i) (seq 0 10)) ltac:(discriminate)) as [k [K _]].
      eexists. intros fuel F. unfold resolution; cbv zeta; rewrite turb_eq, p_alt, (proj2 (is0_true _) R), W, L, (I fuel F). cbn [bind]. rewrite K. cbn [bind]. reflexivity.
Qed.
(* the third way to choose *)
Lemma resolution_choice fuel r : w_res w = 0 -> w_turb w = false -> ~ (t < p /\ 1 < p) -> resolution fuel asec w size pitch = Ok r ->
  exists m s, first_fine t p m /\ (m <= s < m + 10)%Z /\ r = t / qz s /\
    ((exists k, (m <= k < m + 10)%Z /\ field_error (w_wanted w) (t / qz k) < qz 2 / qz 100) -> field_error (w_wanted w) (t / qz s) < qz 2 / qz 100).
Proof.
  intros R W N E. unfold resolution in E. cbv zeta in E. rewrite turb_eq, p_alt in E. rewrite (proj2 (is0_true _) R), W in E.
  destruct (qlt t p && qlt qh (p / q2)) eqn:L.
  { exfalso. apply N. apply andb_true_iff in L. destruct L as [L1 L2]. apply qlt_true in L1, L2. split; [exact L1|]. rewrite this_div in L2. change (this qh) with (1 # 2)%Q in L2. change (this q2) with 2%Q in L2. unfold Qclt. change (this 1) with 1%Q.
    unfold Qdiv in L2. change (/ 2)%Q with (1 # 2)%Q in L2. lra. }
  apply bind_ok in E. destruct E as [imin [? E]]. match goal with K : smallest _ _ _ _ = Ok _ |- _ => destruct (smallest_spec _ _ _ _ _ K) as [A [B C]] end.
  apply bind_ok in E. destruct E as [tr [? E]]. injection E as <-. match goal with K : choose _ ?l = Ok _ |- _ => destruct (choose_spec w l ltac:(discriminate)) as [k [K1 [K2 K3]]]; assert (KK : tr = nth_trial l k) by congruence; subst tr end.
  rewrite map_length, seq_length in K2. unfold nth_trial in K3 |- *. rewrite nth_map_seq in K3 |- * by exact K2. exists (imin + 2)%Z, (imin + Z.of_nat k + 2)%Z. split.
  - split; [lia|split; [exact B|]]. intros j J. replace j with (j - 2 + 2)%Z by lia. apply C. lia.
  - split; [lia|split; [rewrite trial_eq by lia; reflexivity|]]. intros [j [J1 J2]]. rewrite good_eq in K3 by lia. apply qlt_true, K3.
    exists (make_trial asec w size pitch t imin (Z.to_nat (j - imin - 2))). split; [apply in_map, in_seq; lia|]. rewrite good_eq by lia. replace (imin + Z.of_nat (Z.to_nat (j - imin - 2)) + 2)%Z with j by lia. now apply qlt_true.
Qed.
End S.

(* ------------------------------------------------------------------------- the layout *)
Lemma qmax_ge a b : a <= qmax a b /\ b <= qmax a b.
Proof. unfold qmax, Qcle. destruct (qlt a b) eqn:E; [apply qlt_true in E|apply qlt_false in E]; split; lra. Qed.
Lemma qmax_cases a b : qmax a b = a \/ qmax a b = b. Proof. unfold qmax. destruct (qlt a b); auto. Qed.
Lemma needed_ge w fov tf : 1 <= needed w fov tf /\ w_coeff w <= needed w fov tf /\ ((0 < tf)%Z -> qz fov / qz tf <= needed w fov tf).
Proof.
  unfold needed. destruct (qmax_ge 1 (if (0 <? tf)%Z then qz fov / qz tf else 1)) as [A B]. destruct (qmax_ge (qmax 1 (if (0 <? tf)%Z then qz fov / qz tf else 1)) (w_coeff w)) as [C D].
  split; [eapply Qcle_trans; eassumption|split; [exact D|]]. intros P. apply Z.ltb_lt in P. rewrite P in *. eapply Qcle_trans; eassumption.
Qed.
Section Y.
Variables (asec : Qc) (w : sensor) (size : Z) (pitch : Qc).
Hypothesis H : sound asec w size pitch.
Let t := diffraction asec w size pitch.
Let p := pixel asec w.
Variable s : Z.
Hypothesis S1 : (1 <= s)%Z.
Let n := w_n w.
Let fft_px := t / qz s.
Definition fov_of (q : Qc) : Z := (2 * qround (q / qz 2))%Z.
Let fov := fov_of (p * qz (w_npx w) / fft_px).
Let tf := qtrunc (qz s * np_sub n size).
Let c := qceil (qz size * needed w fov tf / qz (2 * n)).
Let final := (c * (2 * n))%Z.
Let w' := mkSensor (w_nm w) (w_wanted w) (qz fov * fft_px / qz (w_npx w) / asec) n (w_npx w) (w_coeff w) (w_turb w) fft_px.
Let y := mkLayout s fft_px fov final (qz final / qz size) (2 * c) (2 * c * s).
Lemma n_ge : (1 <= n)%Z. Proof. apply H. Qed.
Lemma size_ge : (1 <= size)%Z. Proof. apply H. Qed.
Lemma fft_px_pos : 0 < fft_px. Proof. apply pos_div; [apply (d_pos _ _ _ _ H)|apply pos_qz, S1]. Qed.
Lemma final_bounds : qz size * needed w fov tf <= qz final /\ qz final < qz size * needed w fov tf + qz (2 * n).
Proof.
  pose proof n_ge. pose proof (nz_qz (2 * n) ltac:(lia)) as N. pose proof (pos_qz (2 * n) ltac:(lia)) as P. unfold final. rewrite qz_inj_mul. destruct (qceil_spec (qz size * needed w fov tf / qz (2 * n))) as [A B]. fold c in A, B.
  pose proof (div_times (qz size * needed w fov tf) (qz (2 * n)) N) as E. set (q := qz size * needed w fov tf / qz (2 * n)) in *. rewrite <- E. rewrite pos_this in P. unfold Qcle, Qclt.
  rewrite this_add, !this_mul, (this_qz c). split; nra.
Qed.
Lemma c_ge : (1 <= c)%Z.
Proof.
  destruct final_bounds as [A _]. destruct (needed_ge w fov tf) as [N _]. pose proof (pos_qz _ size_ge) as P. pose proof n_ge. unfold final in A. rewrite qz_inj_mul in A.
  rewrite pos_this in P. unfold Qcle in *. change (this 1) with 1%Q in N. rewrite !this_mul in A. rewrite (this_qz c), (this_qz (2 * n)) in A.
  assert (X : (0 < inject_Z c * inject_Z (2 * n))%Q) by nra. rewrite <- inject_Z_mult in X. change 0%Q with (inject_Z 0) in X. rewrite <- Zlt_Qlt in X. nia.
Qed.
Lemma final_ge : (1 <= final)%Z. Proof. unfold final. pose proof c_ge. pose proof n_ge. nia. Qed.
Lemma per_eq : qz size * (qz final / qz size) * lens_size n = qz (2 * (2 * c)).
Proof.
  pose proof (nz_qz _ size_ge). pose proof (nz_qz _ n_ge). unfold lens_size, final. rewrite !qz_inj_mul, q2_z. field. split; assumption.
Qed.
Lemma set_in_ef_eq fuel : resolution fuel asec w size pitch = Ok fft_px -> set_in_ef fuel asec w size pitch = Ok (w', y).
Proof.
  intros R. unfold set_in_ef. rewrite R. cbn [bind]. cbv zeta. rewrite (turb_eq _ _ _ _ H). fold t. replace (qround (t / fft_px)) with s by (symmetry; apply (scale_back _ _ _ _ H), S1).
  assert (E1 : metres (w_nm w) / (qz size * pitch * qz s / qz (w_n w)) * asec = fft_px).
  { destruct H as [A [B [_ [_ [D [_ [F G]]]]]]]. pose proof (nz_qz _ D). pose proof (nz_qz _ F). pose proof (pos_nz _ G). pose proof (nz_qz s S1). unfold fft_px, t, diffraction. field. repeat split; assumption. }
  rewrite E1. replace (qround (w_px w * qz (w_npx w) * asec / fft_px / q2) * 2)%Z with fov.
  2: { unfold fov, fov_of. rewrite Z.mul_comm. f_equal. f_equal. rewrite q2_z. f_equal. f_equal. unfold p, pixel. ring. }
  fold n. fold tf. fold c. fold final. rewrite per_eq, qh_div. replace (qz (2 * (2 * c)) / q2) with (qz (2 * c)). 2: { rewrite (qz_inj_mul 2 (2 * c)), q2_z. field. apply nz_qz. lia. }
  rewrite qround_qz. replace (qz (2 * c) - qz (2 * c)) with 0 by ring. replace (qlt (1 / qz 10000) (qabs 0)) with false by (symmetry; apply qlt_false; discriminate). reflexivity.
Qed.
Let fp := fft_px / asec.
Lemma focal_eq : focal_of asec w' y pitch = mkFocalPlane fp (2 * c * s - fov) fov (w_wanted w / (qz (2 * c * s) * fft_px)).
Proof.
  pose proof c_ge as C. assert (C2 : (1 <= 2 * c * s)%Z) by nia. pose proof (nz_qz _ C2) as NC. pose proof (nz_qz _ size_ge) as NS. pose proof (nz_qz _ n_ge) as NN. pose proof (nz_qz _ final_ge) as NF. pose proof (nz_qz s S1) as NZ. pose proof (pos_nz _ fft_px_pos) as NX.
  destruct H as [A [_ [_ [_ [_ [F2 [_ G]]]]]]]. pose proof (pos_nz _ A) as NA. pose proof (pos_nz _ G) as NG. pose proof (nz_qz _ F2) as NP.
  unfold focal_of. cbn [w_nm w_px w_npx w_wanted y_ovs y_fft w' y]. cbv zeta.
  assert (E : metres (w_nm w) / (pitch / (qz final / qz size) * qz (2 * c * s)) = fp).
  { unfold fp, fft_px, t, diffraction. fold n. unfold final in *. rewrite !qz_inj_mul in *. pose proof (nz_qz c C). pose proof (nz_qz 2 ltac:(lia)). field. repeat split; assumption. }
  rewrite E. assert (NFP : fp <> 0) by (unfold fp; apply pos_nz, pos_div; [apply fft_px_pos|exact A]).
  replace ((qz (2 * c * s) * fp - qz fov * fft_px / qz (w_npx w) / asec * qz (w_npx w)) / fp) with (qz (2 * c * s - fov)).
  2: { rewrite qz_sub. unfold fp in *. field. repeat split; assumption. }
  rewrite qround_qz. replace (qz (2 * c * s - fov) / q2 * q2) with (qz (2 * c * s - fov)) by (field; exact q2_nz). rewrite qtrunc_qz. f_equal; [lia|]. unfold fp. field. repeat split; assumption.
Qed.
(* the transforms are large enough *)
Lemma tf_le : (inject_Z tf <= this (qz s * (qz size / qz n))%Qc)%Q.
Proof.
  assert (E : qz s * np_sub n size = qz s * (qz size / qz n)). { unfold np_sub, lens_size. pose proof (nz_qz _ n_ge). field. split; [assumption|exact q2_nz]. }
  unfold tf. rewrite E. unfold qtrunc. replace (qlt (qz s * (qz size / qz n)) 0) with false; [apply qfloor_le|]. symmetry. apply qlt_false. apply Qlt_le_weak. apply (pos_mul (qz s)); [apply pos_qz, S1|]. apply pos_div; apply pos_qz; [apply size_ge|apply n_ge].
Qed.
Lemma tf_pos : (n <= size * s)%Z -> (0 < tf)%Z.
Proof.
  intros N. assert (E : qz s * np_sub n size = qz s * (qz size / qz n)). { unfold np_sub, lens_size. pose proof (nz_qz _ n_ge). field. split; [assumption|exact q2_nz]. }
  unfold tf. rewrite E. pose proof (nz_qz _ n_ge) as NN. pose proof (pos_qz _ n_ge) as PN. set (q := qz s * (qz size / qz n)) in *. assert (Q : q * qz n = qz (size * s)) by (unfold q; rewrite qz_inj_mul; field; exact NN).
  assert (Q1 : (1 <= this q)%Q). { assert (X : (this q * inject_Z n == inject_Z (size * s))%Q) by (rewrite <- !this_qz, <- this_mul, Q; reflexivity). assert (Y : (inject_Z n <= inject_Z (size * s))%Q) by (rewrite <- Zle_Qle; exact N).
    rewrite pos_this, this_qz in PN. destruct (Qlt_le_dec (this q) 1) as [L|L]; [exfalso; nra|exact L]. }
  unfold qtrunc. replace (qlt q 0) with false by (symmetry; apply qlt_false; change (this 0) with 0%Q; lra). pose proof (qfloor_lt q) as F. assert (X : (inject_Z 0 < inject_Z (qfloor q))%Q); [|now apply zlt in X].
  change (inject_Z 0) with 0%Q. assert (Z1 : (1 < inject_Z (qfloor q) + 1)%Q \/ (inject_Z (qfloor q) + 1 <= 1)%Q) by (destruct (Qlt_le_dec 1 (inject_Z (qfloor q) + 1)); auto). lra.
Qed.
Lemma cut_nonneg : (n <= size * s)%Z -> (fov <= 2 * c * s)%Z.
Proof.
  intros N. pose proof (tf_pos N) as T0. pose proof tf_le as T1. destruct final_bounds as [A _]. destruct (needed_ge w fov tf) as [_ [_ B]]. specialize (B T0).
  pose proof (nz_qz tf ltac:(lia)) as NT. pose proof (div_times (qz fov) (qz tf) NT) as E. set (ra := qz fov / qz tf) in *. set (nd := needed w fov tf) in *.
  pose proof (nz_qz _ n_ge) as NN. pose proof (pos_qz _ n_ge) as PN. set (q := qz s * (qz size / qz n)) in *. assert (Q : q * qz n = qz s * qz size) by (unfold q; field; exact NN).
  assert (Nd : 1 <= nd) by apply (needed_ge w fov tf).
  apply zle. assert (E' : (this ra * inject_Z tf == inject_Z fov)%Q) by (rewrite <- !this_qz, <- this_mul, E; reflexivity).
  assert (Q' : (this q * inject_Z n == inject_Z s * inject_Z size)%Q) by (rewrite <- !this_qz, <- !this_mul, Q; reflexivity).
  assert (A' : (inject_Z size * this nd <= inject_Z c * (2 * inject_Z n))%Q). { unfold Qcle in A. rewrite this_mul, !this_qz in A. unfold final in A. rewrite !inject_Z_mult in A. exact A. }
  rewrite pos_this, this_qz in PN. rewrite !inject_Z_mult. change (inject_Z 2) with 2%Q. unfold Qcle in B, Nd. change (this 1) with 1%Q in Nd.
  assert (P1 : (0 < inject_Z tf)%Q) by (change 0%Q with (inject_Z 0); rewrite <- Zlt_Qlt; exact T0). assert (P2 : (0 < inject_Z s)%Q) by (change 0%Q with (inject_Z 0); rewrite <- Zlt_Qlt; lia).
  assert (X1 : (inject_Z fov <= this nd * this q)%Q). { rewrite <- E'. apply Qle_trans with (this nd * inject_Z tf)%Q; [apply Qmult_le_compat_r; [exact B|lra]|]. rewrite !(Qmult_comm (this nd)). apply Qmult_le_compat_r; [exact T1|lra]. }
  assert (X2 : (this nd * this q * inject_Z n <= 2 * inject_Z c * inject_Z s * inject_Z n)%Q).
  { setoid_replace (this nd * this q * inject_Z n)%Q with (inject_Z size * this nd * inject_Z s)%Q by (rewrite <- (Qmult_assoc (this nd)), Q'; ring). setoid_replace (2 * inject_Z c * inject_Z s * inject_Z n)%Q with (inject_Z c * (2 * inject_Z n) * inject_Z s)%Q by ring. apply Qmult_le_compat_r; [exact A'|lra]. }
  apply Qle_trans with (this nd * this q)%Q; [exact X1|]. apply Qmult_le_r with (inject_Z n); [exact PN|exact X2].
Qed.
End Y.
