(* Proofs about the geometry of Fourier transforms. *)
From Coq Require Import List ZArith Bool Arith QArith Qcanon Qround Lqa Lia.
From Verif Require Import PyBase PyLemmas Arith OpticalModel InterpModel InterpProofs AtmoProofs ScreenModel ScreenProofs QcTac MaskProofs GeomModel.
Import ListNotations.
Local Open Scope Qc_scope.

Lemma qfloor_le x : (inject_Z (qfloor x) <= this x)%Q. Proof. unfold qfloor. apply Qfloor_le. Qed.
Lemma qfloor_lt x : (this x < inject_Z (qfloor x) + 1)%Q.
Proof. unfold qfloor. pose proof (Qlt_floor (this x)) as H. rewrite inject_Z_plus in H. exact H. Qed.
Lemma zle a b : (inject_Z a <= inject_Z b)%Q -> (a <= b)%Z. Proof. now rewrite <- Zle_Qle. Qed.
Lemma zlt a b : (inject_Z a < inject_Z b)%Q -> (a < b)%Z. Proof. now rewrite <- Zlt_Qlt. Qed.
Lemma zlt1 a b : (inject_Z a < inject_Z b + 1)%Q -> (a <= b)%Z.
Proof. intros H. change 1%Q with (inject_Z 1) in H. rewrite <- inject_Z_plus in H. apply zlt in H. lia. Qed.

Lemma qround_near x : (inject_Z (qround x) - (1 # 2) <= this x <= inject_Z (qround x) + (1 # 2))%Q.
Proof.
  unfold qround. pose proof (qfloor_le x) as A. pose proof (qfloor_lt x) as B. set (f := qfloor x) in *.
  assert (E : (this (x - qz f) == this x - inject_Z f)%Q) by (rewrite this_sub, this_qz; reflexivity).
  destruct (qlt (x - qz f) (1 / (1 + 1))) eqn:E1; [apply qlt_true in E1|apply qlt_false in E1; destruct (qlt (1 / (1 + 1)) (x - qz f)) eqn:E2; [apply qlt_true in E2|apply qlt_false in E2; destruct (Z.even f)]];
  change (this (1 / (1 + 1))) with (1 # 2)%Q in *; rewrite ?inject_Z_plus; change (inject_Z 1) with 1%Q; lra.
Qed.
Lemma qround_ge x z : (inject_Z z - (1 # 2) < this x)%Q -> (z <= qround x)%Z.
Proof. intros H. pose proof (qround_near x). apply zlt1. lra. Qed.
Lemma qround_le x z : (this x < inject_Z z + (1 # 2))%Q -> (qround x <= z)%Z.
Proof. intros H. pose proof (qround_near x). apply zlt1. lra. Qed.
Lemma qround_tie z x : (this x == inject_Z z + (1 # 2))%Q -> qround x = (if Z.even z then z else z + 1)%Z.
Proof.
  intros H. unfold qround. assert (F : qfloor x = z) by (apply qfloor_unique; unfold Qcle, Qclt; rewrite ?this_add, this_qz; change (this 1) with 1%Q; lra). rewrite F.
  assert (E : (this (x - qz z) == (1 # 2))%Q) by (rewrite this_sub, this_qz; lra).
  replace (qlt (x - qz z) (1 / (1 + 1))) with false by (symmetry; apply qlt_false; rewrite E; change (this (1 / (1 + 1))) with (1 # 2)%Q; lra).
  replace (qlt (1 / (1 + 1)) (x - qz z)) with false by (symmetry; apply qlt_false; rewrite E; change (this (1 / (1 + 1))) with (1 # 2)%Q; lra). reflexivity.
Qed.
Lemma qceil_spec x : (this x <= inject_Z (qceil x))%Q /\ (inject_Z (qceil x) < this x + 1)%Q.
Proof. unfold qceil. rewrite inject_Z_opp. pose proof (qfloor_le (- x)) as A. pose proof (qfloor_lt (- x)) as B. rewrite this_opp in A, B. split; lra. Qed.
Lemma qz_inj_mul a b : qz (a * b) = qz a * qz b. Proof. apply Qc_iff. rewrite this_mul, !this_qz, inject_Z_mult. reflexivity. Qed.
Lemma nz_pos (a : Qc) : (0 < this a)%Q -> a <> 0. Proof. intros H ->. change (this 0) with 0%Q in H. lra. Qed.
Lemma div_ok a b : b <> 0 -> div a b = Ok (a / b). Proof. intros H. unfold div. destruct (Qc_eq_dec b 0); [contradiction|reflexivity]. Qed.
Lemma div_times a b : b <> 0 -> a / b * b = a. Proof. intros H. field. exact H. Qed.

Section G.
Variables (d : Z) (internal fov errinf errsup fft_res : Qc).
Hypothesis I : (0 < this internal)%Q.
Hypothesis D : d <> 0%Z.
Let minfov := fov * (1 - errinf).
Definition factor : Z := if qlt internal minfov then qceil (minfov / internal) else 1%Z.
Lemma factor_pos : (1 <= factor)%Z.
Proof.
  unfold factor. destruct (qlt internal minfov) eqn:E; [|lia]. apply qlt_true in E. destruct (qceil_spec (minfov / internal)) as [A _].
  pose proof (div_times minfov internal (nz_pos _ I)) as M. set (q := minfov / internal) in *. assert (M' : (this q * this internal == this minfov)%Q) by (rewrite <- this_mul, M; reflexivity).
  assert (Q : (1 < this q)%Q). { destruct (Qlt_le_dec 1 (this q)) as [L|L]; [exact L|]. exfalso. pose proof (Qmult_le_compat_r (this q) 1 (this internal) L ltac:(lra)). lra. }
  assert (X : (inject_Z 1 < inject_Z (qceil q))%Q) by (change (inject_Z 1) with 1%Q; lra). apply zlt in X. lia.
Qed.
Lemma factor_enough : (this minfov <= this internal * inject_Z factor)%Q.
Proof.
  unfold factor. destruct (qlt internal minfov) eqn:E; [|apply qlt_false in E; change (inject_Z 1) with 1%Q; lra]. destruct (qceil_spec (minfov / internal)) as [A _].
  pose proof (div_times minfov internal (nz_pos _ I)) as M. set (q := minfov / internal) in *. assert (M' : (this q * this internal == this minfov)%Q) by (rewrite <- this_mul, M; reflexivity).
  pose proof (Qmult_le_compat_r _ _ (this internal) A ltac:(lra)). lra.
Qed.
Lemma factor_least k : (1 <= k)%Z -> (this minfov <= this internal * inject_Z k)%Q -> (factor <= k)%Z.
Proof.
  intros K H. unfold factor. destruct (qlt internal minfov) eqn:E; [|lia]. destruct (qceil_spec (minfov / internal)) as [_ A].
  pose proof (div_times minfov internal (nz_pos _ I)) as M. set (q := minfov / internal) in *. assert (M' : (this q * this internal == this minfov)%Q) by (rewrite <- this_mul, M; reflexivity).
  assert (Q : (this q <= inject_Z k)%Q). { destruct (Qlt_le_dec (inject_Z k) (this q)) as [L|L]; [|exact L]. exfalso. pose proof (proj2 (Qmult_lt_r _ _ (this internal) I) L). lra. }
  apply zlt1. lra.
Qed.
Definition wide : Qc := internal * qz factor.
Lemma wide_pos : (0 < this wide)%Q.
Proof.
  unfold wide. rewrite this_mul, this_qz. pose proof factor_pos as F. rewrite Zle_Qle in F. change (inject_Z 1) with 1%Q in F. pose proof (Qmult_le_compat_r 1 (inject_Z factor) (this internal) F ltac:(lra)). lra.
Qed.
Lemma wide_alt : (if qlt internal minfov then internal * qz factor else internal) = wide.
Proof. unfold wide, factor. destruct (qlt internal minfov); [reflexivity|]. change (qz 1) with 1. ring. Qed.
Definition mask_ratio : Qc := if qlt 1 (fov / wide) then 1 else fov / wide.
Definition total_of (s : Z) : Z := (qround (qz s * fft_res / qz 2) * 2)%Z.
Definition padding_of (s : Z) : Z := (qround ((qz (total_of s) - qz s) / qz 2) * 2)%Z.
Lemma qz_nz s : s <> 0%Z -> qz s <> 0.
Proof. intros H E. apply Qc_iff in E. rewrite this_qz in E. change (this 0) with (inject_Z 0) in E. unfold Qeq in E. cbn in E. lia. Qed.
Lemma geometry_eq : calc_geometry d internal fov errinf errsup fft_res =
  if qlt (fov * (1 + errsup)) internal then Err ValueError
  else Ok (mkGeometry factor mask_ratio (qz (total_of (d * factor)) / qz (d * factor)) (d * factor) (padding_of (d * factor)) (total_of (d * factor))).
Proof.
  unfold calc_geometry. destruct (qlt (fov * (1 + errsup)) internal); [reflexivity|]. fold minfov.
  assert (R : (if qlt internal minfov then q <- div minfov internal ;; Ok (qceil q) else Ok 1%Z) = Ok factor).
  { unfold factor. destruct (qlt internal minfov); [|reflexivity]. now rewrite div_ok by (now apply nz_pos). }
  rewrite R. cbn [bind]. cbv zeta. rewrite wide_alt. rewrite div_ok by (apply nz_pos, wide_pos). cbn [bind].
  assert (K : (if qlt 1 (fov / wide) then m <- div minfov wide ;; if qlt 1 m then Err ValueError else Ok 1 else Ok (fov / wide)) = Ok mask_ratio).
  { unfold mask_ratio. destruct (qlt 1 (fov / wide)); [|reflexivity]. rewrite div_ok by (apply nz_pos, wide_pos). cbn [bind].
    assert (U : qlt 1 (minfov / wide) = false); [|now rewrite U]. apply qlt_false. change (this 1) with 1%Q.
    pose proof (div_times minfov wide (nz_pos _ wide_pos)) as M. assert (M' : (this (minfov / wide) * this wide == this minfov)%Q) by (rewrite <- this_mul, M; reflexivity).
    assert (E : (this minfov <= this wide)%Q) by (unfold wide; rewrite this_mul, this_qz; apply factor_enough).
    destruct (Qlt_le_dec 1 (this (minfov / wide))) as [L|L]; [|exact L]. exfalso. pose proof (proj2 (Qmult_lt_r 1 _ _ wide_pos) L). lra. }
  rewrite K. cbn [bind]. assert (S0 : (d * factor)%Z <> 0%Z) by (pose proof factor_pos; nia). destruct (Z.eqb_spec (d * factor) 0) as [Z|_]; [contradiction|].
  unfold padding_of. fold (total_of (d * factor)). set (tt := total_of (d * factor)). set (ss := (d * factor)%Z) in *. clearbody tt ss. assert (E : qz ss * (qz tt / qz ss) = qz tt) by (field; now apply qz_nz). now rewrite E.
Qed.
Lemma mask_ratio_spec : (this mask_ratio <= 1)%Q /\ ((this fov <= this wide)%Q -> wide * mask_ratio = fov) /\ ((this wide < this fov)%Q -> mask_ratio = 1).
Proof.
  unfold mask_ratio. pose proof (div_times fov wide (nz_pos _ wide_pos)) as M. set (q := fov / wide) in *. assert (M' : (this q * this wide == this fov)%Q) by (rewrite <- this_mul, M; reflexivity). pose proof wide_pos as W.
  destruct (qlt 1 q) eqn:E; [apply qlt_true in E|apply qlt_false in E]; change (this 1) with 1%Q in *.
  - pose proof (proj2 (Qmult_lt_r 1 _ _ W) E). split; [change (this 1) with 1%Q; lra|]. split; [intros; exfalso; lra|reflexivity].
  - pose proof (Qmult_le_compat_r _ _ (this wide) E ltac:(lra)). split; [exact E|]. split; [intros _; rewrite <- M; ring|intros; exfalso; lra].
Qed.
Lemma half_this a b : (this ((qz a - qz b) / qz 2) == (inject_Z a - inject_Z b) / 2)%Q.
Proof. rewrite this_div, this_sub, !this_qz. reflexivity. Qed.
Lemma padding_even s : Z.Even s -> padding_of s = (total_of s - s)%Z.
Proof.
  intros [k ->]. unfold padding_of. assert (T : exists t, total_of (2 * k) = (t * 2)%Z) by (eexists; reflexivity). destruct T as [t T]. rewrite T.
  replace ((qz (t * 2) - qz (2 * k)) / qz 2) with (qz (t - k)); [rewrite qround_qz; lia|]. apply Qc_iff. rewrite half_this, this_qz. unfold Z.sub. rewrite inject_Z_plus, !inject_Z_mult, inject_Z_opp. change (inject_Z 2) with 2%Q. field.
Qed.
Lemma padding_odd s : Z.Odd s -> padding_of s = (total_of s - s + 1)%Z \/ padding_of s = (total_of s - s - 1)%Z.
Proof.
  intros [k ->]. unfold padding_of. assert (T : exists t, total_of (2 * k + 1) = (t * 2)%Z) by (eexists; reflexivity). destruct T as [t T]. rewrite T.
  assert (E : (this ((qz (t * 2) - qz (2 * k + 1)) / qz 2) == inject_Z (t - k - 1) + (1 # 2))%Q).
  { rewrite half_this. unfold Z.sub. rewrite !inject_Z_plus, !inject_Z_mult, !inject_Z_opp. change (inject_Z 2) with 2%Q. change (inject_Z 1) with 1%Q. setoid_replace (1 # 2)%Q with (1 / 2)%Q by reflexivity. field. }
  rewrite (qround_tie _ _ E). destruct (Z.even (t - k - 1)); [right|left]; lia.
Qed.
Lemma total_near s : (inject_Z (total_of s) - 1 <= inject_Z s * this fft_res <= inject_Z (total_of s) + 1)%Q.
Proof.
  unfold total_of. pose proof (qround_near (qz s * fft_res / qz 2)) as N. set (r := qround _) in *. rewrite this_div, this_mul, !this_qz in N. rewrite inject_Z_mult. change (inject_Z 2) with 2%Q in *.
  assert (E : (inject_Z s * this fft_res == inject_Z s * this fft_res / 2 * 2)%Q) by field. lra.
Qed.
Lemma fits_iff s : (0 < s)%Z -> (1 <= this fft_res)%Q -> ((padding_of s / 2 + s <= total_of s)%Z <-> ~ (fft_res = 1 /\ (s mod 4 = 1)%Z)) /\ (0 <= padding_of s)%Z.
Proof.
  intros P R. assert (P' : (0 < inject_Z s)%Q) by (change 0%Q with (inject_Z 0); rewrite <- Zlt_Qlt; lia).
  assert (L : (inject_Z s <= inject_Z s * this fft_res)%Q) by (pose proof (Qmult_le_compat_r _ _ (inject_Z s) R ltac:(lra)); lra).
  assert (TE : exists t, total_of s = (t * 2)%Z /\ t = qround (qz s * fft_res / qz 2)) by (eexists; split; reflexivity). destruct TE as [t [T Ht]].
  assert (V : (this (qz s * fft_res / qz 2) == inject_Z s * this fft_res / 2)%Q) by (rewrite this_div, this_mul, !this_qz; reflexivity).
  assert (V2 : (inject_Z s * this fft_res == inject_Z s * this fft_res / 2 * 2)%Q) by field.
  destruct (Z.Even_or_Odd s) as [E|E].
  - rewrite (padding_even s E). destruct E as [k ->].
    assert (K : (k <= t)%Z). { rewrite Ht. apply qround_ge. rewrite V. rewrite inject_Z_mult in *. change (inject_Z 2) with 2%Q in *. lra. }
    split; [|lia]. split.
    + intros _ [_ M]. pose proof (Z.div_mod (2 * k) 4 ltac:(lia)). lia.
    + intros _. rewrite T. replace (t * 2 - 2 * k)%Z with ((t - k) * 2)%Z by ring. rewrite Z.div_mul by lia. lia.
  - pose proof (padding_odd s E) as Po. destruct E as [k E].
    destruct (Qc_eq_dec fft_res 1) as [F|F].
    + assert (Tie : (this (qz s * fft_res / qz 2) == inject_Z k + (1 # 2))%Q).
      { rewrite V, F, E, inject_Z_plus, inject_Z_mult. change (inject_Z 2) with 2%Q. change (inject_Z 1) with 1%Q. change (this 1) with 1%Q. setoid_replace (1 # 2)%Q with (1 / 2)%Q by reflexivity. field. }
      rewrite (qround_tie _ _ Tie) in Ht. destruct (Z.even k) eqn:Ek.
      * apply Z.even_spec in Ek. destruct Ek as [m Ek].
        assert (Pz : padding_of s = 0%Z).
        { unfold padding_of. rewrite T. assert (Q : (this ((qz (t * 2) - qz s) / qz 2) == inject_Z (-1) + (1 # 2))%Q) by (rewrite half_this, Ht, E, !inject_Z_plus, !inject_Z_mult; change (inject_Z 2) with 2%Q; change (inject_Z 1) with 1%Q; change (inject_Z (-1)) with (- (1))%Q; setoid_replace (1 # 2)%Q with (1 / 2)%Q by reflexivity; field). rewrite (qround_tie _ _ Q). reflexivity. }
        rewrite Pz. split; [|lia]. change (0 / 2)%Z with 0%Z. split; [intros X; exfalso; lia|]. intros X. exfalso. apply X. split; [exact F|].
        rewrite E, Ek. replace (2 * (2 * m) + 1)%Z with (1 + m * 4)%Z by ring. rewrite Z.mod_add by lia. reflexivity.
      * assert (Ok' : Z.Odd k) by (apply Z.odd_spec; rewrite <- Z.negb_even, Ek; reflexivity). destruct Ok' as [m Ek'].
        assert (Pz : padding_of s = 0%Z).
        { unfold padding_of. rewrite T. assert (Q : (this ((qz (t * 2) - qz s) / qz 2) == inject_Z 0 + (1 # 2))%Q) by (rewrite half_this, Ht, E, !inject_Z_plus, !inject_Z_mult; change (inject_Z 2) with 2%Q; change (inject_Z 1) with 1%Q; rewrite inject_Z_plus; change (inject_Z 1) with 1%Q; change (inject_Z 0) with 0%Q; setoid_replace (1 # 2)%Q with (1 / 2)%Q by reflexivity; field). rewrite (qround_tie _ _ Q). reflexivity. }
        rewrite Pz. split; [|lia]. change (0 / 2)%Z with 0%Z. split; [|intros _; lia]. intros _ [_ M]. rewrite E, Ek' in M. replace (2 * (2 * m + 1) + 1)%Z with (3 + m * 4)%Z in M by ring. rewrite Z.mod_add in M by lia. discriminate.
    + assert (S : (1 < this fft_res)%Q). { destruct (Qlt_le_dec 1 (this fft_res)) as [A|A]; [exact A|]. exfalso. apply F. apply Qc_iff. change (this 1) with 1%Q. lra. }
      assert (L2 : (inject_Z s < inject_Z s * this fft_res)%Q) by (pose proof (proj2 (Qmult_lt_r _ _ (inject_Z s) P') S); lra).
      assert (K : (k + 1 <= t)%Z). { rewrite Ht. apply qround_ge. rewrite V. rewrite E in V2, L2 |- *. rewrite !inject_Z_plus, !inject_Z_mult in *. change (inject_Z 2) with 2%Q in *. change (inject_Z 1) with 1%Q in *. lra. }
      assert (H2 : (padding_of s / 2 <= (total_of s - s + 1) / 2)%Z) by (apply Z.div_le_mono; lia).
      split; [|lia]. split; [intros _ [X _]; contradiction|]. intros _. rewrite T in *. replace (t * 2 - s + 1)%Z with ((t - k) * 2)%Z in H2 by lia. rewrite Z.div_mul in H2 by lia. lia.
Qed.
End G.

(* --------------------------------------------------------------------------- PSF sampling *)
Section P.
Variables (n : Z) (biggest size : Qc).
Hypothesis N : (0 < n)%Z.
Definition err (k : Z) : Qc := qabs (biggest / (qz k / qz n) - size).
Lemma qn_nz : qz n <> 0. Proof. apply qz_nz. lia. Qed.
Lemma step_neg s k : (k <= 0)%Z -> sampling_step n biggest size s k = Ok s.
Proof. intros H. unfold sampling_step. now replace (0 <? k)%Z with false by (symmetry; apply Z.ltb_ge; lia). Qed.
Lemma ratio_nz k : (0 < k)%Z -> qz k / qz n <> 0.
Proof. intros H E. apply (qz_nz k); [lia|]. rewrite <- (div_times (qz k) (qz n) qn_nz), E. ring. Qed.
Lemma step_pos s k : (0 < k)%Z -> sampling_step n biggest size s k = Ok (if match fst s with None => true | Some best => qlt (err k) best end then (Some (err k), qz k / qz n) else s).
Proof.
  intros H. unfold sampling_step. replace (0 <? k)%Z with true by (symmetry; apply Z.ltb_lt; lia). rewrite div_ok by apply qn_nz. cbn [bind]. rewrite div_ok by now apply ratio_nz. cbn [bind]. fold (err k). cbv zeta. now destruct (match fst s with None => true | Some best => qlt (err k) best end).
Qed.
Lemma fold_some l : forall k0, (0 < k0)%Z -> exists k, fold_res (sampling_step n biggest size) (Some (err k0), qz k0 / qz n) l = Ok (Some (err k), qz k / qz n) /\ (0 < k)%Z /\ (k = k0 \/ In k l) /\ (this (err k) <= this (err k0))%Q /\ forall m, In m l -> (0 < m)%Z -> (this (err k) <= this (err m))%Q.
Proof.
  induction l as [|x l IH]; intros k0 P; cbn [fold_res].
  - exists k0. repeat split; auto; [lra|intros m []].
  - destruct (Z.ltb_spec 0 x) as [Hx|Hx].
    + rewrite step_pos by exact Hx. cbn [fst bind]. destruct (qlt (err x) (err k0)) eqn:E; [apply qlt_true in E|apply qlt_false in E].
      * destruct (IH x Hx) as [k [R [P' [M [Q1 Q2]]]]]. exists k. split; [exact R|]. split; [exact P'|]. split; [right; destruct M as [->|M]; [now left|now right]|]. split; [lra|]. intros m [<-|Hm] Pm; [exact Q1|now apply Q2].
      * destruct (IH k0 P) as [k [R [P' [M [Q1 Q2]]]]]. exists k. split; [exact R|]. split; [exact P'|]. split; [destruct M as [->|M]; [now left|right; now right]|]. split; [lra|]. intros m [<-|Hm] Pm; [lra|now apply Q2].
    + rewrite step_neg by exact Hx. cbn [bind]. destruct (IH k0 P) as [k [R [P' [M [Q1 Q2]]]]]. exists k. split; [exact R|]. split; [exact P'|]. split; [destruct M as [->|M]; [now left|right; now right]|]. split; [lra|]. intros m [<-|Hm] Pm; [lia|now apply Q2].
Qed.
Lemma fold_none l q : (exists m, In m l /\ (0 < m)%Z) -> exists k, fold_res (sampling_step n biggest size) (None, q) l = Ok (Some (err k), qz k / qz n) /\ (0 < k)%Z /\ In k l /\ forall m, In m l -> (0 < m)%Z -> (this (err k) <= this (err m))%Q.
Proof.
  induction l as [|x l IH]; intros [m [Hm Pm]]; [destruct Hm|]. cbn [fold_res]. destruct (Z.ltb_spec 0 x) as [Hx|Hx].
  - rewrite step_pos by exact Hx. cbn [fst bind]. destruct (fold_some l x Hx) as [k [R [P' [M [Q1 Q2]]]]]. exists k. split; [exact R|]. split; [exact P'|]. split; [destruct M as [->|M]; [now left|now right]|]. intros m' [<-|H'] P''; [exact Q1|now apply Q2].
  - rewrite step_neg by exact Hx. cbn [bind]. destruct Hm as [->|Hm]; [lia|]. destruct (IH ltac:(eauto)) as [k [R [P' [M Q]]]]. exists k. split; [exact R|]. split; [exact P'|]. split; [now right|]. intros m' [<-|H'] P''; [lia|now apply Q].
Qed.

Hypothesis S0 : (0 < this size)%Q.
Hypothesis B : (this size <= this biggest)%Q.
Let f := qfloor (qz n * (biggest / size)).
Lemma n_pos : (0 < inject_Z n)%Q. Proof. change 0%Q with (inject_Z 0). rewrite <- Zlt_Qlt. exact N. Qed.
Lemma f_low : (inject_Z f * this size <= inject_Z n * this biggest)%Q.
Proof.
  pose proof (qfloor_le (qz n * (biggest / size))) as A. fold f in A. rewrite this_mul, this_qz in A. pose proof (Qmult_le_compat_r _ _ (this size) A ltac:(lra)) as C.
  pose proof (div_times biggest size (nz_pos _ S0)) as M. assert (M' : (this (biggest / size) * this size == this biggest)%Q) by (rewrite <- this_mul, M; reflexivity).
  assert (E : (inject_Z n * this (biggest / size) * this size == inject_Z n * this biggest)%Q) by (rewrite <- M'; ring). lra.
Qed.
Lemma f_high : (inject_Z n * this biggest < inject_Z (f + 1) * this size)%Q.
Proof.
  pose proof (qfloor_lt (qz n * (biggest / size))) as A. fold f in A. rewrite this_mul, this_qz in A. pose proof (proj2 (Qmult_lt_r _ _ (this size) S0) A) as C.
  pose proof (div_times biggest size (nz_pos _ S0)) as M. assert (M' : (this (biggest / size) * this size == this biggest)%Q) by (rewrite <- this_mul, M; reflexivity).
  assert (E : (inject_Z n * this (biggest / size) * this size == inject_Z n * this biggest)%Q) by (rewrite <- M'; ring). rewrite inject_Z_plus. change (inject_Z 1) with 1%Q. lra.
Qed.
Lemma n_le_f : (n <= f)%Z.
Proof.
  apply zlt1. destruct (Qlt_le_dec (inject_Z n) (inject_Z f + 1)) as [L|L]; [exact L|]. exfalso. pose proof f_high as H. rewrite inject_Z_plus in H. change (inject_Z 1) with 1%Q in H.
  pose proof (Qmult_le_compat_r _ _ (this size) L ltac:(lra)). pose proof n_pos. pose proof (Qmult_le_compat_r _ _ (inject_Z n) B ltac:(lra)). lra.
Qed.
(* the pixel of an image of k pixels *)
Lemma pixel_of k : (0 < k)%Z -> (this (biggest / (qz k / qz n)) * inject_Z k == inject_Z n * this biggest)%Q.
Proof.
  intros K. assert (E : biggest / (qz k / qz n) * qz k = qz n * biggest) by (field; split; [apply qn_nz|apply qz_nz; lia]).
  rewrite <- (this_qz k), <- this_mul, E, this_mul, this_qz. reflexivity.
Qed.
Lemma k_pos k : (0 < k)%Z -> (0 < inject_Z k)%Q. Proof. intros H. change 0%Q with (inject_Z 0). rewrite <- Zlt_Qlt. exact H. Qed.
Lemma pixel_anti a b : (0 < a)%Z -> (a <= b)%Z -> (this (biggest / (qz b / qz n)) <= this (biggest / (qz a / qz n)))%Q.
Proof.
  intros A L. pose proof (pixel_of a A) as Ea. pose proof (pixel_of b ltac:(lia)) as Eb. set (x := this (biggest / (qz a / qz n))) in *. set (y := this (biggest / (qz b / qz n))) in *. clearbody x y.
  pose proof (k_pos a A) as Pa. assert (Lq : (inject_Z a <= inject_Z b)%Q) by (rewrite <- Zle_Qle; exact L).
  assert (X0 : (0 < x)%Q). { destruct (Qlt_le_dec 0 x) as [H|H]; [exact H|]. exfalso. pose proof (Qmult_le_compat_r _ _ (inject_Z a) H ltac:(lra)). pose proof n_pos as Q. pose proof (proj2 (Qmult_lt_r 0 (this biggest) (inject_Z n) Q) ltac:(lra)). lra. }
  destruct (Qlt_le_dec x y) as [H|H]; [|exact H]. exfalso. pose proof (proj2 (Qmult_lt_r _ _ (inject_Z a) Pa) H). pose proof (Qmult_le_compat_r _ _ y Lq ltac:(lra)). lra.
Qed.
Lemma pixel_big k : (0 < k)%Z -> (k <= f)%Z -> (this size <= this (biggest / (qz k / qz n)))%Q.
Proof.
  intros K L. pose proof (pixel_of k K) as E. set (x := this (biggest / (qz k / qz n))) in *. clearbody x. pose proof f_low as F. assert (Lq : (inject_Z k <= inject_Z f)%Q) by (rewrite <- Zle_Qle; exact L).
  pose proof (Qmult_le_compat_r _ _ (this size) Lq ltac:(lra)). pose proof (k_pos k K) as Pk. destruct (Qlt_le_dec x (this size)) as [H'|H']; [|exact H']. exfalso. pose proof (proj2 (Qmult_lt_r _ _ (inject_Z k) Pk) H'). lra.
Qed.
Lemma pixel_small k : (f + 1 <= k)%Z -> (this (biggest / (qz k / qz n)) < this size)%Q.
Proof.
  intros L. pose proof n_le_f as Q. assert (K : (0 < k)%Z) by lia. pose proof (pixel_of k K) as E. set (x := this (biggest / (qz k / qz n))) in *. clearbody x. pose proof f_high as F. assert (Lq : (inject_Z (f + 1) <= inject_Z k)%Q) by (rewrite <- Zle_Qle; exact L).
  pose proof (Qmult_le_compat_r _ _ (this size) Lq ltac:(lra)). pose proof (k_pos k K) as Pk. destruct (Qlt_le_dec x (this size)) as [H'|H']; [exact H'|]. exfalso. pose proof (Qmult_le_compat_r _ _ (inject_Z k) H' ltac:(lra)). lra.
Qed.
Lemma err_big k : (0 < k)%Z -> (k <= f)%Z -> (this (err k) == this (biggest / (qz k / qz n)) - this size)%Q.
Proof.
  intros K L. pose proof (pixel_big k K L) as H. unfold err, qabs. destruct (qlt _ 0) eqn:E; [apply qlt_true in E|]; rewrite ?this_opp, ?this_sub in *; change (this 0) with 0%Q in *; lra.
Qed.
Lemma err_small k : (f + 1 <= k)%Z -> (this (err k) == this size - this (biggest / (qz k / qz n)))%Q.
Proof.
  intros L. pose proof (pixel_small k L) as H. unfold err, qabs. destruct (qlt _ 0) eqn:E; [|apply qlt_false in E]; rewrite ?this_opp, ?this_sub in *; change (this 0) with 0%Q in *; lra.
Qed.
Lemma err_best k : (0 < k)%Z -> (this (err f) <= this (err k))%Q \/ (this (err (f + 1)) <= this (err k))%Q.
Proof.
  intros K. pose proof n_le_f. destruct (Z.le_gt_cases k f) as [L|L].
  - left. rewrite (err_big k), (err_big f) by lia. pose proof (pixel_anti k f K L). lra.
  - right. rewrite (err_small k), (err_small (f + 1)) by lia. pose proof (pixel_anti (f + 1) k ltac:(lia) ltac:(lia)). lra.
Qed.
Lemma in_sizes m : In m (psf_sizes f) <-> (f - 5 <= m <= f + 5)%Z.
Proof.
  unfold psf_sizes. rewrite in_map_iff. split.
  - intros [k [<- Hk]]. apply in_seq in Hk. lia.
  - intros H. exists (Z.to_nat (m - (f - 5))). split; [lia|]. apply in_seq. lia.
Qed.
Lemma sampling_eq : exists k, calc_psf_sampling n biggest size = Ok (qz k / qz n) /\ (0 < k)%Z /\ (forall m, (0 < m)%Z -> (this (err k) <= this (err m))%Q) /\ (n <= k)%Z.
Proof.
  pose proof n_le_f as Q. unfold calc_psf_sampling. replace (qlt biggest size) with false by (symmetry; apply qlt_false; exact B).
  rewrite div_ok by (now apply nz_pos). cbn [bind].
  assert (T : qtrunc (qz n * (biggest / size)) = f).
  { unfold qtrunc. replace (qlt (qz n * (biggest / size)) 0) with false; [reflexivity|]. symmetry. apply qlt_false. change (this 0) with 0%Q.
    pose proof (qfloor_le (qz n * (biggest / size))) as A. fold f in A. assert (0 < inject_Z f)%Q by (apply k_pos; lia). lra. }
  rewrite T. destruct (fold_none (psf_sizes f) (biggest / size)) as [k [R [P [I M]]]].
  { exists f. split; [apply in_sizes; lia|lia]. }
  rewrite R. cbn [bind snd]. rewrite div_ok by (now apply ratio_nz). cbn [bind]. exists k. split; [reflexivity|]. split; [exact P|].
  assert (Best : forall m, (0 < m)%Z -> (this (err k) <= this (err m))%Q).
  { intros m Pm. pose proof (M f ltac:(apply in_sizes; lia) ltac:(lia)). pose proof (M (f + 1)%Z ltac:(apply in_sizes; lia) ltac:(lia)). destruct (err_best m Pm); lra. }
  split; [exact Best|]. destruct (Z.le_gt_cases n k) as [L|L]; [exact L|]. exfalso. pose proof (Best n N) as X. rewrite (err_big k), (err_big n) in X by lia.
  pose proof (pixel_of k P) as E1. pose proof (pixel_of n N) as E2. set (x := this (biggest / (qz k / qz n))) in *. set (y := this (biggest / (qz n / qz n))) in *. clearbody x y.
  assert (Lq : (inject_Z k < inject_Z n)%Q) by (rewrite <- Zlt_Qlt; exact L). pose proof (k_pos k P) as Pk. pose proof n_pos as Pn.
  assert (Y : (0 < y)%Q). { destruct (Qlt_le_dec 0 y) as [H|H]; [exact H|]. exfalso. pose proof (Qmult_le_compat_r _ _ (inject_Z n) H ltac:(lra)). pose proof (proj2 (Qmult_lt_r 0 (this biggest) (inject_Z n) Pn) ltac:(lra)). lra. }
  pose proof (proj2 (Qmult_lt_r _ _ y Y) Lq). assert (XY : (x <= y)%Q) by lra. pose proof (Qmult_le_compat_r _ _ (inject_Z k) XY ltac:(lra)). lra.
Qed.
End P.
