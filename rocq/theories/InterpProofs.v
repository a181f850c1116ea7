From Coq Require Import List ZArith Bool Arith Lia Lqa QArith Qcanon Qround.
From Verif Require Import PyBase PyLemmas Arith ArithLemmas FilterSpec SumLemmas OpticalModel ExtModel QcTac NpModel NpProofs FitsModel FitsSpec RebinModel RebinProofs CutSpec CutProofs VecModel SlopecModel SlopecSpec SlopecProofs FieldSpec FieldProofs InterpModel InterpSpec.
Import ListNotations.
Local Open Scope Qc_scope.

Lemma this_qz z : (this (qz z) == inject_Z z)%Q. Proof. unfold qz. apply this_q. Qed.
Lemma qn_nat n : qn n = qnat n. Proof. reflexivity. Qed.
Lemma this_nat n : (this (qnat n) == inject_Z (Z.of_nat n))%Q. Proof. unfold qnat. apply this_q. Qed.
Lemma qz_nat n : qz (Z.of_nat n) = qnat n. Proof. reflexivity. Qed.
Lemma qnat_S n : qnat (S n) = qnat n + 1.
Proof. apply Qc_iff. rewrite this_add, !this_nat, Nat2Z.inj_succ, <- Z.add_1_r, inject_Z_plus. reflexivity. Qed.
Lemma qnat_le m n : (m <= n)%nat -> (qnat m <= qnat n)%Qc.
Proof. intros H. unfold Qcle. rewrite !this_nat, <- Zle_Qle. lia. Qed.
Lemma qnat_lt m n : (m < n)%nat -> (qnat m < qnat n)%Qc.
Proof. intros H. unfold Qclt. rewrite !this_nat, <- Zlt_Qlt. lia. Qed.
Lemma qnat_add m n : qnat (m + n) = qnat m + qnat n.
Proof. apply Qc_iff. rewrite this_add, !this_nat, Nat2Z.inj_add, inject_Z_plus. reflexivity. Qed.
Lemma qnat_sub m n : (n <= m)%nat -> qnat (m - n) = qnat m - qnat n.
Proof. intros H. replace (qnat m) with (qnat ((m - n) + n)) by (f_equal; lia). rewrite qnat_add. ring. Qed.
Lemma qz_pred n : (0 < n)%nat -> qz (Z.of_nat n - 1) = qnat (n - 1).
Proof. intros H. unfold qz, qnat. do 2 f_equal. lia. Qed.

Lemma limit_nearest n x : (0 < n)%nat -> limit n x = nearest n x.
Proof.
  intros H. unfold limit, nearest. rewrite qz_pred by exact H. unfold qlt.
  destruct (Qclt_le_dec x 0) as [L|L]; [|destruct (Qclt_le_dec (qnat (n - 1)) x); reflexivity].
  assert (0 <= qnat (n - 1)) by (change 0 with (qnat 0); apply qnat_le; lia).
  destruct (Qclt_le_dec (qnat (n - 1)) 0); [exfalso; qclra|reflexivity].
Qed.
Definition within (n : nat) (x : Qc) : Prop := 0 <= x /\ x <= qnat (n - 1).
Lemma nearest_within n x : within n (nearest n x).
Proof.
  unfold within, nearest. assert (0 <= qnat (n - 1)) by (change 0 with (qnat 0); apply qnat_le; lia).
  destruct (Qclt_le_dec x 0); [split; qclra|]. destruct (Qclt_le_dec (qnat (n - 1)) x); split; qclra.
Qed.
Lemma nearest_id n x : within n x -> nearest n x = x.
Proof. intros [A B]. unfold nearest. destruct (Qclt_le_dec x 0); [exfalso; qclra|]. destruct (Qclt_le_dec (qnat (n - 1)) x); [exfalso; qclra|reflexivity]. Qed.

(* the cell of a point: its position, and where the second weight vanishes *)
Lemma floor_bounds x : (inject_Z (qfloor x) <= this x)%Q /\ (this x < inject_Z (qfloor x) + 1)%Q.
Proof. unfold qfloor. split; [apply Qfloor_le|]. pose proof (Qlt_floor (this x)) as H. rewrite inject_Z_plus in H. exact H. Qed.
Lemma floor_nonneg x : (0 <= x)%Qc -> (0 <= qfloor x)%Z.
Proof. intros H. unfold qfloor. change 0%Z with (Qfloor (inject_Z 0)) at 1. apply Qfloor_resp_le. exact H. Qed.
Lemma cell_spec n x : (0 < n)%nat -> within n x ->
  (cell n x < n)%nat /\ 0 <= x - qnat (cell n x) /\ x - qnat (cell n x) <= 1 /\ (cell n x = (n - 1)%nat -> x - qnat (cell n x) = 0).
Proof.
  intros Hn [H0 H1]. unfold cell. pose proof (floor_nonneg x H0) as F0. pose proof (floor_bounds x) as [Fa Fb].
  assert (F1 : (qfloor x <= Z.of_nat n - 1)%Z).
  { unfold Qcle in H1. rewrite this_nat in H1. assert ((inject_Z (qfloor x) <= inject_Z (Z.of_nat (n - 1)))%Q) by lra. rewrite <- Zle_Qle in H. lia. }
  set (k := Z.to_nat _). destruct (Z.le_gt_cases (qfloor x) (Z.of_nat n - 2)) as [L|L].
  - assert (K : Z.of_nat k = qfloor x) by (unfold k; rewrite Z.min_l by exact L; lia).
    assert (Kq : (this (qnat k) == inject_Z (qfloor x))%Q) by now rewrite this_nat, K.
    split; [lia|]. split; [qc_prep; rewrite Kq; lra|]. split; [qc_prep; rewrite Kq; lra|]. intros E. lia.
  - assert (X : x = qnat (n - 1)).
    { apply Qcle_antisym; [exact H1|]. unfold Qcle. rewrite this_nat. replace (Z.of_nat (n - 1)) with (qfloor x) by lia. exact Fa. }
    destruct (Nat.eq_dec n 1) as [->|N1].
    + assert (K : k = 0%nat) by (unfold k; cbn; lia). rewrite K. split; [lia|]. subst x. cbn [Nat.sub]. split; [|split]; intros; vm_compute; try discriminate; reflexivity.
    + assert (K : S k = (n - 1)%nat) by (unfold k; lia). rewrite X, <- K, qnat_S. split; [lia|]. split; [qclra|]. split; [qclra|]. lia.
Qed.
Lemma tent_far t : (1 <= t \/ t <= -(1)) -> tent t = 0.
Proof.
  intros H. unfold tent. destruct (Qclt_le_dec t (-(1))); [reflexivity|]. destruct (Qclt_le_dec t 0).
  - destruct H; qclra.
  - destruct (Qclt_le_dec t 1); [|reflexivity]. destruct H; exfalso; qclra.
Qed.
Lemma tent_right t : 0 <= t -> t <= 1 -> tent t = 1 - t.
Proof. intros H H'. unfold tent. destruct (Qclt_le_dec t (-(1))); [exfalso; qclra|]. destruct (Qclt_le_dec t 0); [exfalso; qclra|]. destruct (Qclt_le_dec t 1); qclra. Qed.
Lemma tent_left t : -(1) <= t -> t <= 0 -> tent t = 1 + t.
Proof. intros H H'. unfold tent. destruct (Qclt_le_dec t (-(1))); [exfalso; qclra|]. destruct (Qclt_le_dec t 0); [reflexivity|]. destruct (Qclt_le_dec t 1); qclra. Qed.

Lemma sum_two n k (f : nat -> Qc) : (S k < n)%nat -> (forall j, (j < n)%nat -> j <> k -> j <> S k -> f j = 0) -> sumn (A:=qc) n f = f k + f (S k).
Proof.
  intros Hk H. replace n with (S k + (n - S k))%nat by lia. rewrite (sumn_app qc qc_field). qceq. refine (f_equal2 Qcplus _ _).
  - apply (sumn_single qc qc_field _ k); [lia|]. intros j Hj N. apply H; lia.
  - rewrite (sumn_single qc qc_field _ 0); [f_equal; lia|lia|]. intros j Hj N. apply H; lia.
Qed.
(* linear interpolation along one axis is the sum of tents *)
Lemma linear_tents n x (f : nat -> Qc) : (0 < n)%nat -> within n x ->
  sumn (A:=qc) n (fun j => f j * tent (x - qnat j)) = f (cell n x) * (1 - (x - qnat (cell n x))) + f (S (cell n x)) * (x - qnat (cell n x)).
Proof.
  intros Hn W. destruct (cell_spec n x Hn W) as (K & D0 & D1 & E). set (k := cell n x) in *.
  assert (far : forall j, j <> k -> j <> S k -> tent (x - qnat j) = 0).
  { intros j N1 N2. apply tent_far. destruct (Nat.lt_ge_cases j k) as [L|L].
    - left. assert (Q := qnat_le (S j) k L). rewrite qnat_S in Q. qclra.
    - right. assert (Q := qnat_le (S (S k)) j ltac:(lia)). rewrite !qnat_S in Q. qclra. }
  destruct (Nat.eq_dec (S k) n) as [Ek|Nk].
  - rewrite (E ltac:(lia)). rewrite (sumn_single qc qc_field _ k); [|exact K|].
    + rewrite (E ltac:(lia)), tent_right by (vm_compute; discriminate). qceq. ring.
    + intros j Hj N. rewrite far by lia. qceq. ring.
  - rewrite (sum_two n k); [|lia|].
    + rewrite tent_right by assumption. rewrite qnat_S, tent_left by qclra. qceq. ring.
    + intros j Hj N1 N2. rewrite far by assumption. qceq. ring.
Qed.
Lemma bilinear_surface r c v (a : arr2 Qc) y x : (0 < r)%nat -> (0 < c)%nat -> image (A:=qc) r c v a -> within r y -> within c x ->
  bilinear a y x = surface r c (ent qc a) y x.
Proof.
  intros Hr Hc Ia Wy Wx. unfold bilinear, surface.
  assert (Er : @a_r Qc a = r) by exact (image_r _ _ _ _ Ia). assert (Ec : @a_c Qc a = c) by exact (image_c _ _ _ _ Ia). rewrite Er, Ec. cbv zeta. change qn with qnat.
  rewrite (sumn_ext (A:=qc) r _ (fun i => (ent qc a i (cell c x) * (1 - (x - qnat (cell c x))) + ent qc a i (S (cell c x)) * (x - qnat (cell c x))) * tent (y - qnat i))).
  - rewrite (linear_tents r y (fun i => ent qc a i (cell c x) * (1 - (x - qnat (cell c x))) + ent qc a i (S (cell c x)) * (x - qnat (cell c x))) Hr Wy). qceq. ring.
  - intros i _. rewrite <- (linear_tents c x (fun j => ent qc a i j) Hc Wx).
    rewrite <- (sumn_scale_r qc qc_field). apply (sumn_ext (A:=qc)). intros j _. qceq. ring.
Qed.
