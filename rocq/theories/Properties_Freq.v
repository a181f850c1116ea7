(* Properties of the spatial frequencies of phase screens. *)
From Coq Require Import List ZArith Bool Arith Lia.
From Verif Require Import PyBase PyLemmas FreqModel.
Import ListNotations.
Local Open Scope Z_scope.

Lemma squares : forall a b c d, a = c \/ a = - c -> b = d \/ b = - d -> a ^ 2 + b ^ 2 = c ^ 2 + d ^ 2.
Proof. intros a b c d [->| ->] [->| ->]; ring. Qed.
Lemma assign_ok : forall a r0 r1 c0 c1 b, nr b = (r1 - r0)%nat -> nc b = (c1 - c0)%nat -> exists m, assign a r0 r1 c0 c1 b = Ok m /\ nr m = nr a /\ nc m = nc a /\
  forall i j, el m i j = if ((r0 <=? i) && (i <? r1) && (c0 <=? j) && (j <? c1))%nat then el b (i - r0)%nat (j - c0)%nat else el a i j.
Proof.
  intros a r0 r1 c0 c1 b R C. unfold assign. rewrite R, C, !Nat.eqb_refl. cbn [orb andb]. eexists. split; [reflexivity|]. split; [reflexivity|]. split; [reflexivity|].
  intros i j. cbn [el]. destruct (_ && _)%nat eqn:B; [|reflexivity]. rewrite !andb_true_iff, !Nat.leb_le, !Nat.ltb_lt in B.
  destruct (Nat.eqb_spec (r1 - r0) 1), (Nat.eqb_spec (c1 - c0) 1); f_equal; lia.
Qed.

(* for an even size the entries are the squared distances from the element h - 1, h - 1 *)
Theorem C127_even : forall h, (0 < h)%nat -> exists m, spatial_frequency (2 * Z.of_nat h) = Ok m /\ nr m = (2 * h)%nat /\ nc m = (2 * h)%nat /\
  forall i j, (i < 2 * h)%nat -> (j < 2 * h)%nat -> el m i j = (Z.of_nat i - (Z.of_nat h - 1)) ^ 2 + (Z.of_nat j - (Z.of_nat h - 1)) ^ 2.
Proof.
  intros h H. unfold spatial_frequency. cbv zeta. replace (2 * Z.of_nat h / 2) with (Z.of_nat h) by (rewrite Z.mul_comm, Z.div_mul; lia).
  unfold quarter, zeros. destruct (Z.ltb_spec (Z.of_nat h + 1) 0); [lia|]. destruct (Z.ltb_spec (2 * Z.of_nat h) 0); [lia|]. cbn [orb bind nr nc].
  replace (Z.to_nat (Z.of_nat h + 1)) with (h + 1)%nat by lia. replace (Z.to_nat (2 * Z.of_nat h)) with (2 * h)%nat by lia.
  set (t := mkArr (h + 1) (h + 1) _). set (z := mkArr (2 * h) (2 * h) _).
  assert (LO : starts (2 * h) (Z.of_nat h - 1) = (h - 1)%nat) by (unfold starts; destruct (Z.ltb_spec (Z.of_nat h - 1) 0); lia). rewrite LO.
  assert (UP : stops (2 * h) (Z.of_nat h) = h) by (unfold stops; lia). rewrite UP.
  destruct (assign_ok z (h - 1) (2 * h) (h - 1) (2 * h) t) as (m1 & E1 & R1 & C1 & V1); [cbn [nr t]; lia|cbn [nc t]; lia|]. rewrite E1. cbn [bind].
  destruct (assign_ok m1 0 h 0 h (from 1 1 (rot90 t 2))) as (m2 & E2 & R2 & C2 & V2); [cbn; lia|cbn; lia|]. rewrite E2. cbn [bind].
  destruct (assign_ok m2 0 h (h - 1) (2 * h) (from 1 0 (rot90 t 1))) as (m3 & E3 & R3 & C3 & V3); [cbn; lia|cbn; lia|]. rewrite E3. cbn [bind].
  destruct (assign_ok m3 (h - 1) (2 * h) 0 h (from 0 1 (rot90 t 3))) as (m4 & E4 & R4 & C4 & V4); [cbn; lia|cbn; lia|]. rewrite E4.
  exists m4. split; [reflexivity|]. rewrite R4, R3, R2, R1, C4, C3, C2, C1. split; [reflexivity|]. split; [reflexivity|]. intros i j Hi Hj.
  rewrite V4. match goal with |- (if ?b then _ else _) = _ => destruct b eqn:B4 end.
  { rewrite !andb_true_iff, !Nat.leb_le, !Nat.ltb_lt in B4. unfold from, rot90, t; cbn [Nat.iter nat_rect]; unfold rot1; cbn [el nr nc]. solve [apply squares; lia|etransitivity; [apply Z.add_comm|apply squares; lia]]. }
  rewrite V3. match goal with |- (if ?b then _ else _) = _ => destruct b eqn:B3 end.
  { rewrite !andb_true_iff, !Nat.leb_le, !Nat.ltb_lt in B3. unfold from, rot90, t; cbn [Nat.iter nat_rect]; unfold rot1; cbn [el nr nc]. solve [apply squares; lia|etransitivity; [apply Z.add_comm|apply squares; lia]]. }
  rewrite V2. match goal with |- (if ?b then _ else _) = _ => destruct b eqn:B2 end.
  { rewrite !andb_true_iff, !Nat.leb_le, !Nat.ltb_lt in B2. unfold from, rot90, t; cbn [Nat.iter nat_rect]; unfold rot1; cbn [el nr nc]. solve [apply squares; lia|etransitivity; [apply Z.add_comm|apply squares; lia]]. }
  rewrite V1. match goal with |- (if ?b then _ else _) = _ => destruct b eqn:B1 end.
  { rewrite !andb_true_iff, !Nat.leb_le, !Nat.ltb_lt in B1. unfold t; cbn [el]. apply squares; lia. }
  exfalso. rewrite !andb_false_iff, !Nat.leb_gt, !Nat.ltb_ge in *. lia.
Qed.
Print Assumptions C127_even.
(* the frequency zero is at h - 1, h - 1 only, and the matrix is symmetric; the last element is the largest *)
Theorem C127_zero : forall h m, (0 < h)%nat -> spatial_frequency (2 * Z.of_nat h) = Ok m ->
  (forall i j, (i < 2 * h)%nat -> (j < 2 * h)%nat -> (el m i j = 0 <-> i = (h - 1)%nat /\ j = (h - 1)%nat)) /\
  (forall i j, (i < 2 * h)%nat -> (j < 2 * h)%nat -> el m i j = el m j i) /\
  (forall i j, (i < 2 * h)%nat -> (j < 2 * h)%nat -> el m i j <= el m (2 * h - 1)%nat (2 * h - 1)%nat).
Proof.
  intros h m H E. destruct (C127_even h H) as (m' & E' & _ & _ & V). assert (m' = m) by congruence. subst m'. split; [|split].
  - intros i j Hi Hj. rewrite V by assumption. split; [|intros [-> ->]; rewrite Nat2Z.inj_sub by lia; cbn; ring].
    intros Z. set (x := Z.of_nat i - _) in Z. set (y := Z.of_nat j - _) in Z. assert (x = 0) by nia. assert (y = 0) by nia. lia.
  - intros i j Hi Hj. rewrite !V by assumption. ring.
  - intros i j Hi Hj. rewrite !V by lia. assert (B : forall k, (k < 2 * h)%nat -> (Z.of_nat k - (Z.of_nat h - 1)) ^ 2 <= (Z.of_nat (2 * h - 1) - (Z.of_nat h - 1)) ^ 2).
    { intros k Hk. rewrite !Z.pow_2_r. set (x := Z.of_nat k - _). set (y := Z.of_nat (2 * h - 1) - _). assert (- y <= x <= y) by lia. nia. }
    pose proof (B i Hi). pose proof (B j Hj). lia.
Qed.
Print Assumptions C127_zero.
(* the shift brings each frequency where the discrete Fourier transform has it: k for k at most half the size, k minus the size above *)
Definition frequency (n k : nat) : Z := if (2 * k <=? n)%nat then Z.of_nat k else Z.of_nat k - Z.of_nat n.
Theorem C127_transform : forall h m, (0 < h)%nat -> spatial_frequency (2 * Z.of_nat h) = Ok m -> forall i j, (i < 2 * h)%nat -> (j < 2 * h)%nat ->
  el (transform_order (2 * Z.of_nat h) m) i j = frequency (2 * h) i ^ 2 + frequency (2 * h) j ^ 2.
Proof.
  intros h m H E i j Hi Hj. destruct (C127_even h H) as (m' & E' & R & C & V). assert (m' = m) by congruence. subst m'.
  unfold transform_order, rolled. cbn [el]. rewrite R, C. replace (2 * Z.of_nat h / 2) with (Z.of_nat h) by (rewrite Z.mul_comm, Z.div_mul; lia).
  assert (A : forall k, (k < 2 * h)%nat -> exists q, Z.to_nat ((Z.of_nat k - (- Z.of_nat h + 1)) mod Z.of_nat (2 * h)) = q /\ (q < 2 * h)%nat /\ Z.of_nat q - (Z.of_nat h - 1) = frequency (2 * h) k).
  { intros k Hk. eexists. split; [reflexivity|]. unfold frequency. destruct (Nat.leb_spec (2 * k) (2 * h)) as [L|L].
    - rewrite Z.mod_small by lia. split; lia.
    - replace (Z.of_nat k - (- Z.of_nat h + 1)) with (Z.of_nat k - Z.of_nat h - 1 + 1 * Z.of_nat (2 * h)) by lia. rewrite Z.mod_add, Z.mod_small by lia. split; lia. }
  destruct (A i Hi) as (a & -> & La & Fa). destruct (A j Hj) as (b & -> & Lb & Fb). rewrite V, Fa, Fb by assumption. reflexivity.
Qed.
Print Assumptions C127_transform.
(* odd sizes above one and negative sizes are refused *)
Theorem C127_refused : forall dim, dim < 0 \/ (1 < dim /\ dim mod 2 = 1) -> spatial_frequency dim = Err ValueError.
Proof.
  intros dim H. unfold spatial_frequency. cbv zeta. pose proof (Z.div_mod dim 2 ltac:(lia)) as D. set (h := dim / 2) in *. unfold quarter, zeros. destruct (Z.ltb_spec (h + 1) 0); [reflexivity|]. cbn [orb bind nr nc].
  destruct (Z.ltb_spec dim 0); [reflexivity|]. cbn [orb bind nr nc]. destruct H as [H|[H M]]; [lia|]. rewrite M in D.
  unfold assign at 1. cbn [nr nc]. assert (LO : starts (Z.to_nat dim) (h - 1) = Z.to_nat (h - 1)) by (unfold starts; destruct (Z.ltb_spec (h - 1) 0); lia). rewrite LO.
  destruct (Nat.eqb_spec (Z.to_nat (h + 1)) (Z.to_nat dim - Z.to_nat (h - 1))); [lia|]. destruct (Nat.eqb_spec (Z.to_nat (h + 1)) 1); [lia|]. reflexivity.
Qed.
Print Assumptions C127_refused.

Definition entries (r : res arr) : option (list (list Z)) := match r with Ok m => Some (map (fun i => map (el m i) (seq 0 (nc m))) (seq 0 (nr m))) | Err _ => None end.
Example C127_even_example : entries (spatial_frequency 4) = Some [[2; 1; 2; 5]; [1; 0; 1; 4]; [2; 1; 2; 5]; [5; 4; 5; 8]].
Proof. reflexivity. Qed.
Example C127_transform_example : entries (m <- spatial_frequency 4 ;; Ok (transform_order 4 m)) = Some [[0; 1; 4; 1]; [1; 2; 5; 2]; [4; 5; 8; 5]; [1; 2; 5; 2]].
Proof. reflexivity. Qed.
Example C127_one_example : entries (spatial_frequency 1) = Some [[0]] /\ entries (spatial_frequency 0) = Some [] /\ spatial_frequency 3 = Err ValueError.
Proof. repeat split. Qed.
(* The null frequency is not in the last element, as documented. *)
Theorem C127_last_refuted : exists dim m, spatial_frequency dim = Ok m /\ el m (Z.to_nat (dim - 1)) (Z.to_nat (dim - 1)) = 8 /\ el m 1 1 = 0.
Proof. exists 4. eexists. split; [reflexivity|]. split; reflexivity. Qed.
Print Assumptions C127_last_refuted.
