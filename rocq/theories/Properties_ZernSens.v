(* Properties of the focal mask of the Zernike sensor. *)
From Coq Require Import List ZArith Bool Arith Lia QArith Qcanon Lqa.
From Verif Require Import PyBase PyLemmas OpticalModel QcTac AirModel ZernSensModel Properties_Air.
Import ListNotations.
Local Open Scope Qc_scope.
Local Strategy 100 [qlt Qcdiv Qcinv Qcmult Qcplus Q2Qc].

Definition at_ (m : list (list Qc)) (i j : nat) : option Qc := match nth_error m i with Some r => nth_error r j | None => None end.
Lemma nth_seq0 : forall n i, (i < n)%nat -> nth_error (seq 0 n) i = Some i.
Proof. intros n i H. rewrite (nth_error_nth' _ 0%nat) by now rewrite seq_length. now rewrite seq_nth. Qed.
Section Props.
Context (radius shift : Qc).
Notation mask := (get_pyr_tlt radius shift).
Lemma mask_at : forall p c i j, (i < 2 * ((p + c) / 2))%nat -> (j < 2 * ((p + c) / 2))%nat ->
  at_ (mask p c) i j = Some (if below (sq (coord ((p + c) / 2) i) + sq (coord ((p + c) / 2) j)) (spot_radius radius p c) then shift / q 2 1 else 0).
Proof.
  intros p c i j I J. unfold at_, get_pyr_tlt. cbv zeta. rewrite nth_error_map, (nth_seq0 _ i I). cbn [option_map]. rewrite nth_error_map, (nth_seq0 _ j J). reflexivity.
Qed.
(* the size is that of the focal plane when it is even *)
Theorem C131_size : forall p c, Nat.even (p + c) = true -> length (mask p c) = (p + c)%nat /\ Forall (fun r => length r = (p + c)%nat) (mask p c).
Proof.
  intros p c E. apply Nat.even_spec in E. destruct E as [k E]. assert (A : (2 * ((p + c) / 2) = p + c)%nat) by (rewrite E, (Nat.mul_comm 2 k), Nat.div_mul; lia).
  unfold get_pyr_tlt. cbv zeta. rewrite map_length, seq_length. split; [exact A|]. apply Forall_forall. intros r R. apply in_map_iff in R. destruct R as (i & <- & _). now rewrite map_length, seq_length.
Qed.
Lemma coord_mirror : forall A i, (i < 2 * A)%nat -> coord A (2 * A - 1 - i) = - coord A i.
Proof.
  intros A i H. unfold coord. replace (Z.of_nat (2 * A - 1 - i) - Z.of_nat A)%Z with (- (Z.of_nat i - Z.of_nat A) - 1)%Z by lia. generalize (Z.of_nat i - Z.of_nat A)%Z. intros z.
  apply Qc_is_canon. unfold q. rewrite this_add, this_opp, this_add. unfold Q2Qc, this. rewrite !Qred_correct. unfold Qeq. cbn [Qnum Qden Qplus Qopp]. lia.
Qed.
(* the spot is symmetric about the centre of the focal plane, in both axes and in their exchange *)
Theorem C131_symmetric : forall p c i j, let n := (2 * ((p + c) / 2))%nat in (i < n)%nat -> (j < n)%nat ->
  at_ (mask p c) (n - 1 - i) j = at_ (mask p c) i j /\ at_ (mask p c) i (n - 1 - j) = at_ (mask p c) i j /\ at_ (mask p c) j i = at_ (mask p c) i j.
Proof.
  intros p c i j n I J. subst n. assert (S : forall x, sq (- x) = sq x) by (intros; unfold sq; ring).
  rewrite !mask_at by lia. rewrite !coord_mirror by assumption. rewrite !S. rewrite (Qcplus_comm (sq (coord _ j))). repeat split.
Qed.
(* a pixel has half the phase shift, in waves, when its centre is inside the circle, and nothing otherwise *)
Theorem C131_spot : forall p c i j x, at_ (mask p c) i j = Some x -> (0 < p)%nat -> 0 < radius ->
  let A := ((p + c) / 2)%nat in let s := sq (coord A i) + sq (coord A j) in
  (s * sq (q (Z.of_nat p) 1) < sq (radius * q (Z.of_nat (p + c)) 1) -> x + x = shift) /\ (sq (radius * q (Z.of_nat (p + c)) 1) <= s * sq (q (Z.of_nat p) 1) -> x = 0).
Proof.
  intros p c i j x H P R A s.
  assert (I : (i < 2 * A)%nat). { apply Nat.nle_gt. intros L. unfold at_ in H. replace (nth_error (mask p c) i) with (@None (list Qc)) in H; [discriminate H|]. symmetry. apply nth_error_None. unfold get_pyr_tlt. cbv zeta. rewrite map_length, seq_length. exact L. }
  assert (J : (j < 2 * A)%nat). { apply Nat.nle_gt. intros L. unfold at_, get_pyr_tlt in H. cbv zeta in H. fold A in H. rewrite nth_error_map, (nth_seq0 _ i I) in H. cbn [option_map] in H. rewrite nth_error_map in H. replace (nth_error (seq 0 (2 * A)) j) with (@None nat) in H; [discriminate H|]. symmetry. apply nth_error_None. rewrite seq_length. exact L. }
  rewrite (mask_at p c i j I J) in H. fold A in H. change (sq (coord A i) + sq (coord A j)) with s in H. clearbody s. injection H as <-.
  assert (PP : 0 < q (Z.of_nat p) 1). { unfold q, Qclt. unfold Q2Qc, this. rewrite !Qred_correct. unfold Qlt. cbn [Qnum Qden]. lia. }
  assert (CC : 0 <= q (Z.of_nat c) 1). { unfold q, Qcle. unfold Q2Qc, this. rewrite !Qred_correct. unfold Qle. cbn [Qnum Qden]. lia. }
  assert (PC : q (Z.of_nat (p + c)) 1 = q (Z.of_nat p) 1 + q (Z.of_nat c) 1). { apply Qc_is_canon. unfold q. rewrite this_add. unfold Q2Qc, this. rewrite !Qred_correct. unfold Qeq. cbn [Qnum Qden Qplus]. lia. }
  unfold below, spot_radius. rewrite PC. set (a := q (Z.of_nat p) 1) in *. set (b := q (Z.of_nat c) 1) in *. clearbody a b. clear PC.
  assert (AN := pos_nz _ PP). assert (IA := inv_pos _ PP).
  assert (F : radius * (1 + b / a) = radius * (a + b) * / a) by (field; exact AN). rewrite F.
  assert (AB : 0 < a + b) by qclra. assert (RP : 0 < radius * (a + b) * / a) by (apply mul_pos; [now apply mul_pos|exact IA]).
  replace (qlt 0 (radius * (a + b) * / a)) with true by (symmetry; now apply qlt_true). cbn [andb]. unfold sq. set (y := radius * (a + b)) in *. clearbody y.
  assert (E1 : y * / a * (y * / a) * (a * a) = y * y) by (field; exact AN). assert (AA : 0 < a * a) by (now apply mul_pos). split; intros H.
  - replace (qlt s (y * / a * (y * / a))) with true.
    + set (h := shift / q 2 1). assert (h = shift * q 1 2) as -> by (subst h; unfold Qcdiv; f_equal; apply Qc_is_canon; reflexivity). rewrite <- Qcmult_plus_distr_r. replace (q 1 2 + q 1 2) with 1 by (apply Qc_is_canon; reflexivity). ring.
    + symmetry. apply qlt_true. apply Qcnot_le_lt. intros L. apply (Qcmult_le_compat_r _ _ (a * a)) in L; [|now apply Qclt_le_weak]. rewrite E1 in L. exact (Qclt_not_le _ _ H L).
  - replace (qlt s (y * / a * (y * / a))) with false; [reflexivity|]. symmetry. apply qlt_false. apply Qcnot_lt_le. intros L. apply (Qcmult_lt_compat_r _ _ (a * a)) in L; [|exact AA]. rewrite E1 in L. exact (Qclt_not_le _ _ L H).
Qed.
(* without a radius there is no spot *)
Theorem C131_none : forall p c i j x, at_ (mask p c) i j = Some x -> spot_radius radius p c <= 0 -> x = 0.
Proof.
  intros p c i j x H R. unfold at_, get_pyr_tlt in H. cbv zeta in H. rewrite nth_error_map in H. destruct (nth_error (seq 0 _) i) as [a|]; [|discriminate H]. cbn [option_map] in H. rewrite nth_error_map in H. destruct (nth_error (seq 0 _) j) as [b|]; [|discriminate H]. cbn [option_map] in H.
  injection H as <-. unfold below. replace (qlt 0 (spot_radius radius p c)) with false by (symmetry; now apply qlt_false). reflexivity.
Qed.
End Props.
Print Assumptions C131_size.
Print Assumptions C131_symmetric.
Print Assumptions C131_spot.
Print Assumptions C131_none.

Example C131_spot_example : map (map this) (get_pyr_tlt (q 2 3) (q 1 2) 2 4) = map (map (fun z => if Z.eqb z 0 then 0 else 1 # 4)%Q)
  [[0; 0; 0; 0; 0; 0]; [0; 0; 1; 1; 0; 0]; [0; 1; 1; 1; 1; 0]; [0; 1; 1; 1; 1; 0]; [0; 0; 1; 1; 0; 0]; [0; 0; 0; 0; 0; 0]]%Z.
Proof. vm_compute. reflexivity. Qed.
(* For an odd focal plane the mask is one pixel smaller than it. *)
Theorem C131_size_refuted : exists radius shift p c, length (get_pyr_tlt radius shift p c) <> (p + c)%nat.
Proof. exists 1, 1, 2%nat, 5%nat. vm_compute. discriminate. Qed.
Print Assumptions C131_size_refuted.
