(* C112: Zernike polynomials and their derivatives (ZernikeGenerator). *)
From Coq Require Import Reals ZArith List Bool Arith Lia Lra.
From Verif Require Import PyBase PyLemmas ZernModel ZernSpec ZernProofs.
Import ListNotations.
Local Open Scope R_scope.

Theorem C112_radial_order j n : (1 <= j)%nat -> radial_order (Z.of_nat j) = Z.of_nat n <-> (tri n < j <= tri (S n))%nat.
Proof.
  intros H. split; [|apply radial_order_spec]. intros E. destruct (order_exists j H) as (n' & d & Hd & ->).
  rewrite (radial_order_spec _ n') in E by (rewrite tri_S; lia). apply Nat2Z.inj in E. subst n'. rewrite tri_S. lia.
Qed.
Print Assumptions C112_radial_order.
Example C112_radial_order_example : radial_order 10 = 3%Z /\ radial_order 11 = 4%Z.
Proof. split; [change 10%Z with (Z.of_nat 10)|change 11%Z with (Z.of_nat 11)]; [rewrite (proj2 (C112_radial_order 10 3 ltac:(lia)))|rewrite (proj2 (C112_radial_order 11 4 ltac:(lia)))]; try reflexivity; cbn; lia. Qed.

Lemma mdeg_inv n d : (d <= n)%nat -> d = mdeg n d \/ mdeg n d = S d.
Proof. intros _. unfold mdeg. destruct (even_cases n) as [(h & Hn & ->)|(h & Hn & ->)]; destruct (half_cases d) as [(e & E1 & E2 & E3)|(e & E1 & E2 & E3)]; rewrite ?E2, ?E3; lia. Qed.
Lemma mdeg_same q m : mdeg (2 * q + m) m = m.
Proof.
  unfold mdeg. rewrite Nat.even_add, Nat.even_mul. cbn [Nat.even orb]. destruct (even_cases m) as [(h & Hn & E)|(h & Hn & E)]; rewrite E; cbn [Bool.eqb]; destruct (half_cases m) as [(e & E1 & E2 & E3)|(e & E1 & E2 & E3)]; rewrite ?E2, ?E3; lia.
Qed.
Lemma mdeg_pred q m : mdeg (2 * q + S m) m = S m.
Proof.
  unfold mdeg. rewrite Nat.even_add, Nat.even_mul. cbn [orb]. change (Nat.even 2) with true. cbn [orb]. destruct (even_cases (S m)) as [(h & Hn & E)|(h & Hn & E)]; rewrite E; cbn [Bool.eqb]; destruct (half_cases m) as [(e & E1 & E2 & E3)|(e & E1 & E2 & E3)]; rewrite ?E2, ?E3; lia.
Qed.

(* Noll's numbering: every mode has exactly one number *)
Theorem C112_degrees j : (1 <= j)%nat -> exists q m, degree (Z.of_nat j) = (Z.of_nat (2 * q + m), Z.of_nat m).
Proof.
  intros H. destruct (order_exists j H) as (n & d & Hd & ->). destruct (mdeg_range n d Hd) as [_ [q Hq]]. exists q, (mdeg n d). rewrite <- Hq. now apply degree_spec.
Qed.
Print Assumptions C112_degrees.
Theorem C112_numbers q m j : (1 <= j)%nat ->
  degree (Z.of_nat j) = (Z.of_nat (2 * q + m), Z.of_nat m) <-> (j = tri (2 * q + m) + m + 1 \/ (1 <= m /\ j = tri (2 * q + m) + m))%nat.
Proof.
  intros H. split.
  - intros E. destruct (order_exists j H) as (n & d & Hd & ->). rewrite (degree_spec n d Hd) in E. injection E as E1 E2. apply Nat2Z.inj in E1, E2.
    replace (2 * q + m)%nat with n by lia. destruct (mdeg_inv n d Hd) as [G|G]; rewrite E2 in G; lia.
  - intros [->|[M ->]].
    + rewrite degree_spec by lia. now rewrite mdeg_same.
    + destruct m as [|m]; [lia|]. replace (tri (2 * q + S m) + S m)%nat with (tri (2 * q + S m) + m + 1)%nat by lia. rewrite degree_spec by lia. now rewrite mdeg_pred.
Qed.
Print Assumptions C112_numbers.
Corollary C112_one_number q m c : (m = 0 -> c = Nat.even (tri (2 * q) + 1))%nat ->
  exists! j, (1 <= j)%nat /\ degree (Z.of_nat j) = (Z.of_nat (2 * q + m), Z.of_nat m) /\ Nat.even j = c.
Proof.
  intros Hc. set (t := tri (2 * q + m)). destruct (Bool.bool_dec (Nat.even (t + m + 1)) c) as [B|B].
  - exists (t + m + 1)%nat. split.
    + split; [lia|]. split; [apply C112_numbers; [lia|now left]|exact B].
    + intros j (J1 & J2 & J3). apply C112_numbers in J2; [|exact J1]. fold t in J2. destruct J2 as [->|[M ->]]; [reflexivity|]. exfalso. rewrite Nat.add_1_r, Nat.even_succ, <- Nat.negb_even in B. rewrite J3 in B. destruct c; discriminate.
  - destruct m as [|m]; [exfalso; apply B; rewrite (Hc eq_refl); unfold t; rewrite !Nat.add_0_r; reflexivity|]. exists (t + S m)%nat. split.
    + split; [lia|]. split; [apply C112_numbers; [lia|right; split; [lia|reflexivity]]|]. rewrite Nat.add_1_r, Nat.even_succ, <- Nat.negb_even in B. destruct (Nat.even (t + S m)), c; cbn in *; congruence.
    + intros j (J1 & J2 & J3). apply C112_numbers in J2; [|exact J1]. fold t in J2. destruct J2 as [->|[M ->]]; [contradiction|reflexivity].
Qed.
Print Assumptions C112_one_number.
Example C112_numbers_example : map (fun j => degree (Z.of_nat j)) (seq 1 11) = [(0, 0); (1, 1); (1, 1); (2, 0); (2, 2); (2, 2); (3, 1); (3, 1); (3, 3); (3, 3); (4, 0)]%Z.
Proof.
  assert (D : forall q m j, (1 <= j)%nat -> (j = tri (2 * q + m) + m + 1 \/ (1 <= m /\ j = tri (2 * q + m) + m))%nat -> degree (Z.of_nat j) = (Z.of_nat (2 * q + m), Z.of_nat m)) by (intros; now apply C112_numbers).
  cbn [map seq]. rewrite (D 0 0 1)%nat, (D 0 1 2)%nat, (D 0 1 3)%nat, (D 1 0 4)%nat, (D 0 2 5)%nat, (D 0 2 6)%nat, (D 1 1 7)%nat, (D 1 1 8)%nat, (D 0 3 9)%nat, (D 0 3 10)%nat, (D 2 0 11)%nat; try reflexivity; cbn; lia.
Qed.

(* values *)
Theorem C112_value j q m x y : (1 <= j)%nat -> degree (Z.of_nat j) = (Z.of_nat (2 * q + m), Z.of_nat m) -> zernike (Z.of_nat j) x y = Ok (mode q m (Nat.even j) x y).
Proof.
  intros H E. destruct (order_exists j H) as (n & d & Hd & ->). rewrite (degree_spec n d Hd) in E. injection E as E1 E2. apply Nat2Z.inj in E1, E2. rewrite (zernike_mode n d q) by (try assumption; lia). now rewrite E2.
Qed.
Print Assumptions C112_value.
Theorem C112_refused j x y : (j <= 0)%Z -> zernike j x y = Err ValueError.
Proof. intros H. unfold zernike. replace (j <=? 0)%Z with true by (symmetry; now apply Z.leb_le). reflexivity. Qed.
Print Assumptions C112_refused.
Lemma coef_00 : coef 0 0 0 = 1. Proof. unfold coef. cbn. field. Qed.
Lemma coef_10 : coef 1 0 0 = 1. Proof. unfold coef. cbn. field. Qed.
Example C112_value_example x y : zernike 1 x y = Ok 1 /\ zernike 2 x y = Ok (2 * x) /\ zernike 3 x y = Ok (2 * y) /\ zernike 4 x y = Ok (sqrt 3 * (2 * (x ^ 2 + y ^ 2) - 1)) /\ zernike 0 x y = Err ValueError.
Proof.
  assert (D : forall q m j, (1 <= j)%nat -> (j = tri (2 * q + m) + m + 1 \/ (1 <= m /\ j = tri (2 * q + m) + m))%nat -> zernike (Z.of_nat j) x y = Ok (mode q m (Nat.even j) x y)) by (intros; apply C112_value; [assumption|now apply C112_numbers]).
  change 1%Z with (Z.of_nat 1). change 2%Z with (Z.of_nat 2). change 3%Z with (Z.of_nat 3). change 4%Z with (Z.of_nat 4).
  assert (S4 : sqrt (2 * (1 + 1)) = 2) by (replace (2 * (1 + 1)) with (2 * 2) by ring; apply sqrt_square; lra).
  rewrite (D 0 0 1)%nat, (D 0 1 2)%nat, (D 0 1 3)%nat, (D 1 0 4)%nat by (cbn; lia). repeat split; f_equal.
  - cbn. rewrite coef_00, Rplus_0_l, sqrt_1. ring.
  - cbn. rewrite coef_10, S4. ring.
  - cbn. rewrite coef_10, S4. ring.
  - cbn. unfold coef. cbn. replace (1 + 1 + 1) with 3 by ring. field.
Qed.
Theorem C112_parity j q m x y v : (1 <= j)%nat -> degree (Z.of_nat j) = (Z.of_nat (2 * q + m), Z.of_nat m) -> zernike (Z.of_nat j) x y = Ok v -> zernike (Z.of_nat j) (- x) (- y) = Ok ((-1) ^ m * v).
Proof.
  intros H E V. rewrite (C112_value j q m) in V by assumption. rewrite (C112_value j q m) by assumption. injection V as <-. f_equal.
  assert (A : forall z n, cpow (- fst z, - snd z) n = cscale ((-1) ^ n) (cpow z n)). { intros z n. induction n as [|n IH]; [cbn [cpow pow]; cring|]. cbn [cpow pow]. rewrite IH. cring. }
  assert (B : forall z a b, mono a b (- fst z, - snd z) = cscale ((-1) ^ (a + b)) (mono a b z)). { intros z a b. unfold mono. rewrite pow_add, A. replace (conj (- fst z, - snd z)) with (- fst (conj z), - snd (conj z)) by cring. rewrite A. cring. }
  assert (C : disk (q + m) q (- x, - y) = cscale ((-1) ^ m) (disk (q + m) q (x, y))).
  { unfold disk. rewrite <- csum_scale. apply csum_ext. intros s Hs. rewrite (B (x, y)). replace (q + m - s + (q - s))%nat with (2 * (q - s) + m)%nat by lia. rewrite pow_add, pow_1_even. cring. }
  unfold mode. rewrite C. destruct m as [|m]; [cbn [cscale fst]; ring|]. destruct (Nat.even j); cbn [cscale fst snd]; ring.
Qed.
Print Assumptions C112_parity.

(* on the edge of the disk *)
Theorem C112_edge j q m t : (1 <= j)%nat -> degree (Z.of_nat j) = (Z.of_nat (2 * q + m), Z.of_nat m) -> zernike (Z.of_nat j) (cos t) (sin t) =
  Ok (if (m =? 0)%nat then sqrt (INR (2 * q) + 1) else sqrt (2 * (INR (2 * q + m) + 1)) * (if Nat.even j then cos (INR m * t) else sin (INR m * t))).
Proof.
  intros H E. rewrite (C112_value j q m) by assumption. f_equal. unfold mode. assert (P := disk_polar q m 1 t). rewrite !Rmult_1_l, pow1 in P. rewrite P. replace (2 * 1 - 1) with 1 by ring. rewrite jacobi_one, pow1.
  destruct m as [|m]; cbn [Nat.eqb]; unfold cscale; cbn [fst snd].
  - cbn [INR]. rewrite Rmult_0_l, cos_0, Nat.add_0_r. ring.
  - destruct (Nat.even j); ring.
Qed.
Print Assumptions C112_edge.

(* pixels *)
Theorem C112_mask p r c : 0 < p_radius p -> outside p r c = false <-> coord p c ^ 2 + coord p r ^ 2 <= 1.
Proof.
  intros P. unfold outside, coord. set (a := INR c + 1 / 2 - INR (p_size p) / 2). set (b := INR r + 1 / 2 - INR (p_size p) / 2). set (k := p_radius p) in *.
  assert (E : (a / k) ^ 2 + (b / k) ^ 2 = (a ^ 2 + b ^ 2) / k ^ 2) by (field; lra). rewrite E. assert (K : 0 < k ^ 2) by (apply pow_lt; exact P).
  destruct (Rle_dec (a ^ 2 + b ^ 2) (k ^ 2)) as [L|L]; split; try discriminate; try reflexivity.
  - intros _. apply (Rmult_le_reg_r (k ^ 2)); [exact K|]. unfold Rdiv. rewrite Rmult_assoc, Rinv_l by lra. lra.
  - intros G. exfalso. apply L. apply (Rmult_le_compat_r (k ^ 2)) in G; [|lra]. unfold Rdiv in G. rewrite Rmult_assoc, Rinv_l in G by lra. lra.
Qed.
Print Assumptions C112_mask.
Theorem C112_pixel p j r c : (1 <= j)%nat -> exists v, zernike (Z.of_nat j) (coord p c) (coord p r) = Ok v /\ pixel p (Z.of_nat j) r c = Ok (if outside p r c then 0 else v).
Proof. intros H. destruct (C112_degrees j H) as (q & m & E). eexists. split; [apply (C112_value _ _ _ _ _ H E)|]. unfold pixel. rewrite (C112_value _ _ _ _ _ H E). reflexivity. Qed.
Print Assumptions C112_pixel.

(* matrices that are kept *)
Definition kept (g : Z -> Z -> R) (calls : list nat) : option (list (list R)) := fold_left (fun k n => snd (coefficients g k n)) calls None.
Lemma firstn_map_seq {A} (f : nat -> A) n N : (n <= N)%nat -> firstn n (map f (seq 1 N)) = map f (seq 1 n).
Proof. intros H. rewrite <- (Nat.sub_add n N H), Nat.add_comm, seq_app, map_app. rewrite <- (seq_length n 1) at 1. rewrite <- (map_length f), firstn_app, Nat.sub_diag, firstn_O, app_nil_r, firstn_all. reflexivity. Qed.
Lemma kept_inv g calls : kept g calls = None \/ exists N, kept g calls = Some (matrix g N).
Proof.
  unfold kept. assert (G : forall k, (k = None \/ exists N, k = Some (matrix g N)) -> let k' := fold_left (fun k n => snd (coefficients g k n)) calls k in k' = None \/ exists N, k' = Some (matrix g N)).
  { induction calls as [|n calls IH]; intros k K; [exact K|]. cbn [fold_left]. apply IH. right. unfold coefficients. cbn [snd]. destruct K as [->|[N ->]]; [exists n; reflexivity|]. destruct (length (matrix g N) <? n)%nat; eexists; reflexivity. }
  apply G. now left.
Qed.
Theorem C112_calls g calls n : fst (coefficients g (kept g calls) n) = matrix g n.
Proof.
  assert (C : forall N, (n <= N)%nat -> map (firstn n) (firstn n (matrix g N)) = matrix g n).
  { intros N H. unfold matrix. rewrite (firstn_map_seq _ n N H), map_map. apply map_ext. intros i. now apply firstn_map_seq. }
  unfold coefficients. cbn [fst]. destruct (kept_inv g calls) as [->|[N ->]]; [now apply C|]. destruct (Nat.ltb_spec (length (matrix g N)) n) as [L|L]; [now apply C|]. apply C. revert L. unfold matrix. now rewrite map_length, seq_length.
Qed.
Print Assumptions C112_calls.

(* derivatives *)
Lemma fold_sum p r c (a : nat -> R) (v : nat -> R) n : (forall i, (1 <= i <= n)%nat -> pixel p (Z.of_nat i) r c = Ok (v i)) ->
  fold_res (fun acc i => w <- pixel p (Z.of_nat i) r c ;; Ok (acc + a i * w)) 0 (seq 1 n) = Ok (rsum n (fun t => a (t + 1)%nat * v (t + 1)%nat)).
Proof.
  intros H. assert (F : forall {S : Type} (f : S -> nat -> res S) l1 l2 s, fold_res f s (l1 ++ l2) = (s' <- fold_res f s l1 ;; fold_res f s' l2)).
  { intros S f l1. induction l1 as [|x l1 IH]; intros l2 s; [reflexivity|]. cbn. destruct (f s x); cbn; [apply IH|reflexivity]. }
  induction n as [|n IH]; [reflexivity|]. rewrite seq_S, F, IH by (intros; apply H; lia). cbn [bind fold_res]. rewrite H by lia. cbn [bind rsum]. replace (1 + n)%nat with (n + 1)%nat by lia. reflexivity.
Qed.
Lemma entry (g : Z -> Z -> R) n i j : (1 <= i <= n)%nat -> (1 <= j <= n)%nat -> nth (j - 1) (nth (i - 1) (matrix g n) []) 0 = g (Z.of_nat i) (Z.of_nat j).
Proof.
  intros Hi Hj. unfold matrix. set (row := fun i => map (fun j => g (Z.of_nat i) (Z.of_nat j)) (seq 1 n)).
  rewrite (nth_indep _ [] (row 0%nat)) by (rewrite map_length, seq_length; lia). rewrite map_nth, seq_nth by lia. unfold row.
  rewrite (nth_indep _ 0 (g (Z.of_nat (1 + (i - 1))) (Z.of_nat 0))) by (rewrite map_length, seq_length; lia). rewrite (map_nth (fun j => g (Z.of_nat (1 + (i - 1))) (Z.of_nat j))), seq_nth by lia. f_equal; f_equal; lia.
Qed.
Lemma derivative_sum g calls p index r c : (1 <= index)%nat ->
  derivative_with (fst (coefficients g (kept g calls) index)) p index r c =
  Ok (if outside p r c then 0 else rsum (index - 1) (fun t => g (Z.of_nat index) (Z.of_nat (t + 1)) * zval (t + 1) (coord p c) (coord p r))).
Proof.
  intros H. rewrite C112_calls. unfold derivative_with.
  rewrite (fold_sum p r c (fun i => nth (i - 1) (nth (index - 1) (matrix g index) []) 0) (fun i => if outside p r c then 0 else zval i (coord p c) (coord p r))).
  - f_equal. destruct (outside p r c).
    + apply rsum_zero. intros; ring.
    + apply rsum_ext. intros s Hs. now rewrite entry by lia.
  - intros i Hi. destruct (C112_pixel p i r c ltac:(lia)) as (v & V & ->). unfold zval. now rewrite V.
Qed.
Theorem C112_derivative_x calls p index r c f : (1 <= index)%nat -> outside p r c = false -> (forall u, zernike (Z.of_nat index) u (coord p r) = Ok (f u)) ->
  exists v, derivative_with (fst (coefficients gx (kept gx calls) index)) p index r c = Ok v /\ derivable_pt_lim f (coord p c) v.
Proof.
  intros H O F. rewrite derivative_sum, O by exact H. eexists. split; [reflexivity|]. destruct (order_exists index H) as (n & d & Hd & ->). replace (tri n + d + 1 - 1)%nat with (tri n + d)%nat by lia.
  generalize (sum_dx n d (coord p c) (coord p r) Hd). apply deriv_ext. intros u. unfold zval. now rewrite F.
Qed.
Print Assumptions C112_derivative_x.
Theorem C112_derivative_y calls p index r c f : (1 <= index)%nat -> outside p r c = false -> (forall u, zernike (Z.of_nat index) (coord p c) u = Ok (f u)) ->
  exists v, derivative_with (fst (coefficients gy (kept gy calls) index)) p index r c = Ok v /\ derivable_pt_lim f (coord p r) v.
Proof.
  intros H O F. rewrite derivative_sum, O by exact H. eexists. split; [reflexivity|]. destruct (order_exists index H) as (n & d & Hd & ->). replace (tri n + d + 1 - 1)%nat with (tri n + d)%nat by lia.
  generalize (sum_dy n d (coord p c) (coord p r) Hd). apply deriv_ext. intros u. unfold zval. now rewrite F.
Qed.
Print Assumptions C112_derivative_y.
Theorem C112_derivative_outside g calls p index r c : (1 <= index)%nat -> outside p r c = true -> derivative_with (fst (coefficients g (kept g calls) index)) p index r c = Ok 0.
Proof. intros H O. now rewrite derivative_sum, O by exact H. Qed.
Print Assumptions C112_derivative_outside.
(* number zero is refused for values, and accepted for derivatives *)
Theorem C112_derivative_zero_refuted : exists index, (forall p r c, pixel p (Z.of_nat index) r c = Err ValueError) /\ forall g calls p r c, derivative_with (fst (coefficients g (kept g calls) index)) p index r c = Ok 0.
Proof. exists 0%nat. split; reflexivity. Qed.
Print Assumptions C112_derivative_zero_refuted.
(* the derivative of the focus along x: 4 sqrt 3 x, at the centre of a pixel *)
Example C112_derivative_example : let p := mkPupil 2 1 in derivative_with (fst (coefficients gx (kept gx [7; 2]%nat) 4)) p 4 1 1 = Ok (2 * sqrt 3) /\ outside p 1 1 = false.
Proof.
  intros p. assert (O : outside p 1 1 = false). { apply C112_mask; cbn; unfold coord; cbn; lra. } split; [|exact O].
  set (f := fun u => sqrt 3 * (2 * (u ^ 2 + coord p 1 ^ 2) - 1)).
  destruct (C112_derivative_x [7; 2]%nat p 4 1 1 f ltac:(lia) O) as (v & V & D); [intros u; apply (C112_value_example u (coord p 1))|]. rewrite V. f_equal. apply (uniqueness_limite f (coord p 1)); [exact D|].
  assert (G : derivable_pt_lim f (coord p 1) (sqrt 3 * (2 * (2 * coord p 1)))).
  { assert (X := derivable_pt_lim_scal _ (sqrt 3) _ _ (derivable_pt_lim_scal _ 2 _ _ (derivable_pt_lim_pow (coord p 1) 2))). 
    assert (X2 := derivable_pt_lim_plus _ _ _ _ _ X (derivable_pt_lim_const (sqrt 3 * (2 * coord p 1 ^ 2 - 1)) (coord p 1))). cbn [INR Nat.pred pow] in X2.
    match type of X2 with derivable_pt_lim _ _ ?w => replace (sqrt 3 * (2 * (2 * coord p 1))) with w by (cbn; ring) end. revert X2. apply deriv_ext. intros u. unfold f, plus_fct, mult_real_fct, fct_cte. ring. }
  replace (2 * sqrt 3) with (sqrt 3 * (2 * (2 * coord p 1))); [exact G|]. unfold coord. cbn. field.
Qed.
