From Coq Require Import Reals List Bool Arith Lia Lra ZArith.
From Verif Require Import PyBase PetalModel PetalSpec.
Import ListNotations.
Local Open Scope R_scope.

Lemma floor_unique x k : IZR k <= x < IZR k + 1 -> Int_part x = k.
Proof.
  intros [A B]. destruct (base_Int_part x) as [C D]. assert (E : IZR k < IZR (Int_part x + 1)) by (rewrite plus_IZR; lra). assert (F : IZR (Int_part x) < IZR (k + 1)) by (rewrite plus_IZR; lra). apply lt_IZR in E, F. lia.
Qed.
Lemma remainder_range x m : 0 < m -> 0 <= remainder x m < m.
Proof.
  intros M. unfold remainder. destruct (base_Int_part (x / m)) as [A B]. set (k := IZR (Int_part (x / m))) in *.
  assert (E : x = m * (x / m)) by (field; lra). assert (L : m * k <= m * (x / m)) by (apply Rmult_le_compat_l; lra). assert (U : m * (x / m) < m * (k + 1)) by (apply Rmult_lt_compat_l; lra). lra.
Qed.
Lemma remainder_unique x m t : 0 < m -> 0 <= x + m * IZR t < m -> remainder x m = x + m * IZR t.
Proof.
  intros M [A B]. unfold remainder. replace (Int_part (x / m)) with (- t)%Z; [rewrite opp_IZR; ring|]. symmetry. apply floor_unique. rewrite opp_IZR. set (q := IZR t) in *.
  assert (E : x = m * (x / m)) by (field; lra). split; [apply Rmult_le_reg_l with m|apply Rmult_lt_reg_l with m]; lra.
Qed.
Lemma remainder_turns x m t : 0 < m -> remainder (x + m * IZR t) m = remainder x m.
Proof.
  intros M. destruct (remainder_range x m M) as [A B]. unfold remainder in A, B. set (k := Int_part (x / m)) in *. rewrite (remainder_unique (x + m * IZR t) m (- t - k)).
  - unfold remainder. fold k. rewrite minus_IZR, opp_IZR. ring.
  - exact M.
  - rewrite minus_IZR, opp_IZR. lra.
Qed.
Lemma two_pi : 0 < 2 * PI.
Proof. assert (H := PI_RGT_0). lra. Qed.
(* an angle is in one sector *)
Lemma turn_angle n : (0 < n)%nat -> 0 < 2 * PI / INR n /\ INR n * (2 * PI / INR n) = 2 * PI.
Proof. intros H. assert (P : 0 < INR n) by now apply lt_0_INR. split; [apply Rdiv_lt_0_compat; [apply two_pi|exact P]|field; lra]. Qed.
Lemma between_unique w x k k' : 0 < w -> INR k * w <= x < INR (S k) * w -> INR k' * w <= x < INR (S k') * w -> k = k'.
Proof.
  intros W A B. assert (L : forall a b, INR a * w <= x -> x < INR (S b) * w -> (a <= b)%nat).
  { intros a b P Q. assert (R : INR a * w < INR (S b) * w) by lra. apply Rmult_lt_reg_r in R; [|exact W]. apply INR_lt in R. lia. }
  apply Nat.le_antisymm; apply L; tauto.
Qed.
Lemma sector_remainder n k a : (0 < n)%nat -> (k < n)%nat -> in_sector n k a <-> INR k * (2 * PI / INR n) <= remainder a (2 * PI) < INR (S k) * (2 * PI / INR n).
Proof.
  intros N K. destruct (turn_angle n N) as [W E]. assert (T := two_pi). split.
  - intros [t H]. rewrite (remainder_unique a (2 * PI) t T); [exact H|]. assert (K0 : 0 <= INR k * (2 * PI / INR n)) by (apply Rmult_le_pos; [apply pos_INR|lra]).
    assert (K1 : INR (S k) * (2 * PI / INR n) <= INR n * (2 * PI / INR n)) by (apply Rmult_le_compat_r; [lra|apply le_INR; lia]). lra.
  - intros H. exists (- Int_part (a / (2 * PI)))%Z. unfold remainder in H. rewrite opp_IZR. replace (a + 2 * PI * - IZR (Int_part (a / (2 * PI)))) with (a - 2 * PI * IZR (Int_part (a / (2 * PI)))) by ring. exact H.
Qed.
Lemma one_sector n a : (0 < n)%nat -> exists k, (k < n)%nat /\ in_sector n k a /\ forall k', (k' < n)%nat -> in_sector n k' a -> k' = k.
Proof.
  intros N. destruct (turn_angle n N) as [W E]. assert (T := two_pi). set (w := 2 * PI / INR n) in *. set (x := remainder a (2 * PI)). destruct (remainder_range a (2 * PI) T) as [A B]. fold x in A, B.
  destruct (base_Int_part (x / w)) as [C D]. set (z := Int_part (x / w)) in *. assert (X : x = x / w * w) by (field; lra).
  assert (X0 : 0 <= x / w) by (unfold Rdiv; apply Rmult_le_pos; [exact A|left; now apply Rinv_0_lt_compat]). assert (Z0 : (0 <= z)%Z). { assert (G : IZR (-1) < IZR z) by lra. apply lt_IZR in G. lia. }
  assert (I : INR (Z.to_nat z) = IZR z) by (rewrite INR_IZR_INZ, Z2Nat.id by exact Z0; reflexivity).
  assert (H : INR (Z.to_nat z) * w <= x < INR (S (Z.to_nat z)) * w).
  { rewrite S_INR, I. assert (X1 : IZR z * w <= x / w * w) by (apply Rmult_le_compat_r; lra). assert (X2 : x / w * w < (IZR z + 1) * w) by (apply Rmult_lt_compat_r; lra). lra. }
  assert (K : (Z.to_nat z < n)%nat). { apply INR_lt. apply Rmult_lt_reg_r with w; [exact W|]. lra. }
  exists (Z.to_nat z). split; [exact K|]. split; [apply sector_remainder; assumption|]. intros k' K' S'. apply (sector_remainder n k' a N K') in S'. fold w x in S'. exact (between_unique w x _ _ W S' H).
Qed.

Section P.
Variable atan2 : R -> R -> R.
Variables (dim n : nat) (off : R) (mask : image).
Hypothesis N : (0 < n)%nat.
Definition angle (i j : nat) : R := atan2 (coord dim i) (coord dim j) + off * (PI / 180).
Lemma theta_angle i j : theta atan2 dim off i j = remainder (angle i j) (2 * PI).
Proof. unfold theta, angle. rewrite <- (remainder_turns (_ + off * (PI / 180)) _ 1 two_pi). now rewrite Rmult_1_r. Qed.
Lemma petal_in k i j special : (k < n)%nat -> in_sector n k (angle i j) -> petal atan2 dim n off mask special k i j = mask i j.
Proof.
  intros K H. apply (sector_remainder n k _ N K) in H. unfold petal, within, petal_angle. rewrite theta_angle. rewrite S_INR in H. destruct H as [A B]. destruct (Rle_dec _ _); [|contradiction]. destruct (Rlt_dec _ _); [|contradiction]. now destruct (_ && _).
Qed.
Lemma petal_out k i j special : (k < n)%nat -> (k =? n - 1)%nat && special = false -> ~ in_sector n k (angle i j) -> petal atan2 dim n off mask special k i j = 0.
Proof.
  intros K S H. rewrite (sector_remainder n k _ N K) in H. unfold petal, within, petal_angle. rewrite S, theta_angle. rewrite S_INR in H. destruct (Rle_dec _ _); [|reflexivity]. destruct (Rlt_dec _ _); [|reflexivity]. exfalso. apply H. now split.
Qed.
Lemma petal_last i j : petal atan2 dim n off mask true (n - 1) i j = mask i j.
Proof.
  unfold petal, within, petal_angle. rewrite Nat.eqb_refl. cbn [andb]. destruct (turn_angle n N) as [W E]. destruct (remainder_range (angle i j) (2 * PI) two_pi) as [A B]. rewrite theta_angle.
  assert (L : (INR (n - 1) + 1) * (2 * PI / INR n) = 2 * PI) by (rewrite <- S_INR; replace (S (n - 1)) with n by lia; exact E). rewrite L. destruct (Rlt_dec _ (2 * PI)); [|contradiction]. now rewrite orb_true_r.
Qed.
End P.

(* statistics *)
Lemma total_map_scale {X} (f : X -> R) c l : total (map (fun x => c * f x) l) = c * total (map f l).
Proof. induction l as [|x l IH]; cbn; [ring|]. unfold total in *. cbn. rewrite IH. ring. Qed.
Lemma total_map_plus {X} (f g : X -> R) l : total (map (fun x => f x + g x) l) = total (map f l) + total (map g l).
Proof. induction l as [|x l IH]; cbn; [ring|]. unfold total in *. cbn. rewrite IH. ring. Qed.
Lemma total_const {X} c (l : list X) : total (map (fun _ => c) l) = INR (length l) * c.
Proof. induction l as [|x l IH]; [cbn; ring|]. cbn [map total fold_right length]. unfold total in IH. rewrite IH, S_INR. ring. Qed.
Lemma total_ext {X} (f g : X -> R) l : (forall x, In x l -> f x = g x) -> total (map f l) = total (map g l).
Proof. intros H. f_equal. now apply map_ext_in. Qed.
Lemma total_nonneg {X} (f : X -> R) l : (forall x, In x l -> 0 <= f x) -> 0 <= total (map f l).
Proof. induction l as [|x l IH]; intros H; cbn; [lra|]. assert (A := H x (or_introl eq_refl)). assert (B := IH (fun y Hy => H y (or_intror Hy))). unfold total in B. lra. Qed.
Lemma total_nonneg_zero {X} (f : X -> R) l : (forall x, In x l -> 0 <= f x) -> total (map f l) = 0 -> forall x, In x l -> f x = 0.
Proof.
  induction l as [|x l IH]; intros H E y Hy; [destruct Hy|]. cbn in E. assert (A := H x (or_introl eq_refl)). assert (B := total_nonneg f l (fun y Hy => H y (or_intror Hy))). unfold total in B.
  destruct Hy as [<-|Hy]; [lra|]. apply IH; [intros; apply H; now right|unfold total; lra|exact Hy].
Qed.
Lemma total_filter {X} (f : X -> R) p l : (forall x, In x l -> p x = false -> f x = 0) -> total (map f (filter p l)) = total (map f l).
Proof. induction l as [|x l IH]; intros H; [reflexivity|]. cbn [filter map]. assert (G := IH (fun y Hy => H y (or_intror Hy))). destruct (p x) eqn:E; cbn; unfold total in *; rewrite G; [reflexivity|]. rewrite (H x (or_introl eq_refl) E). ring. Qed.
Section Norm.
Context {X : Type} (f : X -> R) (l : list X).
Hypothesis L : l <> [].
Let m := mean (map f l).
Let s := if Req_EM_T (std (map f l)) 0 then 1 else std (map f l).
Lemma len_pos : 0 < INR (length l).
Proof. apply lt_0_INR. destruct l; [now destruct L|cbn; lia]. Qed.
Lemma dev_zero : total (map (fun x => f x - m) l) = 0.
Proof.
  rewrite (total_ext _ (fun x => f x + - m)) by (intros; ring). rewrite total_map_plus, total_const. unfold m, mean. rewrite map_length. field. assert (H := len_pos). lra.
Qed.
Lemma scaled_zero : total (map (fun x => (f x - m) / s) l) = 0.
Proof. rewrite (total_ext _ (fun x => / s * (f x - m))) by (intros; unfold Rdiv; ring). rewrite total_map_scale, dev_zero. ring. Qed.
Lemma variance_eq : std (map f l) ^ 2 = total (map (fun x => (f x - m) ^ 2) l) / INR (length l).
Proof.
  unfold std. rewrite map_map. unfold mean at 1. rewrite map_length. fold m. rewrite <- Rsqr_pow2. apply Rsqr_sqrt. unfold Rdiv. apply Rmult_le_pos; [apply total_nonneg; intros; apply pow2_ge_0|left; apply Rinv_0_lt_compat, len_pos].
Qed.
Lemma scaled_square : std (map f l) <> 0 -> total (map (fun x => ((f x - m) / s) ^ 2) l) = INR (length l).
Proof.
  intros H. unfold s. destruct (Req_EM_T _ 0) as [E|E]; [contradiction|]. rewrite (total_ext _ (fun x => / (std (map f l) ^ 2) * (f x - m) ^ 2)) by (intros; field; exact E). rewrite total_map_scale.
  assert (V := variance_eq). assert (P := len_pos). assert (T : total (map (fun x => (f x - m) ^ 2) l) = std (map f l) ^ 2 * INR (length l)) by (rewrite V; field; lra). rewrite T. field. exact E.
Qed.
Lemma constant_zero : std (map f l) = 0 -> forall x, In x l -> f x = m.
Proof.
  intros H x Hx. assert (V := variance_eq). rewrite H in V. assert (P := len_pos). assert (T : total (map (fun x => (f x - m) ^ 2) l) = 0) by (apply Rmult_eq_reg_r with (/ INR (length l)); [|apply Rinv_neq_0_compat; lra]; unfold Rdiv in V; rewrite <- V; ring).
  assert (G := total_nonneg_zero _ l (fun x _ => pow2_ge_0 (f x - m)) T x Hx). cbn beta in G. destruct (Req_dec (f x - m) 0) as [E|E]; [lra|]. exfalso. apply (pow_nonzero _ 2 E). exact G.
Qed.
End Norm.
