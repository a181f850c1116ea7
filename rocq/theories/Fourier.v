(* Complex numbers as pairs of real numbers, finite sums, and the discrete Fourier transform.  The real numbers are those
   of the standard library. *)
From Coq Require Import Reals Lra Lia Arith ZArith List.
Local Open Scope R_scope.

Definition C : Type := (R * R)%type.
Definition c0 : C := (0, 0).
Definition c1 : C := (1, 0).
Definition cadd (a b : C) : C := (fst a + fst b, snd a + snd b).
Definition copp (a : C) : C := (- fst a, - snd a).
Definition csub (a b : C) : C := cadd a (copp b).
Definition cmul (a b : C) : C := (fst a * fst b - snd a * snd b, fst a * snd b + snd a * fst b).
Definition cconj (a : C) : C := (fst a, - snd a).
Definition creal (x : R) : C := (x, 0).
(* exp(i x) *)
Definition cis (x : R) : C := (cos x, sin x).
(* square of the modulus *)
Definition abs2 (a : C) : R := fst a * fst a + snd a * snd a.

Lemma c_ext (a b : C) : fst a = fst b -> snd a = snd b -> a = b. Proof. destruct a, b; cbn; congruence. Qed.
Ltac cring := intros; apply c_ext; cbn; ring.
Lemma c_ring : ring_theory c0 c1 cadd cmul csub copp eq.
Proof. split; try reflexivity; cring. Qed.
Add Ring c_ring : c_ring.

Fixpoint csum (n : nat) (f : nat -> C) : C := match n with O => c0 | S k => cadd (csum k f) (f k) end.
Fixpoint rsum (n : nat) (f : nat -> R) : R := match n with O => 0 | S k => rsum k f + f k end.

Lemma csum_ext n f g : (forall i, (i < n)%nat -> f i = g i) -> csum n f = csum n g.
Proof. induction n as [|n IH]; intros H; cbn; [reflexivity|]. rewrite IH by (intros; apply H; lia). now rewrite H by lia. Qed.
Lemma csum_0 n : csum n (fun _ => c0) = c0.
Proof. induction n as [|n IH]; cbn; [reflexivity|]. rewrite IH. ring. Qed.
Lemma csum_add n f g : csum n (fun i => cadd (f i) (g i)) = cadd (csum n f) (csum n g).
Proof. induction n as [|n IH]; cbn; [ring|]. rewrite IH. ring. Qed.
Lemma csum_mul_l n c f : csum n (fun i => cmul c (f i)) = cmul c (csum n f).
Proof. induction n as [|n IH]; cbn; [ring|]. rewrite IH. ring. Qed.
Lemma csum_mul_r n c f : csum n (fun i => cmul (f i) c) = cmul (csum n f) c.
Proof. induction n as [|n IH]; cbn; [ring|]. rewrite IH. ring. Qed.
Lemma csum_swap n m f : csum n (fun i => csum m (f i)) = csum m (fun j => csum n (fun i => f i j)).
Proof. induction n as [|n IH]; cbn; [now rewrite csum_0|]. now rewrite IH, csum_add. Qed.
Lemma cconj_sum n f : cconj (csum n f) = csum n (fun i => cconj (f i)).
Proof. induction n as [|n IH]; cbn; [cring|]. rewrite <- IH. cring. Qed.
Lemma csum_single n f k : (k < n)%nat -> (forall i, (i < n)%nat -> i <> k -> f i = c0) -> csum n f = f k.
Proof.
  induction n as [|n IH]; intros Hk H; [lia|]. cbn. destruct (Nat.eq_dec k n) as [->|N].
  - rewrite (csum_ext n f (fun _ => c0)) by (intros; apply H; lia). rewrite csum_0. ring.
  - rewrite IH by (try lia; intros; apply H; lia). rewrite (H n) by lia. ring.
Qed.

Lemma rsum_ext n f g : (forall i, (i < n)%nat -> f i = g i) -> rsum n f = rsum n g.
Proof. induction n as [|n IH]; intros H; cbn; [reflexivity|]. rewrite IH by (intros; apply H; lia). now rewrite H by lia. Qed.
Lemma rsum_0 n : rsum n (fun _ => 0) = 0.
Proof. induction n as [|n IH]; cbn; [reflexivity|]. rewrite IH. ring. Qed.
Lemma rsum_add n f g : rsum n (fun i => f i + g i) = rsum n f + rsum n g.
Proof. induction n as [|n IH]; cbn; [ring|]. rewrite IH. ring. Qed.
Lemma rsum_mul_l n c f : rsum n (fun i => c * f i) = c * rsum n f.
Proof. induction n as [|n IH]; cbn; [ring|]. rewrite IH. ring. Qed.
Lemma rsum_mul_r n c f : rsum n (fun i => f i * c) = rsum n f * c.
Proof. induction n as [|n IH]; cbn; [ring|]. rewrite IH. ring. Qed.
Lemma rsum_swap n m f : rsum n (fun i => rsum m (f i)) = rsum m (fun j => rsum n (fun i => f i j)).
Proof. induction n as [|n IH]; cbn; [now rewrite rsum_0|]. now rewrite IH, rsum_add. Qed.
Lemma rsum_le n f g : (forall i, (i < n)%nat -> f i <= g i) -> rsum n f <= rsum n g.
Proof. induction n as [|n IH]; intros H; cbn; [lra|]. apply Rplus_le_compat; [apply IH; intros; apply H; lia|apply H; lia]. Qed.
Lemma rsum_nonneg n f : (forall i, (i < n)%nat -> 0 <= f i) -> 0 <= rsum n f.
Proof. intros H. rewrite <- (rsum_0 n). now apply rsum_le. Qed.
Lemma rsum_zero n f : (forall i, (i < n)%nat -> 0 <= f i) -> rsum n f = 0 -> forall i, (i < n)%nat -> f i = 0.
Proof.
  induction n as [|n IH]; intros H E i Hi; [lia|]. cbn in E. pose proof (rsum_nonneg n f ltac:(intros; apply H; lia)). pose proof (H n ltac:(lia)).
  destruct (Nat.eq_dec i n) as [->|N]; [lra|]. apply IH; [intros; apply H; lia|lra|lia].
Qed.
Lemma rsum_const n c : rsum n (fun _ => c) = INR n * c.
Proof. induction n as [|n IH]; cbn [rsum]; [cbn; ring|]. rewrite IH, S_INR. ring. Qed.
Lemma rsum_app n m f : rsum (n + m) f = rsum n f + rsum m (fun i => f (n + i)%nat).
Proof. induction m as [|m IH]; [rewrite Nat.add_0_r; cbn; ring|]. rewrite Nat.add_succ_r. cbn. rewrite IH. ring. Qed.
Lemma csum_app n m f : csum (n + m) f = cadd (csum n f) (csum m (fun i => f (n + i)%nat)).
Proof. induction m as [|m IH]; [rewrite Nat.add_0_r; cbn; ring|]. rewrite Nat.add_succ_r. cbn. rewrite IH. ring. Qed.
Lemma fst_csum n f : fst (csum n f) = rsum n (fun i => fst (f i)).
Proof. induction n as [|n IH]; cbn; [reflexivity|]. now rewrite IH. Qed.
Lemma snd_csum n f : snd (csum n f) = rsum n (fun i => snd (f i)).
Proof. induction n as [|n IH]; cbn; [reflexivity|]. now rewrite IH. Qed.

Lemma abs2_nonneg a : 0 <= abs2 a. Proof. unfold abs2. nra. Qed.
Lemma abs2_mul a b : abs2 (cmul a b) = abs2 a * abs2 b. Proof. unfold abs2, cmul. cbn. ring. Qed.
Lemma abs2_cis x : abs2 (cis x) = 1. Proof. unfold abs2, cis. cbn. pose proof (sin2_cos2 x) as H. unfold Rsqr in H. lra. Qed.
Lemma abs2_conj a : abs2 (cconj a) = abs2 a. Proof. unfold abs2, cconj. cbn. ring. Qed.
Lemma abs2_real x : abs2 (creal x) = x * x. Proof. unfold abs2, creal. cbn. ring. Qed.
Lemma mul_conj a : cmul a (cconj a) = creal (abs2 a). Proof. unfold abs2. cring. Qed.
Lemma cis_add x y : cis (x + y) = cmul (cis x) (cis y).
Proof. unfold cis, cmul. cbn. rewrite cos_plus, sin_plus. f_equal; ring. Qed.
Lemma cis_0 : cis 0 = c1. Proof. unfold cis. now rewrite cos_0, sin_0. Qed.
Lemma cis_opp x : cis (- x) = cconj (cis x). Proof. unfold cis, cconj. cbn. now rewrite cos_neg, sin_neg. Qed.
Lemma cis_2PI_nat k : cis (2 * PI * INR k) = c1.
Proof. unfold cis, c1. replace (2 * PI * INR k) with (0 + 2 * INR k * PI) by ring. now rewrite cos_period, sin_period, cos_0, sin_0. Qed.
Lemma cis_2PI_Z z : cis (2 * PI * IZR z) = c1.
Proof.
  destruct z as [|p|p].
  - replace (2 * PI * 0) with 0 by ring. apply cis_0.
  - replace (IZR (Z.pos p)) with (INR (Pos.to_nat p)) by (rewrite INR_IZR_INZ; f_equal; apply positive_nat_Z). apply cis_2PI_nat.
  - replace (2 * PI * IZR (Z.neg p)) with (- (2 * PI * IZR (Z.pos p))) by (change (Z.neg p) with (- Z.pos p)%Z; rewrite opp_IZR; ring).
    replace (IZR (Z.pos p)) with (INR (Pos.to_nat p)) by (rewrite INR_IZR_INZ; f_equal; apply positive_nat_Z). rewrite cis_opp, cis_2PI_nat. unfold cconj, c1. cbn. f_equal. ring.
Qed.
Lemma cis_one x : cis x = c1 -> exists z, x = 2 * PI * IZR z.
Proof.
  unfold cis, c1. intros [= Hc _]. assert (S : sin (x / 2) = 0).
  { assert (D : cos x = 1 - 2 * sin (x / 2) * sin (x / 2)) by (rewrite <- cos_2a_sin; f_equal; field). nra. }
  apply sin_eq_0_0 in S as [z Hz]. exists z. lra.
Qed.

(* sums of roots of unity *)
Definition root (n : nat) (z : Z) : C := cis (2 * PI * IZR z / INR n).
Lemma root_add n a b : (0 < n)%nat -> root n (a + b) = cmul (root n a) (root n b).
Proof. intros H. unfold root. rewrite <- cis_add. f_equal. rewrite plus_IZR. field. apply not_0_INR. lia. Qed.
Lemma root_0 n : (0 < n)%nat -> root n 0 = c1.
Proof. intros H. unfold root. replace (2 * PI * 0 / INR n) with 0 by (field; apply not_0_INR; lia). apply cis_0. Qed.
Lemma root_mult n q : (0 < n)%nat -> root n (Z.of_nat n * q) = c1.
Proof. intros H. unfold root. rewrite mult_IZR, <- INR_IZR_INZ. replace (2 * PI * (INR n * IZR q) / INR n) with (2 * PI * IZR q) by (field; apply not_0_INR; lia). apply cis_2PI_Z. Qed.
Lemma root_mod n a q : (0 < n)%nat -> root n (a + Z.of_nat n * q) = root n a.
Proof. intros H. rewrite root_add, root_mult by auto. ring. Qed.
Lemma root_conj n a : cconj (root n a) = root n (- a).
Proof. unfold root. rewrite <- cis_opp. f_equal. rewrite opp_IZR. unfold Rdiv. ring. Qed.
Lemma abs2_root n a : abs2 (root n a) = 1. Proof. apply abs2_cis. Qed.

Lemma root_pow_sum n z : (0 < n)%nat -> forall m, cmul (csub c1 (root n z)) (csum m (fun k => root n (Z.of_nat k * z))) = csub c1 (root n (Z.of_nat m * z)).
Proof.
  intros H m. induction m as [|m IH].
  - cbn [csum]. replace (Z.of_nat 0 * z)%Z with 0%Z by lia. rewrite root_0 by auto. ring.
  - cbn [csum]. replace (Z.of_nat (S m) * z)%Z with (Z.of_nat m * z + z)%Z by lia. rewrite root_add by auto.
    transitivity (cadd (cmul (csub c1 (root n z)) (csum m (fun k => root n (Z.of_nat k * z)))) (cmul (csub c1 (root n z)) (root n (Z.of_nat m * z)))); [ring|]. rewrite IH. ring.
Qed.
Lemma c_integral a b : cmul a b = c0 -> a = c0 \/ b = c0.
Proof.
  intros H. assert (E : abs2 a * abs2 b = 0) by (rewrite <- abs2_mul, H; unfold abs2; cbn; ring).
  assert (Z : forall c, abs2 c = 0 -> c = c0). { intros [x y] Hc. unfold abs2 in Hc. cbn in Hc. assert (x = 0) by nra. assert (y = 0) by nra. now subst. }
  apply Rmult_integral in E as [E|E]; [left|right]; now apply Z.
Qed.
Lemma root_not_one n z : (0 < n)%nat -> ~ Z.divide (Z.of_nat n) z -> csub c1 (root n z) <> c0.
Proof.
  intros H N E. assert (Ho : root n z = c1) by (transitivity (csub c1 (csub c1 (root n z))); [ring|rewrite E; ring]).
  apply cis_one in Ho as [q Hq]. apply N. exists q. apply eq_IZR. rewrite mult_IZR, <- INR_IZR_INZ. assert (Hn : INR n <> 0) by (apply not_0_INR; lia). pose proof PI_RGT_0.
  assert (E2 : 2 * PI * IZR z = 2 * PI * (IZR q * INR n)) by (transitivity (2 * PI * IZR z / INR n * INR n); [field; auto|rewrite Hq; ring]). apply Rmult_eq_reg_l in E2; lra.
Qed.
Lemma root_sum n z : (0 < n)%nat -> ~ Z.divide (Z.of_nat n) z -> csum n (fun k => root n (Z.of_nat k * z)) = c0.
Proof.
  intros H N. pose proof (root_pow_sum n z H n) as G. rewrite root_mult in G by auto. replace (csub c1 c1) with c0 in G by cring.
  apply c_integral in G as [G|G]; [|exact G]. now apply root_not_one in G.
Qed.
Lemma root_sum_all n z : (0 < n)%nat -> Z.divide (Z.of_nat n) z -> csum n (fun k => root n (Z.of_nat k * z)) = creal (INR n).
Proof.
  intros H [q ->]. rewrite (csum_ext n _ (fun _ => c1)) by (intros i _; replace (Z.of_nat i * (q * Z.of_nat n))%Z with (Z.of_nat n * (Z.of_nat i * q))%Z by ring; now apply root_mult).
  clear H. induction n as [|n IH]; [reflexivity|]. cbn [csum]. rewrite IH, S_INR. cring.
Qed.

(* ------------------------------------------------------------ discrete Fourier transform *)
Definition dft (n : nat) (u : nat -> C) (k : nat) : C := csum n (fun i => cmul (u i) (root n (- (Z.of_nat i * Z.of_nat k)))).
Definition idft (n : nat) (u : nat -> C) (i : nat) : C := cmul (creal (/ INR n)) (csum n (fun k => cmul (u k) (root n (Z.of_nat i * Z.of_nat k)))).
Definition rsum2 (n m : nat) (f : nat -> nat -> R) : R := rsum n (fun i => rsum m (f i)).
Definition csum2 (n m : nat) (f : nat -> nat -> C) : C := csum n (fun i => csum m (f i)).
Definition dft2 (n m : nat) (u : nat -> nat -> C) (k l : nat) : C :=
  csum2 n m (fun i j => cmul (u i j) (cmul (root n (- (Z.of_nat i * Z.of_nat k))) (root m (- (Z.of_nat j * Z.of_nat l))))).
Definition idft2 (n m : nat) (u : nat -> nat -> C) (i j : nat) : C :=
  cmul (creal (/ (INR n * INR m))) (csum2 n m (fun k l => cmul (u k l) (cmul (root n (Z.of_nat i * Z.of_nat k)) (root m (Z.of_nat j * Z.of_nat l))))).

Lemma dft2_iter n m u k l : dft2 n m u k l = dft n (fun i => dft m (u i) l) k.
Proof. unfold dft2, dft, csum2. apply csum_ext. intros i _. rewrite <- csum_mul_r. apply csum_ext. intros j _. ring. Qed.
Lemma idft2_iter n m u i j : (0 < n)%nat -> (0 < m)%nat -> idft2 n m u i j = idft n (fun k => idft m (u k) j) i.
Proof.
  intros Hn Hm. unfold idft2, idft, csum2. assert (E : creal (/ (INR n * INR m)) = cmul (creal (/ INR n)) (creal (/ INR m))).
  { apply c_ext; cbn; field; split; apply not_0_INR; lia. }
  rewrite E. transitivity (cmul (creal (/ INR n)) (cmul (creal (/ INR m)) (csum n (fun k => csum m (fun l => cmul (u k l) (cmul (root n (Z.of_nat i * Z.of_nat k)) (root m (Z.of_nat j * Z.of_nat l)))))))); [ring|].
  f_equal. rewrite <- csum_mul_l. apply csum_ext. intros k _.
  transitivity (cmul (creal (/ INR m)) (csum m (fun l => cmul (cmul (u k l) (root m (Z.of_nat j * Z.of_nat l))) (root n (Z.of_nat i * Z.of_nat k))))).
  { f_equal. apply csum_ext. intros l _. ring. }
  rewrite csum_mul_r. ring.
Qed.

Lemma not_divide_diff n i j : (i < n)%nat -> (j < n)%nat -> i <> j -> ~ Z.divide (Z.of_nat n) (Z.of_nat j - Z.of_nat i).
Proof. intros Hi Hj N [q Hq]. assert (q = 0 \/ 1 <= q \/ q <= -1)%Z by lia. nia. Qed.

Lemma idft_dft n u i : (0 < n)%nat -> (i < n)%nat -> idft n (dft n u) i = u i.
Proof.
  intros Hn Hi. unfold idft, dft.
  transitivity (cmul (creal (/ INR n)) (csum n (fun k => csum n (fun j => cmul (u j) (root n (Z.of_nat k * (Z.of_nat i - Z.of_nat j))))))).
  { f_equal. apply csum_ext. intros k _. rewrite <- csum_mul_r. apply csum_ext. intros j _.
    replace (Z.of_nat k * (Z.of_nat i - Z.of_nat j))%Z with (- (Z.of_nat j * Z.of_nat k) + Z.of_nat i * Z.of_nat k)%Z by ring. rewrite root_add by auto. ring. }
  rewrite csum_swap. rewrite (csum_single n _ i Hi).
  - rewrite csum_mul_l, root_sum_all by (auto; exists 0%Z; lia). transitivity (cmul (cmul (creal (/ INR n)) (creal (INR n))) (u i)); [ring|].
    replace (cmul (creal (/ INR n)) (creal (INR n))) with c1; [ring|]. apply c_ext; cbn; field; apply not_0_INR; lia.
  - intros j Hj N. rewrite csum_mul_l, root_sum by (auto; now apply not_divide_diff). ring.
Qed.
Lemma dft_ext n u v k : (forall i, (i < n)%nat -> u i = v i) -> dft n u k = dft n v k.
Proof. intros H. unfold dft. apply csum_ext. intros i Hi. now rewrite H. Qed.
Lemma idft_ext n u v k : (forall i, (i < n)%nat -> u i = v i) -> idft n u k = idft n v k.
Proof. intros H. unfold idft. f_equal. apply csum_ext. intros i Hi. now rewrite H. Qed.
Lemma dft2_ext n m u v k l : (forall i j, (i < n)%nat -> (j < m)%nat -> u i j = v i j) -> dft2 n m u k l = dft2 n m v k l.
Proof. intros H. unfold dft2, csum2. apply csum_ext. intros i Hi. apply csum_ext. intros j Hj. now rewrite H. Qed.
Lemma idft2_dft2 n m u i j : (i < n)%nat -> (j < m)%nat -> idft2 n m (dft2 n m u) i j = u i j.
Proof.
  intros Hi Hj. rewrite idft2_iter by lia.
  rewrite (idft_ext n _ (fun k => dft n (fun i => u i j) k)).
  - now apply (idft_dft n (fun i => u i j)); lia.
  - intros k Hk. rewrite (idft_ext m _ (fun l => dft m (fun j' => dft n (fun i' => u i' j') k) l)).
    + apply (idft_dft m (fun j' => dft n (fun i' => u i' j') k)); lia.
    + intros l Hl. rewrite dft2_iter. unfold dft.
      transitivity (csum n (fun i0 => csum m (fun j0 => cmul (cmul (u i0 j0) (root m (- (Z.of_nat j0 * Z.of_nat l)))) (root n (- (Z.of_nat i0 * Z.of_nat k)))))).
      { apply csum_ext. intros. now rewrite csum_mul_r. }
      rewrite csum_swap. apply csum_ext. intros j0 _. rewrite <- csum_mul_r. apply csum_ext. intros. ring.
Qed.

(* Parseval *)
Lemma creal_rsum n f : creal (rsum n f) = csum n (fun i => creal (f i)).
Proof. induction n as [|n IH]; cbn; [reflexivity|]. rewrite <- IH. cring. Qed.
Lemma creal_inj x y : creal x = creal y -> x = y. Proof. now intros [= ->]. Qed.
Lemma parseval n u : (0 < n)%nat -> rsum n (fun k => abs2 (dft n u k)) = INR n * rsum n (fun i => abs2 (u i)).
Proof.
  intros Hn. apply creal_inj. rewrite creal_rsum.
  transitivity (csum n (fun k => csum n (fun i => csum n (fun j => cmul (cmul (u i) (cconj (u j))) (root n (Z.of_nat k * (Z.of_nat j - Z.of_nat i))))))).
  { apply csum_ext. intros k _. rewrite <- mul_conj. unfold dft. rewrite cconj_sum, <- csum_mul_r. apply csum_ext. intros i _. rewrite <- csum_mul_l. apply csum_ext. intros j _.
    replace (cconj (cmul (u j) (root n (- (Z.of_nat j * Z.of_nat k))))) with (cmul (cconj (u j)) (cconj (root n (- (Z.of_nat j * Z.of_nat k))))) by cring. rewrite root_conj.
    replace (Z.of_nat k * (Z.of_nat j - Z.of_nat i))%Z with (- (Z.of_nat i * Z.of_nat k) + - - (Z.of_nat j * Z.of_nat k))%Z by ring. rewrite root_add by auto. ring. }
  rewrite csum_swap. transitivity (csum n (fun i => cmul (creal (INR n)) (creal (abs2 (u i))))).
  - apply csum_ext. intros i Hi. rewrite csum_swap, (csum_single n _ i Hi).
    + rewrite csum_mul_l, root_sum_all by (auto; exists 0%Z; lia). rewrite <- mul_conj. ring.
    + intros j Hj N. rewrite csum_mul_l, root_sum by (auto; apply not_divide_diff; auto). ring.
  - rewrite csum_mul_l, <- creal_rsum. cring.
Qed.
Lemma parseval2 n m u : (0 < n)%nat -> (0 < m)%nat -> rsum2 n m (fun k l => abs2 (dft2 n m u k l)) = INR n * INR m * rsum2 n m (fun i j => abs2 (u i j)).
Proof.
  intros Hn Hm. unfold rsum2. rewrite rsum_swap. transitivity (rsum m (fun l => INR n * rsum n (fun i => abs2 (dft m (u i) l)))).
  { apply rsum_ext. intros l _. rewrite <- parseval by auto. apply rsum_ext. intros k _. now rewrite dft2_iter. }
  rewrite rsum_mul_l, rsum_swap. rewrite Rmult_assoc. f_equal. rewrite <- rsum_mul_l. apply rsum_ext. intros i _. now apply parseval.
Qed.
Lemma dft_idft n u k : (0 < n)%nat -> (k < n)%nat -> dft n (idft n u) k = u k.
Proof.
  intros Hn Hk. unfold idft, dft.
  transitivity (cmul (creal (/ INR n)) (csum n (fun i => csum n (fun l => cmul (u l) (root n (Z.of_nat i * (Z.of_nat l - Z.of_nat k))))))).
  { rewrite <- csum_mul_l. apply csum_ext. intros i _.
    transitivity (cmul (creal (/ INR n)) (cmul (csum n (fun k0 => cmul (u k0) (root n (Z.of_nat i * Z.of_nat k0)))) (root n (- (Z.of_nat i * Z.of_nat k))))); [ring|]. f_equal.
    rewrite <- csum_mul_r. apply csum_ext. intros l _.
    replace (Z.of_nat i * (Z.of_nat l - Z.of_nat k))%Z with (Z.of_nat i * Z.of_nat l + - (Z.of_nat i * Z.of_nat k))%Z by ring. rewrite root_add by auto. ring. }
  rewrite csum_swap. rewrite (csum_single n _ k Hk).
  - rewrite csum_mul_l, root_sum_all by (auto; exists 0%Z; lia). transitivity (cmul (cmul (creal (/ INR n)) (creal (INR n))) (u k)); [ring|].
    replace (cmul (creal (/ INR n)) (creal (INR n))) with c1; [ring|]. apply c_ext; cbn; field; apply not_0_INR; lia.
  - intros j Hj N. rewrite csum_mul_l, root_sum by (auto; now apply not_divide_diff; auto). ring.
Qed.
Lemma dft2_idft2 n m u k l : (k < n)%nat -> (l < m)%nat -> dft2 n m (idft2 n m u) k l = u k l.
Proof.
  intros Hk Hl. rewrite dft2_iter. rewrite (dft_ext n _ (fun i => idft n (fun k => u k l) i)).
  - apply (dft_idft n (fun k => u k l)); lia.
  - intros i Hi. rewrite (dft_ext m _ (fun j => idft m (fun l' => idft n (fun k' => u k' l') i) j)).
    + apply (dft_idft m (fun l' => idft n (fun k' => u k' l') i)); lia.
    + intros j Hj. rewrite idft2_iter by lia. unfold idft.
      transitivity (cmul (creal (/ INR n)) (cmul (creal (/ INR m)) (csum n (fun k0 => csum m (fun l0 => cmul (cmul (u k0 l0) (root m (Z.of_nat j * Z.of_nat l0))) (root n (Z.of_nat i * Z.of_nat k0))))))).
      { f_equal. rewrite <- csum_mul_l. apply csum_ext. intros k0 _. rewrite csum_mul_r. ring. }
      rewrite csum_swap. transitivity (cmul (creal (/ INR m)) (cmul (creal (/ INR n)) (csum m (fun l0 => csum n (fun k0 => cmul (cmul (u k0 l0) (root m (Z.of_nat j * Z.of_nat l0))) (root n (Z.of_nat i * Z.of_nat k0))))))); [ring|].
      f_equal. rewrite <- csum_mul_l. apply csum_ext. intros l0 _.
      transitivity (cmul (creal (/ INR n)) (cmul (csum n (fun k0 => cmul (u k0 l0) (root n (Z.of_nat i * Z.of_nat k0)))) (root m (Z.of_nat j * Z.of_nat l0)))); [|ring].
      f_equal. rewrite <- csum_mul_r. apply csum_ext. intros. ring.
Qed.

(* energy is preserved by the transform, up to the number of points, and by its inverse *)
Lemma iparseval2 n m u : (0 < n)%nat -> (0 < m)%nat -> INR n * INR m * rsum2 n m (fun i j => abs2 (idft2 n m u i j)) = rsum2 n m (fun k l => abs2 (u k l)).
Proof.
  intros Hn Hm. rewrite <- parseval2 by auto. unfold rsum2. apply rsum_ext. intros k Hk. apply rsum_ext. intros l Hl. now rewrite dft2_idft2.
Qed.

(* sums over a period *)
Lemma rsum_rot n s f : (s <= n)%nat -> rsum n (fun i => f ((i + s) mod n)%nat) = rsum n f.
Proof.
  intros H. destruct (Nat.eq_dec n 0) as [->|Hn]; [reflexivity|].
  set (g := fun i => f ((i + s) mod n)%nat). assert (E1 : rsum n g = rsum ((n - s) + s) g) by (f_equal; lia). assert (E2 : rsum n f = rsum (s + (n - s)) f) by (f_equal; lia).
  rewrite E1, E2, !rsum_app, Rplus_comm. unfold g. f_equal.
  - apply rsum_ext. intros i Hi. f_equal. replace (n - s + i + s)%nat with (i + 1 * n)%nat by lia. rewrite Nat.mod_add by lia. apply Nat.mod_small. lia.
  - apply rsum_ext. intros i Hi. f_equal. rewrite Nat.mod_small by lia. lia.
Qed.
Lemma csum_rot n s f : (s <= n)%nat -> csum n (fun i => f ((i + s) mod n)%nat) = csum n f.
Proof. intros H. apply c_ext; [rewrite !fst_csum; exact (rsum_rot n s (fun i => fst (f i)) H)|rewrite !snd_csum; exact (rsum_rot n s (fun i => snd (f i)) H)]. Qed.
Lemma rsum2_rot n m s t f : (s <= n)%nat -> (t <= m)%nat -> rsum2 n m (fun i j => f ((i + s) mod n)%nat ((j + t) mod m)%nat) = rsum2 n m f.
Proof.
  intros Hs Ht. unfold rsum2. transitivity (rsum n (fun i => rsum m (f ((i + s) mod n)%nat))).
  - apply rsum_ext. intros i _. now apply (rsum_rot m t (f ((i + s) mod n)%nat)).
  - apply (rsum_rot n s (fun i => rsum m (f i)) Hs).
Qed.
