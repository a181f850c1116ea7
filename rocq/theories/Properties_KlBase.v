(* C123: modal bases from influence functions. *)
From Coq Require Import List ZArith Bool Arith Lia QArith Qcanon.
From Verif Require Import PyBase PyLemmas Arith OpticalModel SlopecSpec SlopecProofs FilterSpec ExtModel MmseModel MmseProofs QcTac KlBaseModel.
Import ListNotations.
Local Open Scope Qc_scope.

(* the columns of u are orthonormal eigenvectors of the matrix, with eigenvalues s *)
Definition eigen (n : nat) (a u : matrix) (s : nat -> Qc) : Prop :=
  (forall i j, (i < n)%nat -> (j < n)%nat -> qsum n (fun k => u k i * u k j) = eye i j) /\
  (forall i j, (i < n)%nat -> (j < n)%nat -> qsum n (fun k => a i k * u k j) = s j * u i j).

Lemma qs_scale_r : forall n f c, qsum n (fun i => f i * c) = qsum n f * c.
Proof. intros n f c. rewrite (qs_ext n _ (fun i => c * f i)) by (intros; ring). rewrite qs_scale. ring. Qed.
Lemma bilinear : forall n (a u : matrix) s i j, eigen n a u s -> (i < n)%nat -> (j < n)%nat ->
  qsum n (fun k => u k i * qsum n (fun l => a k l * u l j)) = s j * eye i j.
Proof.
  intros n a u s i j [O E] Hi Hj. rewrite (qs_ext n _ (fun k => s j * (u k i * u k j))) by (intros k Hk; rewrite E by assumption; ring). rewrite qs_scale, O by assumption. reflexivity.
Qed.

Lemma qmul_nn : forall a b : Qc, 0 <= a -> 0 <= b -> 0 <= a * b.
Proof. intros a b Ha Hb. rewrite <- (Qcmult_0_l b). now apply Qcmult_le_compat_r. Qed.
Lemma pos_neq : forall x : Qc, 0 < x -> x <> 0.
Proof. intros x H ->. revert H. apply Qcle_not_lt, Qcle_refl. Qed.
Lemma inv_nn : forall x : Qc, 0 < x -> 0 <= / x.
Proof.
  intros x H. apply Qcnot_lt_le. intros L. assert (E : / x * x = 1) by (field; now apply pos_neq).
  assert (B : / x * x < 0 * x) by (now apply Qcmult_lt_compat_r). rewrite E in B. discriminate.
Qed.
(* the bilinear form of a matrix *)
Definition form (n : nat) (x : matrix) (f g : nat -> Qc) : Qc := qsum n (fun a => qsum n (fun b => f a * x a b * g b)).
Lemma form_left : forall n x m (f : nat -> nat -> Qc) c g, form n x (fun a => qsum m (fun k => f a k * c k)) g = qsum m (fun k => c k * form n x (fun a => f a k) g).
Proof.
  intros n x m f c g. unfold form. rewrite (qs_ext m _ (fun k => qsum n (fun a => qsum n (fun b => c k * (f a k * x a b * g b))))) by (intros k _; rewrite <- qs_scale; apply qs_ext; intros a _; now rewrite <- qs_scale).
  rewrite (qs_swap m n). apply qs_ext. intros a _. rewrite (qs_swap m n). apply qs_ext. intros b _.
  rewrite (qs_ext m (fun k => c k * (f a k * x a b * g b)) (fun k => f a k * c k * (x a b * g b))) by (intros; ring). rewrite qs_scale_r. ring.
Qed.
Lemma form_right : forall n x m (g : nat -> nat -> Qc) c f, form n x f (fun b => qsum m (fun k => g b k * c k)) = qsum m (fun k => c k * form n x f (fun b => g b k)).
Proof.
  intros n x m g c f. unfold form. rewrite (qs_ext m _ (fun k => qsum n (fun a => qsum n (fun b => c k * (f a * x a b * g b k))))) by (intros k _; rewrite <- qs_scale; apply qs_ext; intros a _; now rewrite <- qs_scale).
  rewrite (qs_swap m n). apply qs_ext. intros a _. rewrite (qs_swap m n). apply qs_ext. intros b _.
  rewrite (qs_ext m (fun k => c k * (f a * x a b * g b k)) (fun k => g b k * c k * (f a * x a b))) by (intros; ring). rewrite qs_scale_r. ring.
Qed.
Lemma form_ext : forall n x f g f' g', (forall a, (a < n)%nat -> f a = f' a) -> (forall a, (a < n)%nat -> g a = g' a) -> form n x f g = form n x f' g'.
Proof. intros n x f g f' g' H1 H2. apply qs_ext. intros a Ha. apply qs_ext. intros b Hb. now rewrite H1, H2. Qed.

Lemma first_term : forall n f, qsum (S n) f = f 0%nat + qsum n (fun j => f (S j)).
Proof. intros n f. induction n as [|n IH]; [rewrite qs_S, !qs_0; ring|]. rewrite qs_S, IH, qs_S. ring. Qed.
Section Props.
Context (root : Qc -> Qc) (pinv : nat -> nat -> matrix -> matrix) (svd : nat -> matrix -> matrix * (nat -> Qc)).
Context (zern : nat -> nat -> Qc) (orto : nat -> matrix -> matrix).
Context (nk : nat) (w : nat -> Qc) (re im : matrix -> nat -> nat -> Qc) (norm : Qc).
Notation modal_base := (modal_base root pinv svd zern orto nk w re im norm).
Notation covmat := (covmat nk w re im norm).

(* ---------------------------------------------------------------- removal of modes *)
Lemma coef_above : forall np modes ifs k m a, (k <= m)%nat -> fst (filtered np modes ifs k) m a = 0.
Proof.
  intros np modes ifs k. induction k as [|k IH]; intros m a Hm; cbn [filtered]; [reflexivity|].
  specialize (IH m a ltac:(lia)). destruct (filtered np modes ifs k) as [coef f]. destruct (qlt 0 _); cbn [fst] in *; [|exact IH]. destruct (Nat.eqb_spec m k); [lia|exact IH].
Qed.
(* the influence functions are the filtered ones plus combinations of the removed modes *)
Lemma filtered_sum : forall np modes ifs k a p,
  ifs a p = snd (filtered np modes ifs k) a p + qsum k (fun m => modes m p * fst (filtered np modes ifs k) m a).
Proof.
  intros np modes ifs k a p. induction k as [|k IH]; cbn [filtered]; [cbn [fst snd]; rewrite qs_0; ring|].
  pose proof (coef_above np modes ifs k k a (le_n _)) as Z. destruct (filtered np modes ifs k) as [coef f]. cbn [fst snd] in *. destruct (qlt 0 _) eqn:Q; cbn [fst snd].
  - rewrite qs_S, Nat.eqb_refl. rewrite (qs_ext k _ (fun m => modes m p * coef m a)).
    + rewrite IH at 1. ring.
    + intros m Hm. destruct (Nat.eqb_spec m k); [lia|reflexivity].
  - rewrite qs_S, Z, IH. ring.
Qed.
Lemma square_ge : forall x : Qc, 0 <= x * x.
Proof. intros x. unfold Qcle. rewrite this_mul. change (this 0) with 0%Q. generalize (this x). intros q. unfold Qle, Qmult. cbn. nia. Qed.
Lemma zero_norm : forall n f, ~ 0 < qsum n (fun p => f p * f p) -> forall p, (p < n)%nat -> f p = 0.
Proof.
  intros n f H p Hp. assert (L : f p * f p <= 0).
  { apply Qcle_trans with (qsum n (fun p => f p * f p)); [apply (qsum_term n (fun p => f p * f p)); [intros; apply square_ge|exact Hp]|]. now apply Qcnot_lt_le. }
  assert (E : f p * f p = 0) by (apply Qcle_antisym; [exact L|apply square_ge]). destruct (Qcmult_integral _ _ E); assumption.
Qed.
(* When the removed modes are mutually orthogonal, nothing of them is left *)
Theorem C123_removed : forall np modes ifs k, (forall m m', (m < k)%nat -> (m' < k)%nat -> m <> m' -> qsum np (fun p => modes m p * modes m' p) = 0) ->
  forall m a, (m < k)%nat -> qsum np (fun p => snd (filtered np modes ifs k) a p * modes m p) = 0.
Proof.
  intros np modes ifs k. induction k as [|k IH]; intros O m a Hm; [lia|]. cbn [filtered].
  assert (IH' : forall m, (m < k)%nat -> qsum np (fun p => snd (filtered np modes ifs k) a p * modes m p) = 0) by (intros m' L; apply IH; [intros; apply O; lia|exact L]). clear IH.
  destruct (filtered np modes ifs k) as [coef f]. cbn [snd] in *. destruct (qlt 0 (qsum np (fun p => modes k p * modes k p))) eqn:Q; cbn [snd].
  - set (nn := qsum np (fun p => modes k p * modes k p)) in *. set (c := qsum np (fun p => f a p * modes k p) / nn).
    assert (N : nn <> 0). { intros E. apply qlt_true in Q. change (0 < nn) in Q. rewrite E in Q. revert Q. apply Qcle_not_lt, Qcle_refl. }
    rewrite (qs_ext np _ (fun p => f a p * modes m p - c * (modes k p * modes m p))) by (intros; ring). rewrite qs_sub, qs_scale.
    destruct (Nat.eq_dec m k) as [->|Nm].
    + fold nn. unfold c. field. exact N.
    + rewrite (O k m) by lia. rewrite IH' by lia. ring.
  - destruct (Nat.eq_dec m k) as [->|Nm]; [|apply IH'; lia].
    apply qs_zero. intros p Hp. rewrite (zero_norm np (fun p => modes k p)); [ring| |exact Hp]. intros L. apply qlt_false in Q. revert L. apply Qcle_not_lt. exact Q.
Qed.

(* ---------------------------------------------------------------- the covariance of turbulence *)
Theorem C123_covariance : forall o ifs x, covmat o ifs = Ok x -> (2 <= o)%Z /\ (forall a b, x a b = x b a) /\
  forall n v, 0 < norm -> (forall k, 0 <= w k) -> 0 <= qsum n (fun a => qsum n (fun b => v a * x a b * v b)).
Proof.
  intros o ifs x H. unfold KlBaseModel.covmat in H. destruct (Z.ltb_spec o 2); [discriminate|]. injection H as <-. split; [assumption|]. split.
  - intros a b. f_equal. apply qs_ext. intros k _. ring.
  - intros n v HN HW.
    assert (E : qsum n (fun a => qsum n (fun b => v a * (qsum nk (fun k => w k * re ifs a k * re ifs b k + w k * im ifs a k * im ifs b k) / norm) * v b))
      = / norm * qsum nk (fun k => w k * (qsum n (fun a => v a * re ifs a k) * qsum n (fun a => v a * re ifs a k) + qsum n (fun a => v a * im ifs a k) * qsum n (fun a => v a * im ifs a k)))).
    { rewrite (qs_ext nk _ (fun k => qsum n (fun a => qsum n (fun b => v a * v b * (w k * re ifs a k * re ifs b k + w k * im ifs a k * im ifs b k))))).
      - rewrite (qs_swap nk n), <- qs_scale. apply qs_ext. intros a _. rewrite (qs_swap nk n), <- qs_scale. apply qs_ext. intros b _. rewrite qs_scale. unfold Qcdiv. ring.
      - intros k _. rewrite <- !qs_scale_r, <- qs_add, <- qs_scale. apply qs_ext. intros a _.
        rewrite <- !qs_scale, <- qs_add, <- qs_scale. apply qs_ext. intros b _. ring. }
    rewrite E. apply qmul_nn; [now apply inv_nn|]. apply qsum_ge. intros k _. apply qmul_nn; [apply HW|].
    match goal with |- 0 <= ?u * ?u + ?v * ?v => pose proof (square_ge u); pose proof (square_ge v); generalize dependent (u * u); generalize dependent (v * v) end. qclra.
Qed.

(* ---------------------------------------------------------------- condition number *)
(* the modes that are kept have a condition number within the limit *)
Theorem C123_condition : forall n nr s1 c, (nr < n)%nat -> 1 <= c -> (forall i, (i < n - nr)%nat -> 0 < s1 i) -> (forall i j, (i <= j < n - nr)%nat -> s1 j <= s1 i) ->
  (1 <= n - nr - cut n nr s1 (Some c))%nat /\ forall i, (i < n - nr - cut n nr s1 (Some c))%nat -> s1 0%nat <= c * s1 i.
Proof.
  intros n nr s1 c Hn Hc HP HD. set (N := (n - nr)%nat) in *. assert (HN : (0 < N)%nat) by (unfold N; lia).
  assert (C0 : 0 < c) by (apply Qclt_le_trans with 1; [reflexivity|exact Hc]).
  unfold cut. fold N. destruct (qlt c _) eqn:Q.
  - set (P := fun i => qlt (s1 i) (s1 0%nat / c)).
    assert (K : forall i, (i < N)%nat -> P i = true -> (N - i <= length (filter P (seq 0 N)))%nat).
    { intros i Hi Pi. rewrite <- (seq_length (N - i) i). apply NoDup_incl_length; [apply seq_NoDup|]. intros j Hj. apply in_seq in Hj. apply filter_In. split; [apply in_seq; lia|].
      unfold P in *. apply qlt_true in Pi. apply qlt_true. apply (Qcle_lt_trans _ (s1 i)); [apply HD; lia|exact Pi]. }
    assert (L0 : forall i, P i = false -> s1 0%nat <= c * s1 i).
    { intros i F. unfold P in F. apply qlt_false in F. change (s1 0%nat / c <= s1 i) in F. apply (Qcmult_le_compat_r _ _ c) in F; [|now apply Qclt_le_weak].
      replace (s1 0%nat / c * c) with (s1 0%nat) in F by (field; now apply pos_neq). rewrite Qcmult_comm. exact F. }
    assert (P0 : P 0%nat = false).
    { apply qlt_false. change (s1 0%nat / c <= s1 0%nat). apply Qcnot_lt_le. intros L. apply (Qcmult_lt_compat_r _ _ c C0) in L. replace (s1 0%nat / c * c) with (s1 0%nat) in L by (field; now apply pos_neq).
      revert L. apply Qcle_not_lt. rewrite Qcmult_comm. rewrite <- (Qcmult_1_l (s1 0%nat)) at 1. apply Qcmult_le_compat_r; [exact Hc|]. apply Qclt_le_weak, HP, HN. }
    split.
    + destruct (Nat.lt_ge_cases (length (filter P (seq 0 N))) N) as [L|L]; [lia|].
      exfalso. assert (G : forall l, (length l <= length (filter P l))%nat -> forall x, In x l -> P x = true).
      { induction l as [|y l IH]; intros Hl x Hx; [destruct Hx|]. assert (F : forall l, (length (filter P l) <= length l)%nat) by (clear; induction l as [|z l IH]; cbn; [lia|]; destruct (P z); cbn; lia).
        cbn [filter] in Hl. destruct (P y) eqn:Py; cbn in Hl; [destruct Hx as [<-|Hx]; [exact Py|apply IH; [lia|exact Hx]]|]. specialize (F l). lia. }
      rewrite (G (seq 0 N)) in P0; [discriminate|rewrite seq_length; exact L|apply in_seq; lia].
    + intros i Hi. apply L0. destruct (P i) eqn:Pi; [|reflexivity]. specialize (K i ltac:(lia) Pi). lia.
  - split; [lia|]. intros i Hi. rewrite Nat.sub_0_r in Hi. apply qlt_false in Q. change (s1 0%nat / s1 (N - 1)%nat <= c) in Q.
    assert (PL : 0 < s1 (N - 1)%nat) by (apply HP; lia). apply (Qcmult_le_compat_r _ _ (s1 (N - 1)%nat)) in Q; [|now apply Qclt_le_weak].
    replace (s1 0%nat / s1 (N - 1)%nat * s1 (N - 1)%nat) with (s1 0%nat) in Q by (field; now apply pos_neq). apply (Qcle_trans _ _ _ Q).
    rewrite (Qcmult_comm c (s1 (N - 1)%nat)), (Qcmult_comm c (s1 i)). apply Qcmult_le_compat_r; [apply HD; lia|now apply Qclt_le_weak].
Qed.

(* ---------------------------------------------------------------- the basis *)
Definition removed (n np : nat) (ifs : matrix) (nz nf : nat) : matrix :=
  let m := if (0 <? nz)%nat then normalised root np nz (orto (1 + nz + nf) (raw_modes zern nz)) else raw_modes zern nz in
  if (0 <? nz)%nat then mmul n (mmul np m (pinv n np ifs)) ifs else m.
Definition left_ifs (n np : nat) (ifs : matrix) (nz nf : nat) : matrix := snd (filtered np (removed n np ifs nz nf) ifs (1 + nz + nf)).
(* products of the influence functions without the removed modes *)
Definition geometric (np : nat) (f : matrix) : matrix := fun a b => qsum np (fun p => f a p * f b p) / qnat np.
Definition kept (n nz nf : nat) (s1 : nat -> Qc) (maxc : option Qc) : nat := (n - (1 + nz + nf + cut n (1 + nz + nf) s1 maxc))%nat.
Definition whitening (r : nat) (u1 : matrix) (s1 : nat -> Qc) : matrix := fun a i => if (i <? r)%nat then u1 a i / root (s1 i) else 0.

Lemma base_parts : forall n np cols ifs nz nf filt o maxc b, modal_base n np cols ifs nz nf filt o maxc = Ok b ->
  let f := left_ifs n np ifs nz nf in
  let u1 := fst (svd n (geometric np f)) in let s1 := snd (svd n (geometric np f)) in
  let r := kept n nz nf s1 maxc in let m := whitening r u1 s1 in
  exists x, covmat o f = Ok x /\ b_rows b = (nz + r)%nat /\ b_S1 b = s1 /\ b_S2 b = snd (svd n (mmul n (mmul n (trans m) x) m)) /\
  (forall j p, (j < r)%nat -> b_modes b (nz + j)%nat p = qsum n (fun a => f a p * mmul n m (fst (svd n (mmul n (mmul n (trans m) x) m))) a j)).
Proof.
  intros n np cols ifs nz nf filt o maxc b H. unfold KlBaseModel.modal_base in H. destruct (negb _); [discriminate|].
  cbv zeta. unfold left_ifs, removed, geometric. cbv zeta in *.
  destruct (filtered np _ ifs (1 + nz + nf)) as [coef f] eqn:E. cbn [snd]. change (fun a b : nat => qsum np (fun p => f a p * f b p) / qnat np) with (geometric np f) in *.
  unfold geometric in *. destruct (svd n (fun a b : nat => qsum np (fun p => f a p * f b p) / qnat np)) as [u1 s1]. cbn [fst snd]. inv_bind H.
  exists a. split; [exact E0|]. unfold whitening, kept.
  destruct (svd n (mmul n _ _)) as [u2 s2] eqn:E2. cbn [fst snd].
  destruct (Nat.ltb_spec 0 nz) as [L|L]; injection H as <-; cbn [b_rows b_S1 b_S2 b_modes]; repeat split.
  - intros j p Hj. destruct (Nat.ltb_spec (nz + j) nz); [lia|]. replace (nz + j - nz)%nat with j by lia. reflexivity.
  - replace nz with 0%nat by lia. reflexivity.
  - intros j p Hj. replace (nz + j)%nat with j by lia. reflexivity.
Qed.

(* The modes after the Zernike ones are orthonormal on the pupil, and diagonalise the covariance of turbulence.  This needs
   that the decompositions are right for the two matrices used, and that the values of the modes kept are not zero. *)
Theorem C123_orthonormal : forall n np cols ifs nz nf filt o maxc b, modal_base n np cols ifs nz nf filt o maxc = Ok b ->
  let f := left_ifs n np ifs nz nf in
  let u1 := fst (svd n (geometric np f)) in let s1 := snd (svd n (geometric np f)) in
  let r := kept n nz nf s1 maxc in let m := whitening r u1 s1 in
  eigen n (geometric np f) u1 s1 -> (forall i, (i < r)%nat -> root (s1 i) * root (s1 i) = s1 i /\ root (s1 i) <> 0) ->
  (forall x, covmat o f = Ok x -> let h := mmul n (mmul n (trans m) x) m in eigen n h (fst (svd n h)) (snd (svd n h))) -> (forall j, (j < r)%nat -> b_S2 b j <> 0) ->
  b_rows b = (nz + r)%nat /\
  (forall i j, (i < r)%nat -> (j < r)%nat -> qsum np (fun p => b_modes b (nz + i)%nat p * b_modes b (nz + j)%nat p) / qnat np = eye i j) /\
  exists x bp, covmat o f = Ok x /\ (forall j p, (j < r)%nat -> b_modes b (nz + j)%nat p = qsum n (fun a => f a p * bp a j)) /\
  (forall i j, (i < r)%nat -> (j < r)%nat -> form n x (fun a => bp a i) (fun a => bp a j) = b_S2 b j * eye i j).
Proof.
  intros n np cols ifs nz nf filt o maxc b H f u1 s1 r m HE1 HR HE2 HS.
  destruct (base_parts _ _ _ _ _ _ _ _ _ _ H) as (x & X1 & X2 & X3 & X4 & X5). fold f in X1, X2, X3, X4, X5. fold u1 s1 in X2, X3, X4, X5. fold r in X2, X4, X5. fold m in X4, X5.
  specialize (HE2 x X1). cbv zeta in HE2. set (h := mmul n (mmul n (trans m) x) m) in *. set (u2 := fst (svd n h)) in *. set (s2 := snd (svd n h)) in *.
  assert (RN : (r <= n)%nat) by (unfold r, kept; lia).
  assert (HM : forall a i, (r <= i)%nat -> m a i = 0) by (intros a i L; unfold m, whitening; destruct (Nat.ltb_spec i r); [lia|reflexivity]).
  assert (HF : forall i k, h i k = form n x (fun a => m a i) (fun a => m a k)).
  { intros i k. unfold h, mmul, trans, form. rewrite (qs_swap n n). apply qs_ext. intros b0 _. rewrite <- qs_scale_r. reflexivity. }
  assert (U2 : forall i j, (i < n)%nat -> (r <= i)%nat -> (j < r)%nat -> u2 i j = 0).
  { intros i j Hi Li Hj. destruct HE2 as [_ E]. specialize (E i j Hi ltac:(lia)).
    rewrite (qs_zero n) in E by (intros k _; rewrite HF; unfold form; rewrite qs_zero; [ring|]; intros a0 _; apply qs_zero; intros b0 _; rewrite HM by exact Li; ring).
    symmetry in E. destruct (Qcmult_integral _ _ E) as [E0|E0]; [|exact E0]. exfalso. apply (HS j Hj). rewrite X4. exact E0. }
  set (bp := mmul n m u2) in *.
  assert (G : forall X i j, form n X (fun a => bp a i) (fun a => bp a j) = qsum n (fun k => u2 k i * qsum n (fun l => u2 l j * form n X (fun a => m a k) (fun a => m a l)))).
  { intros X i j. unfold bp, mmul. rewrite form_left. apply qs_ext. intros k _. f_equal. apply form_right. }
  split; [exact X2|]. split.
  - intros i j Hi Hj.
    transitivity (form n (geometric np f) (fun a => bp a i) (fun a => bp a j)).
    { unfold form, geometric. rewrite (qs_ext np _ (fun p => qsum n (fun a => qsum n (fun c => bp a i * bp c j * (f a p * f c p))))).
      - rewrite (qs_swap np n). unfold Qcdiv. rewrite <- qs_scale_r. apply qs_ext. intros a _. rewrite (qs_swap np n), <- qs_scale_r. apply qs_ext. intros c _. rewrite qs_scale. ring.
      - intros p _. rewrite !X5 by assumption. fold u2. fold bp. rewrite <- qs_scale_r. apply qs_ext. intros a _. rewrite <- qs_scale. apply qs_ext. intros c _. ring. }
    rewrite G.
    assert (W : forall k l, (k < n)%nat -> (l < n)%nat -> form n (geometric np f) (fun a => m a k) (fun a => m a l) = if (k <? r)%nat then eye k l else 0).
    { intros k l Hk Hl. destruct (Nat.ltb_spec k r) as [Lk|Lk]; [|unfold form; apply qs_zero; intros a _; apply qs_zero; intros c _; rewrite HM by exact Lk; ring].
      destruct (Nat.lt_ge_cases l r) as [Ll|Ll].
      - destruct (HR k Lk) as [R1 R2]. destruct (HR l Ll) as [R3 R4].
        transitivity (/ root (s1 k) * (/ root (s1 l) * qsum n (fun a => u1 a k * qsum n (fun c => geometric np f a c * u1 c l)))).
        + unfold form. rewrite <- !qs_scale. apply qs_ext. intros a _. rewrite <- !qs_scale. apply qs_ext. intros c _. unfold m, whitening.
          replace (k <? r)%nat with true by (symmetry; now apply Nat.ltb_lt). replace (l <? r)%nat with true by (symmetry; now apply Nat.ltb_lt). unfold Qcdiv. ring.
        + rewrite (bilinear _ _ _ _ k l HE1 Hk Hl). unfold eye. destruct (Nat.eqb_spec k l) as [<-|N]; [|ring]. rewrite <- R1 at 3. field. exact R2.
      - unfold eye. destruct (Nat.eqb_spec k l); [lia|]. unfold form. apply qs_zero. intros a _. apply qs_zero. intros c _. rewrite (HM c l Ll). ring. }
    rewrite (qs_ext n _ (fun k => u2 k i * u2 k j)).
    + destruct HE2 as [O _]. apply O; lia.
    + intros k Hk. destruct (Nat.lt_ge_cases k r) as [Lk|Lk].
      * rewrite (qs_single n k _ Hk).
        -- rewrite W by assumption. replace (k <? r)%nat with true by (symmetry; now apply Nat.ltb_lt). unfold eye. rewrite Nat.eqb_refl. ring.
        -- intros l Hl Nl. rewrite W by assumption. destruct (k <? r)%nat; [|ring]. unfold eye. destruct (Nat.eqb_spec k l); [congruence|ring].
      * rewrite !(U2 k) by assumption. ring.
  - exists x, bp. split; [exact X1|]. split; [exact X5|]. intros i j Hi Hj. rewrite G. rewrite X4. fold s2.
    rewrite <- (bilinear n h u2 s2 i j HE2) by lia. apply qs_ext. intros k _. f_equal. apply qs_ext. intros l _. rewrite HF. ring.
Qed.

(* wrong sizes and oversampling are refused *)
Theorem C123_refused : forall n np cols ifs nz nf filt o maxc, cols <> np \/ (o < 2)%Z -> modal_base n np cols ifs nz nf filt o maxc = Err ValueError.
Proof.
  intros n np cols ifs nz nf filt o maxc H. unfold KlBaseModel.modal_base. destruct (Nat.eqb_spec cols np) as [E|E]; cbn [negb]; [|reflexivity].
  destruct H as [H|H]; [contradiction|]. cbv zeta. destruct (filtered np _ ifs _) as [coef f]. destruct (svd n _) as [u1 s1]. unfold KlBaseModel.covmat. replace (o <? 2)%Z with true by (symmetry; now apply Z.ltb_lt). reflexivity.
Qed.

(* ---------------------------------------------------------------- commands *)
Lemma commands_sum : forall n (ifs : matrix) (q : nat -> matrix) t p g, qsum n (fun a => ifs a p * qsum n (fun b => (eye a b - q t a b) * g b)) = qsum n (fun b => g b * (ifs b p - qsum n (fun a => ifs a p * q t a b))).
Proof.
  intros n ifs q t p g. rewrite (qs_ext n _ (fun a => qsum n (fun b => g b * (ifs a p * eye a b - ifs a p * q t a b)))) by (intros a _; rewrite <- qs_scale; apply qs_ext; intros b _; ring).
  rewrite (qs_swap n n). apply qs_ext. intros b Hb. rewrite qs_scale. f_equal. rewrite qs_sub. f_equal. rewrite (qs_single n b _ Hb).
  - unfold eye. rewrite Nat.eqb_refl. ring.
  - intros a _ Na. unfold eye. destruct (Nat.eqb_spec a b); [contradiction|ring].
Qed.
(* With Zernike modes, the commands give the Zernike modes of the basis, and the other modes up to a multiple of one shape
   that is the same for all of them: what the mirror makes of piston *)
Theorem C123_commands : forall n np cols ifs nz filt o maxc b, (0 < nz)%nat -> modal_base n np cols ifs nz 0 filt o maxc = Ok b ->
  exists piston, (forall p, piston p = removed n np ifs nz 0 0%nat p) /\
  forall j, exists t, ((j < nz)%nat -> t = 0) /\ forall p, qsum n (fun a => ifs a p * b_m2c b a j) = b_modes b j p + t * piston p.
Proof.
  intros n np cols ifs nz filt o maxc b Hz H. exists (removed n np ifs nz 0 0%nat). split; [reflexivity|].
  unfold KlBaseModel.modal_base in H. destruct (negb _); [discriminate|]. cbv zeta in H. unfold removed. cbv zeta.
  replace (0 <? nz)%nat with true in * by (symmetry; now apply Nat.ltb_lt). cbv iota in *.
  set (modes0 := normalised root np nz (orto (1 + nz + 0) (raw_modes zern nz))) in *. set (cz := mmul np modes0 (pinv n np ifs)) in *. set (modes := mmul n cz ifs) in *.
  pose proof (filtered_sum np modes ifs (1 + nz + 0)) as FS. destruct (filtered np modes ifs (1 + nz + 0)) as [coef f]. cbn [fst snd] in FS.
  destruct (svd n _) as [u1 s1]. inv_bind H. destruct (svd n _) as [u2 s2]. injection H as <-. cbn [b_m2c b_modes].
  intros j. destruct (Nat.ltb_spec j nz) as [L|L].
  - exists 0. split; [reflexivity|]. intros p. unfold modes at 1, mmul at 1. rewrite (qs_ext n (fun a0 => ifs a0 p * cz (S j) a0) (fun k => cz (S j) k * ifs k p)) by (intros; ring). ring.
  - match goal with |- context [qsum n (fun b => (eye _ b - _) * ?g b (j - nz)%nat)] => set (bp := g) end.
    exists (qsum n (fun b => bp b (j - nz)%nat * coef 0%nat b)). split; [lia|]. intros p.
    rewrite (commands_sum n ifs (fun _ a b => qsum nz (fun z => cz (S z) a * coef (S z) b)) 0%nat p (fun b => bp b (j - nz)%nat)).
    rewrite <- qs_scale_r, <- qs_add. apply qs_ext. intros b _.
    assert (EZ : qsum n (fun a => ifs a p * qsum nz (fun z => cz (S z) a * coef (S z) b)) = qsum nz (fun z => modes (S z) p * coef (S z) b)).
    { rewrite (qs_ext n _ (fun a => qsum nz (fun z => cz (S z) a * ifs a p * coef (S z) b))) by (intros a0 _; rewrite <- qs_scale; apply qs_ext; intros z _; ring).
      rewrite (qs_swap n nz). apply qs_ext. intros z _. rewrite qs_scale_r. reflexivity. }
    rewrite EZ. rewrite (FS b p) at 1. replace (1 + nz + 0)%nat with (S nz) by lia.
    assert (F : qsum (S nz) (fun m => modes m p * coef m b) = modes 0%nat p * coef 0%nat b + qsum nz (fun z => modes (S z) p * coef (S z) b)) by apply first_term.
    rewrite F. ring.
Qed.
End Props.

(* ---------------------------------------------------------------- a concrete case *)
(* four pixels; the decomposition given is right for diagonal matrices, and the root for 0 and 1 *)
Definition ex_svd (n : nat) (a : matrix) : matrix * (nat -> Qc) := (eye, fun i => a i i).
Definition ex_base (ifs : matrix) (n nf : nat) (filt : matrix) :=
  modal_base (fun x => x) (fun _ _ m => m) ex_svd (fun _ _ => 0) (fun _ m => m) 1 (fun _ => 1) (fun f a _ => f a 0%nat) (fun _ _ _ => 0) 1 n 4 4 ifs 0 nf filt 2 None.
Definition of_rows (l : list (list Z)) : matrix := fun a p => Q2Qc (inject_Z (nth p (nth a l []) 0%Z)).
Definition out_of (r : res basis) (n : nat) : option (nat * list (list Qc) * list (list Qc)) :=
  match r with
  | Ok b => Some (b_rows b, map (fun j => map (b_modes b j) (seq 0 4)) (seq 0 (b_rows b)), map (fun j => map (fun a => b_m2c b a j) (seq 0 n)) (seq 0 (b_rows b)))
  | Err _ => None
  end.
Definition ex_ifs : matrix := of_rows [[1; -1; 1; -1]; [1; 1; -1; -1]; [1; 1; 1; 1]]%Z.

Example C123_example : out_of (ex_base ex_ifs 3 1 (fun _ _ => 0)) 3 = Some (1%nat, [[1; - (1); 1; - (1)]], [[1; 0; 0]]).
Proof. vm_compute. reflexivity. Qed.
Example C123_refused_example : modal_base (fun x => x) (fun _ _ m => m) ex_svd (fun _ _ => 0) (fun _ m => m) 1 (fun _ => 1) (fun f a _ => f a 0%nat) (fun _ _ _ => 0) 1 3 4 4 ex_ifs 0 0 (fun _ _ => 0) 1 None = Err ValueError.
Proof. reflexivity. Qed.
Example C123_condition_example : let s := fun i => nth i (map Q2Qc [9#1; 3#1; 1#1]) 0 in (cut 4 1 s (Some (Q2Qc (5#1))), cut 4 1 s (Some (Q2Qc (9#1)))) = (1, 0)%nat.
Proof. vm_compute. reflexivity. Qed.
(* the hypotheses about the decompositions hold in the concrete case *)
Example C123_orthonormal_example : let f := left_ifs (fun x => x) (fun _ _ m => m) (fun _ _ => 0) (fun _ m => m) 3 4 ex_ifs 0 1 in
  eigen 3 (geometric 4 f) eye (fun i => geometric 4 f i i) /\ kept 3 0 1 (fun i => geometric 4 f i i) None = 1%nat /\ geometric 4 f 0%nat 0%nat = 1.
Proof.
  cbv zeta. split; [split|].
  - intros i j Hi Hj. destruct i as [|[|[|i]]]; [| | |lia]; destruct j as [|[|[|j]]]; try lia; apply Qc_is_canon; vm_compute; reflexivity.
  - intros i j Hi Hj. destruct i as [|[|[|i]]]; [| | |lia]; destruct j as [|[|[|j]]]; try lia; apply Qc_is_canon; vm_compute; reflexivity.
  - split; [reflexivity|]. apply Qc_is_canon. vm_compute. reflexivity.
Qed.

(* The modes given to be filtered are not removed: here the only mode of the basis is the mode to be filtered. *)
Theorem C123_filt_modes_refuted : exists ifs g b, ex_base ifs 3 1 (fun _ => g) = Ok b /\ b_rows b = 1%nat /\ g 0%nat = 1 /\ forall p, (p < 4)%nat -> b_modes b 0%nat p = g p.
Proof.
  exists ex_ifs, (ex_ifs 0%nat). destruct (ex_base ex_ifs 3 1 (fun _ => ex_ifs 0%nat)) as [b|e] eqn:E; [|discriminate].
  exists b. injection E as <-. split; [reflexivity|]. split; [reflexivity|]. split; [apply Qc_is_canon; reflexivity|].
  intros p Hp. destruct p as [|[|[|[|p]]]]; try lia; apply Qc_is_canon; vm_compute; reflexivity.
Qed.
(* Without Zernike modes the commands do not give the modes: here the commands of a mode are all zero. *)
Theorem C123_no_zernike_commands_refuted : exists ifs b, ex_base ifs 2 0 (fun _ _ => 0) = Ok b /\ b_rows b = 1%nat /\ b_modes b 0%nat 0%nat = 1 /\ forall a, (a < 2)%nat -> b_m2c b a 0%nat = 0.
Proof.
  exists (of_rows [[2; 0; 2; 0]; [0; 0; 0; 0]]%Z). destruct (ex_base _ 2 0 (fun _ _ => 0)) as [b|e] eqn:E; [|discriminate].
  exists b. injection E as <-. split; [reflexivity|]. split; [reflexivity|]. split; [apply Qc_is_canon; vm_compute; reflexivity|].
  intros a Ha. destruct a as [|[|a]]; try lia; apply Qc_is_canon; vm_compute; reflexivity.
Qed.
Print Assumptions C123_removed.
Print Assumptions C123_covariance.
Print Assumptions C123_condition.
Print Assumptions C123_orthonormal.
Print Assumptions C123_refused.
Print Assumptions C123_commands.
Print Assumptions C123_filt_modes_refuted.
Print Assumptions C123_no_zernike_commands_refuted.
