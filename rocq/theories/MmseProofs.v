(* Proofs about the minimum mean square error reconstructor. *)
From Coq Require Import List ZArith Bool Arith QArith Qcanon Lqa Lia.
From Verif Require Import PyBase PyLemmas Arith OpticalModel SlopecSpec FilterSpec SumLemmas QcTac GeomProofs MmseModel MmseSpec.
Import ListNotations.
Local Open Scope Qc_scope.

Lemma qs_S n f : qsum (S n) f = qsum n f + f n. Proof. reflexivity. Qed.
Lemma qs_0 f : qsum 0 f = 0. Proof. reflexivity. Qed.
Lemma qs_ext n f g : (forall i, (i < n)%nat -> f i = g i) -> qsum n f = qsum n g.
Proof. exact (SumLemmas.sumn_ext (A:=qc) n f g). Qed.
Lemma qs_add n f g : qsum n (fun i => f i + g i) = qsum n f + qsum n g.
Proof. induction n as [|n IH]; [rewrite !qs_0; ring|rewrite !qs_S, IH; ring]. Qed.
Lemma qs_sub n f g : qsum n (fun i => f i - g i) = qsum n f - qsum n g.
Proof. induction n as [|n IH]; [rewrite !qs_0; ring|rewrite !qs_S, IH; ring]. Qed.
Lemma qs_scale n c f : qsum n (fun i => c * f i) = c * qsum n f.
Proof. induction n as [|n IH]; [rewrite !qs_0; ring|rewrite !qs_S, IH; ring]. Qed.
Lemma qs_zero n f : (forall i, (i < n)%nat -> f i = 0) -> qsum n f = 0.
Proof. intros H. rewrite (qs_ext n f (fun _ => 0 * 0)) by (intros; rewrite H by assumption; ring). rewrite qs_scale. ring. Qed.
Lemma qs_swap m n f : qsum m (fun i => qsum n (fun j => f i j)) = qsum n (fun j => qsum m (fun i => f i j)).
Proof. induction m as [|m IH]; [rewrite qs_0, qs_zero; [reflexivity|intros; apply qs_0]|]. rewrite qs_S, IH, <- qs_add. apply qs_ext. intros j _. now rewrite qs_S. Qed.
Lemma qs_single n k f : (k < n)%nat -> (forall i, (i < n)%nat -> i <> k -> f i = 0) -> qsum n f = f k.
Proof.
  induction n as [|n IH]; intros K H; [lia|]. rewrite qs_S. destruct (Nat.eq_dec k n) as [->|N].
  - rewrite qs_zero; [ring|]. intros i I. apply H; lia.
  - rewrite IH by (lia || (intros; apply H; lia)). rewrite (H n) by lia. ring.
Qed.

(* vectors *)
Lemma mv_ext n M u v i : same n u v -> mv n M u i = mv n M v i.
Proof. intros H. apply qs_ext. intros j J. now rewrite H. Qed.
Lemma mv_add n M u v i : mv n M (fun j => u j + v j) i = mv n M u i + mv n M v i.
Proof. unfold mv. rewrite <- qs_add. apply qs_ext. intros. ring. Qed.
Lemma mv_sub n M u v i : mv n M (fun j => u j - v j) i = mv n M u i - mv n M v i.
Proof. unfold mv. rewrite <- qs_sub. apply qs_ext. intros. ring. Qed.
Lemma mv_scale n M c v i : mv n M (fun j => c * v j) i = c * mv n M v i.
Proof. unfold mv. rewrite <- qs_scale. apply qs_ext. intros. ring. Qed.
Lemma mv_mmul k n A B v i : mv n (mmul k A B) v i = mv k A (mv n B v) i.
Proof.
  unfold mv, mmul. rewrite (qs_ext n _ (fun j => qsum k (fun l => A i l * B l j * v j))) by (intros j _; rewrite (Qcmult_comm (qsum _ _)), <- qs_scale; apply qs_ext; intros; ring).
  rewrite qs_swap. apply qs_ext. intros l _. rewrite <- qs_scale. apply qs_ext. intros; ring.
Qed.
Lemma mv_madd n A B v i : mv n (madd A B) v i = mv n A v i + mv n B v i.
Proof. unfold mv, madd. rewrite <- qs_add. apply qs_ext. intros; ring. Qed.
Lemma mv_eye n v i : (i < n)%nat -> mv n eye v i = v i.
Proof.
  intros I. unfold mv. rewrite (qs_single n i); [unfold eye; rewrite Nat.eqb_refl; ring|exact I|]. intros j _ N. unfold eye. destruct (Nat.eqb_spec i j); [congruence|ring].
Qed.
Lemma mv_diag n d v i : (i < n)%nat -> mv n (diag d) v i = d i * v i.
Proof.
  intros I. unfold mv. rewrite (qs_single n i); [unfold diag; rewrite Nat.eqb_refl; ring|exact I|]. intros j _ N. unfold diag. destruct (Nat.eqb_spec i j); [congruence|ring].
Qed.
Lemma dot_ext n u u' v v' : same n u u' -> same n v v' -> dotp n u v = dotp n u' v'.
Proof. intros A B. apply qs_ext. intros i I. now rewrite A, B. Qed.
Lemma dot_comm n u v : dotp n u v = dotp n v u.
Proof. apply qs_ext. intros. ring. Qed.
Lemma dot_add n u v w : dotp n u (fun i => v i + w i) = dotp n u v + dotp n u w.
Proof. unfold dotp. rewrite <- qs_add. apply qs_ext. intros. ring. Qed.
Lemma dot_sub n u v w : dotp n u (fun i => v i - w i) = dotp n u v - dotp n u w.
Proof. unfold dotp. rewrite <- qs_sub. apply qs_ext. intros. ring. Qed.
(* the transpose *)
Lemma dot_trans m n A u v : dotp m u (mv n A v) = dotp n v (mv m (fun i j => A j i) u).
Proof.
  unfold dotp, mv. rewrite (qs_ext m _ (fun i => qsum n (fun j => u i * (A i j * v j)))) by (intros; now rewrite qs_scale).
  rewrite qs_swap. apply qs_ext. intros j _. rewrite <- qs_scale. apply qs_ext. intros; ring.
Qed.
Lemma dot_sym n M u v : symmetric n M -> dotp n u (mv n M v) = dotp n v (mv n M u).
Proof. intros S. rewrite dot_trans. apply dot_ext; [intros i _; reflexivity|]. intros i I. apply qs_ext. intros j J. now rewrite S. Qed.

(* completing the square *)
Lemma cost_gap m n A N P s x y : symmetric m N -> symmetric n P -> same n (normal m n A N P y) (weighted m A N s) ->
  let d := fun i => x i - y i in cost m n A N P s x = cost m n A N P s y + dotp n d (normal m n A N P d).
Proof.
  intros SN SP Y d. unfold cost. set (e := fun i => s i - mv n A y i). set (ad := mv n A d).
  assert (E1 : dotp m (fun i => s i - mv n A x i) (mv m N (fun i => s i - mv n A x i)) = dotp m e (mv m N e) - (1 + 1) * dotp m ad (mv m N e) + dotp m ad (mv m N ad)).
  { assert (X : same m (fun i => s i - mv n A x i) (fun i => e i - ad i)). { intros i _. unfold e, ad, d. rewrite mv_sub. ring. }
    rewrite (dot_ext m _ _ _ (mv m N (fun i => e i - ad i)) X) by (intros i _; now apply mv_ext). rewrite dot_comm.
    assert (Z : forall u, dotp m u (fun i => e i - ad i) = dotp m u e - dotp m u ad) by (intros; apply dot_sub). rewrite Z. rewrite !(dot_comm m (mv m N (fun i => e i - ad i))).
    assert (Z2 : forall u, dotp m u (mv m N (fun i => e i - ad i)) = dotp m u (mv m N e) - dotp m u (mv m N ad)). { intros u. rewrite <- dot_sub. apply dot_ext; [intros i _; reflexivity|]. intros i _. apply mv_sub. }
    rewrite !Z2. rewrite (dot_sym m N e ad SN). ring. }
  assert (E2 : dotp n x (mv n P x) = dotp n y (mv n P y) + (1 + 1) * dotp n d (mv n P y) + dotp n d (mv n P d)).
  { assert (X : same n x (fun i => y i + d i)) by (intros i _; unfold d; ring).
    rewrite (dot_ext n x (fun i => y i + d i) _ (mv n P (fun i => y i + d i)) X) by (intros i _; now apply mv_ext). rewrite dot_comm, dot_add, !(dot_comm n (mv n P (fun i => y i + d i))).
    assert (Z2 : forall u, dotp n u (mv n P (fun i => y i + d i)) = dotp n u (mv n P y) + dotp n u (mv n P d)). { intros u. rewrite <- dot_add. apply dot_ext; [intros i _; reflexivity|]. intros i _. apply mv_add. }
    rewrite !Z2, (dot_sym n P y d SP). ring. }
  cbv zeta. rewrite E1, E2.
  assert (E3 : dotp n d (normal m n A N P d) = dotp m ad (mv m N ad) + dotp n d (mv n P d)). { unfold normal. rewrite dot_add. f_equal. rewrite <- dot_trans, dot_comm. reflexivity. }
  assert (E4 : dotp n d (mv n P y) = dotp m ad (mv m N e)).
  { rewrite (dot_comm m ad). unfold ad. rewrite (dot_trans m n A). apply dot_ext; [intros i _; reflexivity|]. intros i I. specialize (Y i I). unfold normal, weighted in Y.
    assert (X : mv m (fun i0 j => A j i0) (mv m N e) i = mv m (fun i0 j => A j i0) (mv m N s) i - mv m (fun i0 j => A j i0) (mv m N (mv n A y)) i). { rewrite <- mv_sub. apply mv_ext. intros k _. unfold e. apply mv_sub. }
    rewrite X, <- Y. ring. }
  rewrite E3, E4. ring.
Qed.
Lemma cost_best m n A N P s x y : symmetric m N -> symmetric n P -> nonnegative m N -> nonnegative n P -> same n (normal m n A N P y) (weighted m A N s) -> cost m n A N P s y <= cost m n A N P s x.
Proof.
  intros SN SP NN NP Y. rewrite (cost_gap m n A N P s x y SN SP Y). set (d := fun i => x i - y i). cbv zeta. assert (Q : 0 <= dotp n d (normal m n A N P d)).
  { unfold normal. rewrite dot_add, <- dot_trans. rewrite dot_comm. pose proof (NN (mv n A d)) as Q1. pose proof (NP d) as Q2. qclra. }
  qclra.
Qed.
Lemma cost_unique m n A N P s x y : symmetric m N -> symmetric n P -> nonnegative m N -> positive n P -> same n (normal m n A N P y) (weighted m A N s) -> cost m n A N P s x <= cost m n A N P s y -> same n x y.
Proof.
  intros SN SP NN NP Y L. rewrite (cost_gap m n A N P s x y SN SP Y) in L. set (d := fun i => x i - y i) in *. cbv zeta in L.
  assert (D : same n d (fun _ => 0)).
  { assert (G : forall k, (k <= n)%nat -> same k d (fun _ => 0)).
    { assert (Z : ~ ~ same n d (fun _ => 0)). { intros Z. assert (Q2 := NP d Z). pose proof (NN (mv n A d)) as Q1. unfold normal in L. rewrite dot_add, <- dot_trans, dot_comm in L. fold d in L. qclra. }
      intros k K i I. destruct (Qc_eq_dec (d i) 0) as [E|E]; [exact E|]. exfalso. apply Z. intros W. apply E, W. lia. }
    apply (G n). lia. }
  intros i I. specialize (D i I). unfold d in D. qclra.
Qed.

(* ------------------------------------------------------------------- the reconstructor *)
Lemma normal_ext m n A N P u v : same n u v -> same n (normal m n A N P u) (normal m n A N P v).
Proof.
  intros H i I. unfold normal. f_equal; [|now apply mv_ext]. apply mv_ext. intros j J. apply mv_ext. intros k K. now apply mv_ext.
Qed.
Lemma h_normal m n a cn ca v i : mv n (madd (mmul m (trans a) (mmul m cn a)) ca) v i = normal m n a cn ca v i.
Proof.
  rewrite mv_madd. unfold normal. f_equal. rewrite mv_mmul. apply mv_ext. intros j J. apply mv_mmul.
Qed.
Lemma h_normal1 n a cn ca v i : mv n (madd (fun i j => cn 0%nat 0%nat * mmul 1 (trans a) a i j) ca) v i = normal 1 n a cn ca v i.
Proof.
  rewrite mv_madd. unfold normal. f_equal.
  transitivity (cn 0%nat 0%nat * mv n (mmul 1 (trans a) a) v i).
  { unfold mv. rewrite <- qs_scale. apply qs_ext. intros; ring. }
  rewrite mv_mmul. set (u := mv n a v). unfold mv, trans. rewrite !qs_S, !qs_0. ring.
Qed.
Section Inv.
Variable inv : nat -> matrix -> option matrix.
Variable pinv : nat -> matrix -> matrix.

Lemma inv_found n M : correct_inv n inv -> (exists X, inverse n M X) -> exists X, inverse_or_pinv inv pinv n M = X /\ inverse n M X.
Proof.
  intros ok E. unfold inverse_or_pinv. destruct (inv n M) as [X|] eqn:I; [exists X; split; [reflexivity|now apply (proj1 ok)]|]. exfalso. exact (proj2 ok M E I).
Qed.
Lemma finish_normal m n a cn ca : correct_inv n inv -> solvable m n a cn ca ->
  exists W, finish inv pinv m n m a cn ca = Ok (Some W) /\ forall s, same n (normal m n a cn ca (mv m W s)) (weighted m a cn s).
Proof.
  intros ok [X HX]. unfold finish. destruct (Nat.eqb_spec m 1) as [->|M1].
  - set (h := madd _ ca). assert (Hh : forall v i, mv n h v i = normal 1 n a cn ca v i) by (intros; apply h_normal1).
    assert (E : exists X, inverse n h X). { exists X. intros v. destruct (HX v) as [A B]. split; intros i I; [rewrite Hh; now apply A|]. transitivity (mv n X (normal 1 n a cn ca v) i); [apply mv_ext; intros j J; apply Hh|now apply B]. }
    destruct (inv_found n h ok E) as [Y [-> IY]]. eexists. split; [reflexivity|]. intros s.
    assert (S : same n (mv 1 (fun i j => cn 0%nat 0%nat * mmul n Y (trans a) i j) s) (mv n Y (weighted 1 a cn s))).
    { intros i I. transitivity (cn 0%nat 0%nat * mv 1 (mmul n Y (trans a)) s i); [unfold mv; rewrite <- qs_scale; apply qs_ext; intros; ring|]. rewrite mv_mmul, <- mv_scale. apply mv_ext. intros j J. unfold weighted, mv, trans. rewrite !qs_S, !qs_0. ring. }
    intros i I. rewrite (normal_ext 1 n a cn ca _ _ S i I). rewrite <- Hh. destruct (IY (weighted 1 a cn s)) as [Q _]. now apply Q.
  - rewrite Nat.eqb_refl. cbn [negb]. set (h := madd _ ca). assert (Hh : forall v i, mv n h v i = normal m n a cn ca v i) by (intros; apply h_normal).
    assert (E : exists X, inverse n h X). { exists X. intros v. destruct (HX v) as [A B]. split; intros i I; [rewrite Hh; now apply A|]. transitivity (mv n X (normal m n a cn ca v) i); [apply mv_ext; intros j J; apply Hh|now apply B]. }
    destruct (inv_found n h ok E) as [Y [-> IY]]. eexists. split; [reflexivity|]. intros s.
    assert (S : same n (mv m (mmul n Y (mmul m (trans a) cn)) s) (mv n Y (weighted m a cn s))).
    { intros i I. rewrite mv_mmul. apply mv_ext. intros j J. unfold weighted. rewrite mv_mmul. reflexivity. }
    intros i I. rewrite (normal_ext m n a cn ca _ _ S i I). rewrite <- Hh. destruct (IY (weighted m a cn s)) as [Q _]. now apply Q.
Qed.
Lemma normal_unique m n a cn ca u v : solvable m n a cn ca -> same n (normal m n a cn ca u) (normal m n a cn ca v) -> same n u v.
Proof.
  intros [X HX] E i I. destruct (HX u) as [_ A]. destruct (HX v) as [_ B]. rewrite <- (A i I), <- (B i I). now apply mv_ext.
Qed.

(* inversion of the covariances *)
Lemma below_spec n P : below n P = true <-> forall i, (i < n)%nat -> P i = true.
Proof. unfold below. rewrite forallb_forall. split; intros H i I; [apply H, in_seq; lia|apply H; apply in_seq in I; lia]. Qed.
Lemma mabs_nonneg x : 0 <= mabs x.
Proof. unfold mabs. destruct (qlt x 0) eqn:E; qclra. Qed.
Lemma is_diag_spec n c : is_diag n c = true <-> forall i j, (i < n)%nat -> (j < n)%nat -> i <> j -> mabs (c i j) < tolerance.
Proof.
  assert (X : forall i j, i <> j -> mabs (diag (fun k => c k k) i j - c i j) = mabs (c i j)).
  { intros i j N. unfold diag. destruct (Nat.eqb_spec i j); [congruence|]. unfold mabs. destruct (qlt (0 - c i j) 0) eqn:A, (qlt (c i j) 0) eqn:B; qclra. }
  unfold is_diag. rewrite below_spec. split.
  - intros H i j I J N. specialize (H i I). apply (proj1 (below_spec _ _)) with (i := j) in H; [|exact J]. rewrite X in H by exact N. apply qlt_true in H. exact H.
  - intros H i I. apply below_spec. intros j J. apply qlt_true. destruct (Nat.eq_dec i j) as [->|N]; [|rewrite X by exact N; now apply H].
    unfold diag. rewrite Nat.eqb_refl. replace (c j j - c j j) with 0 by ring. reflexivity.
Qed.
Lemma inverse_ext n M M' X : (forall i j, (i < n)%nat -> (j < n)%nat -> M i j = M' i j) -> inverse n M X -> inverse n M' X.
Proof.
  intros E H v. assert (F : forall u, same n (mv n M u) (mv n M' u)) by (intros u i I; apply qs_ext; intros j J; now rewrite E). destruct (H v) as [A B]. split; intros i I.
  - rewrite <- (F _ i I). now apply A.
  - rewrite <- (mv_ext n X _ _ i (F v)). now apply B.
Qed.
Lemma diag_inverse n d : (forall i, (i < n)%nat -> d i <> 0) -> inverse n (diag d) (diag (fun i => 1 / d i)).
Proof.
  intros H v. split; intros i I; rewrite mv_diag by exact I; rewrite mv_diag by exact I; field; now apply H.
Qed.
End Inv.
