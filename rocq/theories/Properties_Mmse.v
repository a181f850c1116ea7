(* C105: the minimum mean square error reconstructor. *)
From Coq Require Import List ZArith Bool Arith QArith Qcanon Lqa Lia.
From Verif Require Import PyBase PyLemmas Arith OpticalModel SlopecSpec FilterSpec SumLemmas QcTac GeomProofs MmseModel MmseSpec MmseProofs.
Import ListNotations.
Local Open Scope Qc_scope.

(* With the inverses of the two covariances, the reconstructor solves the normal equations *)
Theorem C105_normal_equations : forall inv pinv m n a N P v, correct_inv n inv -> solvable m n a N P ->
  exists W, compute_mmse inv pinv m n a n P v (Some (m, N)) true = Ok (Some W) /\ forall s, same n (normal m n a N P (mv m W s)) (weighted m a N s).
Proof.
  intros inv pinv m n a N P v ok S. destruct (finish_normal inv pinv m n a N P ok S) as [W [E H]]. exists W. split; [|exact H]. unfold compute_mmse. cbn [bind]. rewrite !Nat.eqb_refl. cbn [negb]. exact E.
Qed.
Print Assumptions C105_normal_equations.
(* so no other modes explain the slopes better *)
Theorem C105_optimal : forall inv pinv m n a N P v W s x, correct_inv n inv -> solvable m n a N P -> symmetric m N -> symmetric n P -> nonnegative m N -> nonnegative n P ->
  compute_mmse inv pinv m n a n P v (Some (m, N)) true = Ok (Some W) -> cost m n a N P s (mv m W s) <= cost m n a N P s x.
Proof.
  intros inv pinv m n a N P v W s x ok S SN SP NN NP H. destruct (C105_normal_equations inv pinv m n a N P v ok S) as [W' [E Q]]. assert (W' = W) by congruence. subst W'. apply cost_best; auto.
Qed.
Print Assumptions C105_optimal.
Theorem C105_unique : forall inv pinv m n a N P v W s x, correct_inv n inv -> solvable m n a N P -> symmetric m N -> symmetric n P -> nonnegative m N -> positive n P ->
  compute_mmse inv pinv m n a n P v (Some (m, N)) true = Ok (Some W) -> cost m n a N P s x <= cost m n a N P s (mv m W s) -> same n x (mv m W s).
Proof.
  intros inv pinv m n a N P v W s x ok S SN SP NN NP H. destruct (C105_normal_equations inv pinv m n a N P v ok S) as [W' [E Q]]. assert (W' = W) by congruence. subst W'. apply cost_unique; auto.
Qed.
Print Assumptions C105_unique.
(* without prior knowledge, modes measured without noise are reconstructed exactly *)
Theorem C105_least_squares : forall inv pinv m n a N v W x, correct_inv n inv -> solvable m n a N (fun _ _ => 0) ->
  compute_mmse inv pinv m n a n (fun _ _ => 0) v (Some (m, N)) true = Ok (Some W) -> same n (mv m W (mv n a x)) x.
Proof.
  intros inv pinv m n a N v W x ok S H. destruct (C105_normal_equations inv pinv m n a N _ v ok S) as [W' [E Q]]. assert (W' = W) by congruence. subst W'. apply (normal_unique m n a N (fun _ _ => 0)); [exact S|].
  intros i I. rewrite (Q (mv n a x) i I). unfold normal, weighted. assert (Z : mv n (fun _ _ => 0) x i = 0) by (unfold mv; apply qs_zero; intros; ring). rewrite Z. ring.
Qed.
Print Assumptions C105_least_squares.
(* the other form of the reconstructor: Cx A' (A Cx A' + Cz)^-1 *)
Theorem C105_other_form : forall inv pinv m n a N P Cz Cx K v W s, correct_inv n inv -> solvable m n a N P -> inverse m Cz N -> inverse n Cx P ->
  (forall u, same m (fun i => mv n a (mv n Cx (mv m (fun i j => a j i) (mv m K u))) i + mv m Cz (mv m K u) i) u) ->
  compute_mmse inv pinv m n a n P v (Some (m, N)) true = Ok (Some W) -> same n (mv m W s) (mv n Cx (mv m (fun i j => a j i) (mv m K s))).
Proof.
  intros inv pinv m n a N P Cz Cx K v W s ok S IN IP HK H. destruct (C105_normal_equations inv pinv m n a N P v ok S) as [W' [E Q]]. assert (W' = W) by congruence. subst W'.
  apply (normal_unique m n a N P); [exact S|]. intros i I. rewrite (Q s i I). set (u := mv m K s). set (atu := mv m (fun i j => a j i) u).
  unfold normal, weighted. destruct (IP atu) as [_ B]. specialize (B i I).
  (* A' N s = A' N (A Cx A' u + Cz u) *)
  assert (X : mv m (fun i j => a j i) (mv m N s) i = mv m (fun i j => a j i) (mv m N (fun i => mv n a (mv n Cx atu) i + mv m Cz u i)) i). { apply mv_ext. intros j J. apply mv_ext. intros k Kk. symmetry. exact (HK s k Kk). }
  rewrite X. assert (Y : mv m (fun i j => a j i) (mv m N (fun i => mv n a (mv n Cx atu) i + mv m Cz u i)) i = mv m (fun i j => a j i) (mv m N (mv n a (mv n Cx atu))) i + mv m (fun i j => a j i) (mv m N (mv m Cz u)) i).
  { rewrite <- mv_add. apply mv_ext. intros j J. apply mv_add. }
  rewrite Y. f_equal. rewrite B. unfold atu. apply mv_ext. intros j J. destruct (IN u) as [_ C]. now apply C.
Qed.
Print Assumptions C105_other_form.

(* covariances that are not inverted yet *)
Theorem C105_inverted : forall inv pinv m n a Cx v Cz N P, invert inv pinv m Cz = Some N -> invert inv pinv n Cx = Some P ->
  compute_mmse inv pinv m n a n Cx v (Some (m, Cz)) false = compute_mmse inv pinv m n a n P v (Some (m, N)) true.
Proof.
  intros inv pinv m n a Cx v Cz N P HN HP. unfold compute_mmse. cbn [bind]. rewrite !Nat.eqb_refl. cbn [negb]. rewrite HN, HP. reflexivity.
Qed.
Print Assumptions C105_inverted.
(* a diagonal matrix without zeros, and an invertible matrix with an entry of 1e-10 or more off the diagonal, are inverted *)
Theorem C105_inverse : forall inv pinv n c, correct_inv n inv -> (exists x, inverse n c x) ->
  (forall i j, (i < n)%nat -> (j < n)%nat -> i <> j -> c i j = 0) \/ (exists i j, (i < n)%nat /\ (j < n)%nat /\ i <> j /\ (tolerance <= c i j \/ c i j <= - tolerance)) ->
  exists x, invert inv pinv n c = Some x /\ inverse n c x.
Proof.
  intros inv pinv n c ok E [D|[i [j [I [J [N T]]]]]]; unfold invert.
  - replace (is_diag n c) with true. 2: { symmetry. apply is_diag_spec. intros i j I J N. rewrite (D i j I J N). reflexivity. }
    assert (Z : forall i, (i < n)%nat -> c i i <> 0).
    { intros i I Z. destruct E as [x X]. destruct (X (fun k => if (k =? i)%nat then 1 else 0)) as [X1 _]. specialize (X1 i I). cbv beta in X1. rewrite Nat.eqb_refl in X1.
      assert (Q : mv n c (mv n x (fun k => if (k =? i)%nat then 1 else 0)) i = 0). { unfold mv at 1. apply qs_zero. intros k Kk. destruct (Nat.eq_dec i k) as [->|Nk]; [rewrite Z; ring|rewrite (D i k I Kk Nk); ring]. }
      rewrite Q in X1. discriminate. }
    replace (below n _) with true. 2: { symmetry. apply below_spec. intros i I. destruct (Qc_eq_dec (c i i) 0) as [Q|Q]; [exfalso; exact (Z i I Q)|reflexivity]. }
    eexists. split; [reflexivity|]. apply (inverse_ext n (diag (fun i => c i i))); [|now apply diag_inverse]. intros i j I J. unfold diag. destruct (Nat.eqb_spec i j) as [->|N]; [reflexivity|]. symmetry. now apply D.
  - replace (is_diag n c) with false. 2: { symmetry. apply not_true_is_false. intros Q. rewrite is_diag_spec in Q. specialize (Q i j I J N). unfold mabs in Q. destruct (qlt (c i j) 0) eqn:L; destruct T as [T|T]; assert (P : 0 < tolerance) by reflexivity; qclra. }
    destruct (inv_found inv pinv n c ok E) as [X [-> IX]]. exists X. split; [reflexivity|exact IX].
Qed.
Print Assumptions C105_inverse.
(* but correlations below 1e-10, however large relative to the variances, are dropped *)
Theorem C105_inverse_refuted : exists n c, symmetric n c /\ (exists x, inverse n c x) /\ forall inv pinv x, invert inv pinv n c = Some x -> ~ inverse n c x.
Proof.
  set (e := Q2Qc (1 # 1000000000000)). set (c := fun i j : nat => if (i =? j)%nat then (1 + 1) * e else e). exists 2%nat, c. split; [|split].
  - intros i j _ _. unfold c. rewrite Nat.eqb_sym. reflexivity.
  - exists (fun i j => if (i =? j)%nat then (1 + 1) / ((1 + 1 + 1) * e) else - (1 / ((1 + 1 + 1) * e))). assert (E : e <> 0) by discriminate. assert (T : 1 + 1 + 1 <> 0) by discriminate.
    intros v. split; intros i I; (assert (W : i = 0%nat \/ i = 1%nat) by lia); destruct W as [-> | ->]; unfold mv; rewrite !qs_S, !qs_0; unfold c; cbn [Nat.eqb]; clearbody e; field; auto.
  - intros inv pinv x H. unfold invert in H. replace (is_diag 2 c) with true in H by (vm_compute; reflexivity). replace (below 2 _) with true in H by (vm_compute; reflexivity). injection H as <-.
    intros X. destruct (X (fun k => if (k =? 0)%nat then 1 else 0)) as [X1 _]. specialize (X1 1%nat ltac:(lia)). vm_compute in X1. discriminate.
Qed.
Print Assumptions C105_inverse_refuted.

(* ------------------------------------------------------------------- the noise *)
(* one variance per sensor: each sensor has the same number of slopes, the slopes left over have none *)
Theorem C105_variances : forall m v c, noise_matrix m v = Ok c -> 
  (forall i j, i <> j -> c i j = 0) /\
  (forall k i, (k < length v)%nat -> (k * (m / length v) <= i < S k * (m / length v))%nat -> c i i = nth k v 0) /\
  (forall i, (length v * (m / length v) <= i)%nat -> c i i = 0).
Proof.
  intros m v c H. unfold noise_matrix in H. destruct (length v) as [|k0] eqn:L; [discriminate|]. set (w := S k0) in *. set (per := (m / w)%nat) in *. assert (C : c = (fun i j => if ((i =? j) && (i <? w * per))%nat then nth (i / per) v 0 else 0)) by (apply (f_equal (fun r => match r with Ok x => x | Err _ => c end)) in H; symmetry; exact H). subst c. clear H. clearbody w per. split; [|split].
  - intros i j N. apply Nat.eqb_neq in N. rewrite N. reflexivity.
  - intros k i K B. rewrite Nat.eqb_refl. replace (i <? w * per)%nat with true by (symmetry; apply Nat.ltb_lt; nia). cbn [andb]. replace (i / per)%nat with k; [reflexivity|]. apply (Nat.div_unique i per k (i - k * per)); nia.
  - intros i B. replace (i <? w * per)%nat with false by (symmetry; apply Nat.ltb_ge; lia). rewrite andb_false_r. reflexivity.
Qed.
Print Assumptions C105_variances.
Theorem C105_variances_defined : forall m v, (exists c, noise_matrix m v = Ok c) <-> v <> [].
Proof.
  intros m v. unfold noise_matrix. destruct v as [|x v]; cbn [length]; split; intros H; try congruence; [destruct H; discriminate|]. eexists. reflexivity.
Qed.
Print Assumptions C105_variances_defined.
(* when the slopes do not divide evenly among the sensors, or a variance is zero, the result is not finite *)
Theorem C105_left_over : forall inv pinv m n a Cx v, v <> [] -> (m mod length v <> 0)%nat \/ ((length v <= m)%nat /\ In 0 v) ->
  compute_mmse inv pinv m n a n Cx (Some v) None false = Ok None.
Proof.
  intros inv pinv m n a Cx v V B. destruct (proj2 (C105_variances_defined m v) V) as [c H]. destruct (C105_variances m v c H) as [O [D Z]].
  unfold compute_mmse. rewrite H. cbn [bind]. rewrite !Nat.eqb_refl. cbn [negb]. assert (L : (length v <> 0)%nat) by (destruct v; [congruence|discriminate]).
  pose proof (Nat.div_mod m (length v) L) as DM. pose proof (Nat.mod_upper_bound m (length v) L) as MB.
  assert (X : exists i, (i < m)%nat /\ c i i = 0).
  { destruct B as [B|[B I]].
    - exists (length v * (m / length v))%nat. split; [lia|]. apply Z. lia.
    - apply (In_nth _ _ 0) in I. destruct I as [k [K E]]. assert (P : (1 <= m / length v)%nat) by (apply Nat.div_le_lower_bound; lia). exists (k * (m / length v))%nat. split; [nia|]. rewrite (D k); [exact E|exact K|nia]. }
  destruct X as [i [I E]]. unfold invert at 1. replace (is_diag m c) with true.
  2: { symmetry. apply is_diag_spec. intros p q _ _ N. rewrite (O p q N). reflexivity. }
  replace (below m _) with false; [reflexivity|]. symmetry. apply not_true_is_false. intros Q. rewrite below_spec in Q. specialize (Q i I). cbv beta in Q. rewrite E in Q. discriminate.
Qed.
Print Assumptions C105_left_over.
(* with inverted covariances, variances of the noise are used as if they were inverted too *)
Theorem C105_variances_as_inverses : forall inv pinv m n a P v c, noise_matrix m v = Ok c ->
  compute_mmse inv pinv m n a n P (Some v) None true = compute_mmse inv pinv m n a n P None (Some (m, c)) true.
Proof. intros inv pinv m n a P v c H. unfold compute_mmse. rewrite H. reflexivity. Qed.
Print Assumptions C105_variances_as_inverses.
(* so a sensor that is four times noisier is trusted four times more *)
Theorem C105_trust_refuted : exists P v, (exists c, noise_matrix 2 v = Ok c /\ c 1%nat 1%nat = (1 + 1 + 1 + 1) * c 0%nat 0%nat) /\
  forall inv pinv, correct_inv 1 inv -> exists W, compute_mmse inv pinv 2 1 (fun _ _ => 1) 1 P (Some v) None true = Ok (Some W) /\
    W 0%nat 1%nat = (1 + 1 + 1 + 1) * W 0%nat 0%nat /\ 0 < W 0%nat 0%nat.
Proof.
  set (v := [1; 1 + 1 + 1 + 1]). set (P := fun _ _ : nat => 1). exists P, v. assert (E : exists c, noise_matrix 2 v = Ok c) by (apply C105_variances_defined; discriminate). destruct E as [c E].
  destruct (C105_variances 2 v c E) as [O [D _]]. assert (C0 : c 0%nat 0%nat = 1) by (apply (D 0%nat); cbn; lia). assert (C1 : c 1%nat 1%nat = 1 + 1 + 1 + 1) by (apply (D 1%nat); cbn; lia).
  split; [exists c; split; [exact E|rewrite C0, C1; ring]|]. intros inv pinv ok. rewrite (C105_variances_as_inverses _ _ _ _ _ _ _ c E).
  assert (NZ : 1 + 1 + 1 + 1 + 1 + 1 <> 0) by discriminate.
  assert (N : forall x i, normal 2 1 (fun _ _ => 1) c P x i = (1 + 1 + 1 + 1 + 1 + 1) * x 0%nat). { intros x i. unfold normal, mv. rewrite !qs_S, !qs_0, C0, C1, !O by discriminate. unfold P. ring. }
  destruct (C105_normal_equations inv pinv 2 1 (fun _ _ => 1) c P None ok) as [W [H Q]].
  { exists (fun _ _ => 1 / (1 + 1 + 1 + 1 + 1 + 1)). intros x. split; intros i I; (replace i with 0%nat by lia); [rewrite N|]; unfold mv; rewrite !qs_S, !qs_0; [|rewrite N]; field; exact NZ. }
  exists W. split; [exact H|]. 
  assert (R : forall s, (1 + 1 + 1 + 1 + 1 + 1) * (W 0%nat 0%nat * s 0%nat + W 0%nat 1%nat * s 1%nat) = s 0%nat + (1 + 1 + 1 + 1) * s 1%nat).
  { intros s. specialize (Q s 0%nat ltac:(lia)). rewrite N in Q. unfold weighted, mv in Q. rewrite !qs_S, !qs_0, C0, C1, !O in Q by discriminate. ring_simplify in Q. ring_simplify. rewrite Q. ring. }
  pose proof (R (fun k => if (k =? 0)%nat then 1 else 0)) as R0. pose proof (R (fun k => if (k =? 0)%nat then 0 else 1)) as R1. cbn [Nat.eqb] in R0, R1. clear -R0 R1. split; qclra.
Qed.
Print Assumptions C105_trust_refuted.
(* and without any noise, the reconstructor needs as many modes as slopes, or one mode *)
Theorem C105_no_noise : forall inv pinv m n a P c_inverse, (n <> m)%nat -> (n <> 1)%nat ->
  compute_mmse inv pinv m n a n P None None c_inverse = Err ValueError.
Proof.
  intros inv pinv m n a P ci N1 N2. unfold compute_mmse. cbn [bind]. rewrite Nat.eqb_refl. cbn [negb]. 
  assert (F : forall ca, finish inv pinv m n n a eye ca = Err ValueError). { intros ca. unfold finish. apply Nat.eqb_neq in N1, N2. rewrite N2, N1. reflexivity. }
  destruct ci; [apply F|]. destruct (invert inv pinv n P) as [x|]; [apply F|]. apply Nat.eqb_neq in N1, N2. rewrite N1, N2. reflexivity.
Qed.
Print Assumptions C105_no_noise.

(* ------------------------------------------------------------------- the interaction matrix *)
(* one variance can be given in four ways, and the variances of the slopes as a list or as a diagonal matrix *)
Theorem C105_one_variance : forall inv pinv m n a na Cx k x c, let r := generate_rec_mmse inv pinv m n a na Cx k in
  r (NList [x]) = r (NScalar x) /\ r (NVector [x]) = r (NScalar x) /\ (c 0%nat 0%nat = x -> r (NMatrix 1 c) = r (NScalar x)).
Proof. intros inv pinv m n a na Cx k x c. cbv zeta. split; [reflexivity|]. split; [reflexivity|]. intros <-. reflexivity. Qed.
Print Assumptions C105_one_variance.
Theorem C105_list : forall inv pinv m n a na Cx k l, (length l <> 1)%nat ->
  generate_rec_mmse inv pinv m n a na Cx k (NList l) = if (length l =? m)%nat then generate_rec_mmse inv pinv m n a na Cx k (NMatrix (length l) (fun i j => if (i =? j)%nat then nth i l 0 else 0)) else Err ValueError.
Proof.
  intros inv pinv m n a na Cx k l L. destruct (Nat.eqb_spec (length l) m) as [E|E].
  - destruct l as [|x [|y l]]; cbn [length] in L; try congruence; unfold generate_rec_mmse; rewrite ?E, ?Nat.eqb_refl; cbn [length] in E; subst m; rewrite ?Nat.eqb_refl; reflexivity.
  - apply Nat.eqb_neq in E. destruct l as [|x [|y l]]; cbn [length] in L; try congruence; unfold generate_rec_mmse; rewrite E; reflexivity.
Qed.
Print Assumptions C105_list.
(* an array of two or more variances is accepted by the check of its length, but never gives a reconstructor *)
Theorem C105_array : forall inv pinv m n a na Cx k l, (2 <= length l)%nat ->
  forall W, generate_rec_mmse inv pinv m n a na Cx k (NVector l) <> Ok (Some W).
Proof.
  intros inv pinv m n a na Cx k l L W. unfold generate_rec_mmse. destruct l as [|x [|y l]]; cbn [length] in L; try lia.
  repeat match goal with |- context [if ?b then _ else _] => destruct b end; discriminate.
Qed.
Print Assumptions C105_array.
(* with one variance for all the slopes, the reconstruction minimises the squared error over the variance plus the prior *)
Theorem C105_generate : forall inv pinv m n a na Cx P k x, correct_inv (Nat.min k n) inv -> x <> 0 -> (Nat.min k n <= na)%nat -> invert inv pinv (Nat.min k n) Cx = Some P ->
  solvable m (Nat.min k n) a (diag (fun _ => 1 / x)) P ->
  exists W, generate_rec_mmse inv pinv m n a na Cx (Some k) (NScalar x) = Ok (Some W) /\
   forall s, same (Nat.min k n) (normal m (Nat.min k n) a (diag (fun _ => 1 / x)) P (mv m W s)) (weighted m a (diag (fun _ => 1 / x)) s).
Proof.
  intros inv pinv m n a na Cx P k x ok X NA HP S. unfold generate_rec_mmse. set (nn := Nat.min k n) in *. cbv zeta.
  assert (E : (if (nn <? na)%nat then nn else na) = nn) by (destruct (Nat.ltb_spec nn na); lia). rewrite E.
  destruct (proj2 (C105_variances_defined m [x]) ltac:(discriminate)) as [c H]. destruct (C105_variances m [x] c H) as [O [D _]]. cbn [length] in D. rewrite Nat.div_1_r in D.
  assert (CD : forall i, (i < m)%nat -> c i i = x) by (intros i I; apply (D 0%nat i); lia).
  unfold compute_mmse. rewrite H. cbn [bind]. rewrite !Nat.eqb_refl. cbn [negb]. rewrite HP. unfold invert. replace (is_diag m c) with true by (symmetry; apply is_diag_spec; intros p q _ _ N; rewrite (O p q N); reflexivity).
  replace (below m _) with true. 2: { symmetry. apply below_spec. intros i I. rewrite (CD i I). destruct (Qc_eq_dec x 0); [contradiction|reflexivity]. }
  assert (MV : forall u, same m (mv m (diag (fun i => 1 / c i i)) u) (mv m (diag (fun _ => 1 / x)) u)). { intros u i I. rewrite !mv_diag by exact I. now rewrite CD. }
  assert (NE : forall u i, normal m nn a (diag (fun i => 1 / c i i)) P u i = normal m nn a (diag (fun _ => 1 / x)) P u i). { intros u i. unfold normal. f_equal. apply mv_ext. apply MV. }
  assert (WE : forall s i, weighted m a (diag (fun i => 1 / c i i)) s i = weighted m a (diag (fun _ => 1 / x)) s i). { intros s i. unfold weighted. apply mv_ext. apply MV. }
  destruct (finish_normal inv pinv m nn a (diag (fun i => 1 / c i i)) P ok) as [W [F Q]].
  { destruct S as [Y HY]. exists Y. intros u. destruct (HY u) as [A B]. split; intros i I; [rewrite NE; now apply A|]. rewrite <- (B i I). apply mv_ext. intros j J. apply NE. }
  exists W. split; [exact F|]. intros s i I. rewrite <- NE, <- WE. now apply Q.
Qed.
Print Assumptions C105_generate.

(* ------------------------------------------------------------------- examples *)
(* the inverse of a matrix of one entry *)
Definition inv1 (n : nat) (M : matrix) : option matrix := match n with 1%nat => if Qc_eq_dec (M 0%nat 0%nat) 0 then None else Some (fun _ _ => 1 / M 0%nat 0%nat) | _ => None end.
Example C105_inverse_example : correct_inv 1 inv1.
Proof.
  split.
  - intros M X H. unfold inv1 in H. destruct (Qc_eq_dec (M 0%nat 0%nat) 0) as [Z|Z]; [discriminate|]. injection H as <-. intros v. split; intros i I; (replace i with 0%nat by lia); unfold mv; rewrite !qs_S, !qs_0; field; exact Z.
  - intros M [X H] N. unfold inv1 in N. destruct (Qc_eq_dec (M 0%nat 0%nat) 0) as [Z|Z]; [|discriminate]. destruct (H (fun _ => 1)) as [A _]. specialize (A 0%nat ltac:(lia)). unfold mv in A. rewrite !qs_S, !qs_0, Z in A. assert (B : 0 = 1) by (rewrite <- A; ring). discriminate.
Qed.
(* two slopes of variances 1 and 1 / 4 measure one mode of variance 1: the second slope counts four times more *)
Example C105_two_slopes_example : exists W, generate_rec_mmse inv1 (fun _ c => c) 2 1 (fun _ _ => 1) 1 (fun _ _ => 1) None (NList [1; 1 / (1 + 1 + 1 + 1)]) = Ok (Some W) /\
  W 0%nat 0%nat = 1 / (1 + 1 + 1 + 1 + 1 + 1) /\ W 0%nat 1%nat = (1 + 1 + 1 + 1) / (1 + 1 + 1 + 1 + 1 + 1).
Proof. eexists. split; [reflexivity|]. split; apply Qc_is_canon; vm_compute; reflexivity. Qed.
(* three slopes of two sensors: the last slope has no noise *)
Example C105_three_slopes_example : compute_mmse inv1 (fun _ c => c) 3 1 (fun _ _ => 1) 1 (fun _ _ => 1) (Some [1; 1]) None false = Ok None.
Proof. vm_compute. reflexivity. Qed.

(* ------------------------------------------------------------------- reconstructors *)
Theorem C105_sizes : forall inv pinv m n a na ca v k c b, ((n <> na \/ m <> k) -> compute_mmse inv pinv m n a na ca v (Some (k, c)) b = Err ValueError) /\
  (n <> na -> compute_mmse inv pinv m n a na ca None None b = Err ValueError) /\
  (k <> 1%nat -> k <> m -> forall q, generate_rec_mmse inv pinv m n a na ca q (NMatrix k c) = Err ValueError).
Proof.
  intros inv pinv m n a na ca v k c b. unfold compute_mmse. cbn [bind]. split; [|split].
  - intros H. destruct v as [v|]; cbn [bind]; (destruct (Nat.eqb_spec n na); cbn [negb]; [|reflexivity]; destruct (Nat.eqb_spec m k); cbn [negb]; [lia|reflexivity]).
  - intros H. now rewrite (proj2 (Nat.eqb_neq n na) H).
  - intros K1 KM q. unfold generate_rec_mmse. destruct k as [|[|k]]; [|lia|]; rewrite (proj2 (Nat.eqb_neq _ m) KM); reflexivity.
Qed.
Print Assumptions C105_sizes.
(* what counts as diagonal: every other entry below 1e-10 in absolute value *)
Theorem C105_diagonal : forall n c, is_diag n c = true <-> forall i j, (i < n)%nat -> (j < n)%nat -> i <> j -> mabs (c i j) < / InterpModel.qz 10000000000.
Proof.
  intros n c. assert (T : tolerance = / InterpModel.qz 10000000000) by (apply Qc_is_canon; reflexivity).
  assert (M : forall x, mabs (0 - x) = mabs x).
  { intros x. unfold mabs. destruct (qlt x 0) eqn:A, (qlt (0 - x) 0) eqn:B; try (apply qlt_true in A || apply qlt_false in A); try (apply qlt_true in B || apply qlt_false in B); qclra. }
  unfold is_diag, below. rewrite forallb_forall. rewrite <- T. split.
  - intros H i j I J N. specialize (H i ltac:(apply in_seq; lia)). rewrite forallb_forall in H. specialize (H j ltac:(apply in_seq; lia)). unfold diag in H. rewrite (proj2 (Nat.eqb_neq i j) N), M in H. now apply qlt_true.
  - intros H i I. apply forallb_forall. intros j J. apply in_seq in I, J. apply qlt_true. unfold diag. destruct (Nat.eqb_spec i j) as [<-|N].
    + replace (c i i - c i i) with 0 by ring. reflexivity.
    + rewrite M. apply H; lia.
Qed.
Print Assumptions C105_diagonal.
Example C105_diagonal_example : is_diag 2 (fun i j => if (i =? j)%nat then 1 else / InterpModel.qz 20000000000) = true /\ is_diag 2 (fun i j => if (i =? j)%nat then 1 else / InterpModel.qz 10000000000) = false.
Proof. split; reflexivity. Qed.
