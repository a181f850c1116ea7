(* Properties of the noise of elongated spots. *)
From Coq Require Import List ZArith Bool Arith Lia QArith Qcanon Lqa Permutation.
From Verif Require Import PyBase PyLemmas OpticalModel QcTac AirModel ElongModel Properties_Air.
Import ListNotations.
Local Open Scope Qc_scope.
Local Strategy 100 [qlt Qcdiv Qcinv Qcmult Qcplus Q2Qc].

Lemma sq_ge : forall x : Qc, 0 <= x * x.
Proof.
  intros x. destruct (Qclt_le_dec x 0) as [H|H].
  - replace (x * x) with ((- x) * (- x)) by ring. apply Qclt_le_weak. apply mul_pos; qclra.
  - rewrite <- (Qcmult_0_l x). now apply Qcmult_le_compat_r.
Qed.
Section Props.
Context (n : nat) (beta1 beta2 eta : nat -> Qc) (sigma2 noise : Qc) (order : list nat).
Context (perm : Permutation order (seq 0 n)).
Notation full := (full n beta1 beta2 eta sigma2 noise order).
Notation whole := (whole n beta1 beta2 eta sigma2 noise).
Notation truncated := (truncated n beta1 beta2 eta noise).
Notation btot := (beta_tot2 beta1 beta2).

(* the four elements of a sub-aperture, and no others *)
Definition block (m : matrix) (k : nat) (xx yy xy : Qc) : Prop := m k k = xx /\ m (k + n)%nat (k + n)%nat = yy /\ m k (k + n)%nat = xy /\ m (k + n)%nat k = xy.
Definition sub (i : nat) : nat := if (i <? n)%nat then i else (i - n)%nat.
Ltac decide_eqs := repeat match goal with |- context[(?a =? ?b)%nat] => destruct (Nat.eqb_spec a b); try lia; cbn [andb] end.
Lemma whole_block : forall m k, (k < n)%nat -> let f := 1 / noise * eta k / (1 + btot k / sigma2) in
  block (whole m k) k (f * (1 + beta2 k * beta2 k / sigma2)) (f * (1 + beta1 k * beta1 k / sigma2)) (f * (- beta1 k * beta2 k / sigma2)).
Proof. intros m k K f. unfold block, ElongModel.whole, put. cbv zeta. repeat split; decide_eqs; reflexivity. Qed.
Lemma truncated_block : forall m k, (k < n)%nat -> let f := eta k / (noise * btot k) in
  block (truncated m k) k (f * (beta2 k * beta2 k)) (f * (beta1 k * beta1 k)) (f * (- beta1 k * beta2 k)).
Proof. intros m k K f. unfold block, ElongModel.truncated, put. cbv zeta. repeat split; decide_eqs; reflexivity. Qed.
Lemma whole_other : forall m k i j, (k < n)%nat -> (i < 2 * n)%nat -> (j < 2 * n)%nat -> sub i <> k \/ sub j <> k -> whole m k i j = m i j.
Proof. intros m k i j K I J S. unfold ElongModel.whole, put, sub in *. cbv zeta. destruct (Nat.ltb_spec i n), (Nat.ltb_spec j n); decide_eqs; reflexivity. Qed.
Lemma truncated_other : forall m k i j, (k < n)%nat -> (i < 2 * n)%nat -> (j < 2 * n)%nat -> sub i <> k \/ sub j <> k -> truncated m k i j = m i j.
Proof. intros m k i j K I J S. unfold ElongModel.truncated, put, sub in *. cbv zeta. destruct (Nat.ltb_spec i n), (Nat.ltb_spec j n); decide_eqs; reflexivity. Qed.
Lemma sub_x : forall k, (k < n)%nat -> sub k = k.
Proof. intros k K. unfold sub. destruct (Nat.ltb_spec k n); lia. Qed.
Lemma sub_y : forall k, (k < n)%nat -> sub (k + n) = k.
Proof. intros k K. unfold sub. destruct (Nat.ltb_spec (k + n) n); lia. Qed.
(* writing a list of sub-apertures *)
Section Writes.
Context (w : matrix -> nat -> matrix) (bx by_ bz : nat -> Qc).
Context (wb : forall m k, (k < n)%nat -> block (w m k) k (bx k) (by_ k) (bz k)).
Context (wo : forall m k i j, (k < n)%nat -> (i < 2 * n)%nat -> (j < 2 * n)%nat -> sub i <> k \/ sub j <> k -> w m k i j = m i j).
Lemma writes_other : forall l m i j, Forall (fun k => (k < n)%nat) l -> (i < 2 * n)%nat -> (j < 2 * n)%nat -> sub i <> sub j \/ ~ In (sub i) l -> fold_left w l m i j = m i j.
Proof.
  induction l as [|k l IH]; intros m i j F I J H; [reflexivity|]. inversion F as [|? ? F1 F2]; subst. cbn [fold_left]. rewrite IH; try assumption; [|destruct H as [H|H]; [now left|right; intros X; apply H; now right]].
  apply wo; try assumption. destruct (Nat.eq_dec (sub i) k) as [E|E]; [|now left]. right. destruct H as [H|H]; [congruence|]. exfalso. apply H. left. congruence.
Qed.
Lemma writes_block : forall l m k, Forall (fun k => (k < n)%nat) l -> In k l -> block (fold_left w l m) k (bx k) (by_ k) (bz k).
Proof.
  induction l as [|a l IH]; intros m k F I; [destruct I|]. inversion F as [|? ? F1 F2]; subst. cbn [fold_left]. destruct (in_dec Nat.eq_dec k l) as [X|X]; [now apply IH|].
  destruct I as [->|I]; [|contradiction]. destruct (wb m k F1) as (A & B & C & D). unfold block.
  rewrite !writes_other; try assumption; try lia; try (right; rewrite ?sub_x, ?sub_y by assumption; exact X). now repeat split.
Qed.
End Writes.

Definition the_order (t : Qc) : list nat := if qlt 0 t then order else seq 0 n.
Definition is_whole (t : Qc) (k : nat) : Prop := In k (firstn (n - n_truncated t n) (the_order t)).
Definition is_truncated (t : Qc) (k : nat) : Prop := In k (skipn (n - n_truncated t n) (the_order t)).
Lemma order_perm : forall t, Permutation (the_order t) (seq 0 n).
Proof. intros t. unfold the_order. destruct (qlt 0 t); [exact perm|reflexivity]. Qed.
Lemma order_bound : forall t l, (forall k, In k l -> In k (the_order t)) -> Forall (fun k => (k < n)%nat) l.
Proof. intros t l H. apply Forall_forall. intros k K. apply H in K. apply (Permutation_in _ (order_perm t)) in K. apply in_seq in K. lia. Qed.
Lemma first_in : forall {A} m (l : list A) x, In x (firstn m l) -> In x l.
Proof. intros A m l x H. rewrite <- (firstn_skipn m l). apply in_or_app. now left. Qed.
Lemma last_in : forall {A} m (l : list A) x, In x (skipn m l) -> In x l.
Proof. intros A m l x H. rewrite <- (firstn_skipn m l). apply in_or_app. now right. Qed.
Lemma apart : forall t k, is_whole t k -> ~ is_truncated t k.
Proof.
  intros t k A B. assert (N : NoDup (the_order t)) by (apply (Permutation_NoDup (Permutation_sym (order_perm t))), seq_NoDup). unfold is_whole, is_truncated in *.
  rewrite <- (firstn_skipn (n - n_truncated t n) (the_order t)) in N. set (a := firstn _ _) in *. set (b := skipn _ _) in *. clearbody a b. induction a as [|x a IH]; [destruct A|]. inversion N as [|? ? N1 N2]; subst. destruct A as [->|A]; [apply N1; apply in_or_app; now right|now apply IH].
Qed.
(* every sub-aperture is whole or truncated; different ones are not coupled, and the matrix is symmetric *)
Lemma full_whole : forall t k, is_whole t k -> let f := 1 / noise * eta k / (1 + btot k / sigma2) in
  block (full t) k (f * (1 + beta2 k * beta2 k / sigma2)) (f * (1 + beta1 k * beta1 k / sigma2)) (f * (- beta1 k * beta2 k / sigma2)).
Proof.
  intros t k W f. assert (K : (k < n)%nat). { assert (F := order_bound t _ (fun x => first_in (n - n_truncated t n) (the_order t) x)). rewrite Forall_forall in F. now apply F. }
  assert (NT := apart t k W). unfold ElongModel.full. cbv zeta. fold (the_order t). unfold block.
  assert (FT := order_bound t _ (fun x => last_in (n - n_truncated t n) (the_order t) x)). assert (FW := order_bound t _ (fun x => first_in (n - n_truncated t n) (the_order t) x)).
  rewrite !(writes_other truncated truncated_other); try assumption; try lia; try (right; rewrite ?sub_x, ?sub_y by assumption; exact NT).
  exact (writes_block whole (fun k => 1 / noise * eta k / (1 + btot k / sigma2) * (1 + beta2 k * beta2 k / sigma2)) (fun k => 1 / noise * eta k / (1 + btot k / sigma2) * (1 + beta1 k * beta1 k / sigma2))
    (fun k => 1 / noise * eta k / (1 + btot k / sigma2) * (- beta1 k * beta2 k / sigma2)) whole_block whole_other _ (fun _ _ => 0) k FW W).
Qed.
Lemma full_truncated : forall t k, is_truncated t k -> let f := eta k / (noise * btot k) in
  block (full t) k (f * (beta2 k * beta2 k)) (f * (beta1 k * beta1 k)) (f * (- beta1 k * beta2 k)).
Proof.
  intros t k W f. unfold ElongModel.full. cbv zeta. fold (the_order t). assert (FT := order_bound t _ (fun x => last_in (n - n_truncated t n) (the_order t) x)).
  exact (writes_block truncated (fun k => eta k / (noise * btot k) * (beta2 k * beta2 k)) (fun k => eta k / (noise * btot k) * (beta1 k * beta1 k)) (fun k => eta k / (noise * btot k) * (- beta1 k * beta2 k)) truncated_block truncated_other _ _ k FT W).
Qed.
Theorem C134_uncoupled : forall t i j, (i < 2 * n)%nat -> (j < 2 * n)%nat -> sub i <> sub j -> full t i j = 0.
Proof.
  intros t i j I J S. unfold ElongModel.full. cbv zeta. fold (the_order t).
  rewrite (writes_other truncated truncated_other); try assumption; [|exact (order_bound t _ (fun x => last_in _ _ x))|now left]. rewrite (writes_other whole whole_other); try assumption; [reflexivity|exact (order_bound t _ (fun x => first_in _ _ x))|now left].
Qed.
Theorem C134_parts : forall t k, (k < n)%nat -> is_whole t k \/ is_truncated t k.
Proof.
  intros t k K. unfold is_whole, is_truncated. apply in_app_or. rewrite firstn_skipn. apply (Permutation_in _ (Permutation_sym (order_perm t))). apply in_seq. lia.
Qed.
Theorem C134_symmetric : forall t i j, (i < 2 * n)%nat -> (j < 2 * n)%nat -> full t i j = full t j i.
Proof.
  intros t i j I J. destruct (Nat.eq_dec (sub i) (sub j)) as [E|E]; [|rewrite !C134_uncoupled by (try assumption; congruence); reflexivity].
  assert (B : forall k, (k < n)%nat -> full t k (k + n)%nat = full t (k + n)%nat k).
  { intros k K. destruct (C134_parts t k K) as [W|W]; [destruct (full_whole t k W) as (_ & _ & A & B)|destruct (full_truncated t k W) as (_ & _ & A & B)]; congruence. }
  unfold sub in E. destruct (Nat.ltb_spec i n), (Nat.ltb_spec j n).
  - now subst.
  - replace j with (i + n)%nat by lia. apply B. lia.
  - replace i with (j + n)%nat by lia. symmetry. apply B. lia.
  - replace i with j by lia. reflexivity.
Qed.
(* a whole sub-aperture: the inverse of the covariance noise / eta (1 + beta beta^T / sigma2) *)
Theorem C134_inverse : forall t k, is_whole t k -> noise <> 0 -> eta k <> 0 -> 0 < sigma2 ->
  let c := noise / eta k in let xx := c * (1 + beta1 k * beta1 k / sigma2) in let yy := c * (1 + beta2 k * beta2 k / sigma2) in let xy := c * (beta1 k * beta2 k / sigma2) in
  full t k k * xx + full t k (k + n)%nat * xy = 1 /\ full t k k * xy + full t k (k + n)%nat * yy = 0 /\
  full t (k + n)%nat k * xx + full t (k + n)%nat (k + n)%nat * xy = 0 /\ full t (k + n)%nat k * xy + full t (k + n)%nat (k + n)%nat * yy = 1.
Proof.
  intros t k W N E S c xx yy xy. subst c xx yy xy. destruct (full_whole t k W) as (A & B & C & D). rewrite A, B, C, D. clear A B C D W. unfold beta_tot2.
  assert (P1 := sq_ge (beta1 k)). assert (P2 := sq_ge (beta2 k)). assert (SN := pos_nz _ S).
  assert (G : sigma2 + (beta1 k * beta1 k + beta2 k * beta2 k) <> 0).
  { apply pos_nz. set (x := beta1 k * beta1 k) in *. set (y := beta2 k * beta2 k) in *. clearbody x y. qclra. }
  clear P1 P2. set (x := beta1 k) in *. set (y := beta2 k) in *. set (e := eta k) in *. clearbody x y e.
  repeat split; field; repeat split; assumption.
Qed.
(* a truncated one: blind along its elongation, and as a round spot across it *)
Theorem C134_truncated : forall t k, is_truncated t k -> noise <> 0 -> beta1 k <> 0 \/ beta2 k <> 0 ->
  full t k k * beta1 k + full t k (k + n)%nat * beta2 k = 0 /\ full t (k + n)%nat k * beta1 k + full t (k + n)%nat (k + n)%nat * beta2 k = 0 /\
  full t k k * - beta2 k + full t k (k + n)%nat * beta1 k = eta k / noise * - beta2 k /\ full t (k + n)%nat k * - beta2 k + full t (k + n)%nat (k + n)%nat * beta1 k = eta k / noise * beta1 k.
Proof.
  intros t k W N Z. destruct (full_truncated t k W) as (A & B & C & D). rewrite A, B, C, D. clear A B C D W. unfold beta_tot2.
  assert (G : beta1 k * beta1 k + beta2 k * beta2 k <> 0).
  { intros H. assert (P1 := sq_ge (beta1 k)). assert (P2 := sq_ge (beta2 k)). assert (Q1 : beta1 k * beta1 k = 0) by (apply Qcle_antisym; set (x := beta1 k * beta1 k) in *; set (y := beta2 k * beta2 k) in *; clearbody x y; [replace x with (x + y - y) by ring; rewrite H; qclra|exact P1]).
    rewrite Q1, Qcplus_0_l in H. destruct Z as [Z|Z]; apply Z; [destruct (Qcmult_integral _ _ Q1)|destruct (Qcmult_integral _ _ H)]; assumption. }
  set (x := beta1 k) in *. set (y := beta2 k) in *. set (e := eta k) in *. clearbody x y e. repeat split; field; repeat split; assumption.
Qed.
(* the diagonal alone: the inverses of the variances, a quarter for the truncated coordinates *)
Theorem C134_diagonal : forall o t i, (i < n)%nat -> noise <> 0 -> 0 < sigma2 -> ~ In i (skipn (2 * n - n_truncated t (2 * n)) o) ->
  diagonal n beta1 beta2 sigma2 noise o t i i * (noise * (1 + beta1 i * beta1 i / sigma2)) = 1.
Proof.
  intros o t i I N S H. unfold diagonal. cbv zeta. rewrite Nat.eqb_refl. replace (i <? n)%nat with true by (symmetry; now apply Nat.ltb_lt).
  replace (existsb (Nat.eqb i) _) with false. 2:{ symmetry. apply not_true_is_false. intros X. apply existsb_exists in X. destruct X as (y & Y & E). apply Nat.eqb_eq in E. subst y. now apply H. }
  assert (P1 := sq_ge (beta1 i)). assert (SN := pos_nz _ S). assert (G : sigma2 + beta1 i * beta1 i <> 0) by (apply pos_nz; set (x := beta1 i * beta1 i) in *; clearbody x; qclra).
  clear P1. set (x := beta1 i) in *. clearbody x. field. repeat split; assumption.
Qed.
Theorem C134_diagonal_y : forall o t i, noise <> 0 -> 0 < sigma2 -> ~ In (i + n)%nat (skipn (2 * n - n_truncated t (2 * n)) o) ->
  diagonal n beta1 beta2 sigma2 noise o t (i + n)%nat (i + n)%nat * (noise * (1 + beta2 i * beta2 i / sigma2)) = 1.
Proof.
  intros o t i N S H. unfold diagonal. cbv zeta. rewrite Nat.eqb_refl. replace (i + n <? n)%nat with false by (symmetry; apply Nat.ltb_ge; lia). replace (i + n - n)%nat with i by lia.
  replace (existsb (Nat.eqb (i + n)) _) with false. 2:{ symmetry. apply not_true_is_false. intros X. apply existsb_exists in X. destruct X as (y & Y & E). apply Nat.eqb_eq in E. subst y. now apply H. }
  assert (P1 := sq_ge (beta2 i)). assert (SN := pos_nz _ S). assert (G : sigma2 + beta2 i * beta2 i <> 0) by (apply pos_nz; set (x := beta2 i * beta2 i) in *; clearbody x; qclra).
  clear P1. set (x := beta2 i) in *. clearbody x. field. repeat split; assumption.
Qed.
Theorem C134_quarter : forall o t i j, length o = (2 * n)%nat ->
  (In i (skipn (2 * n - n_truncated t (2 * n)) o) -> diagonal n beta1 beta2 sigma2 noise o t i i * q 4 1 = diagonal n beta1 beta2 sigma2 noise o 0 i i) /\
  (i <> j -> diagonal n beta1 beta2 sigma2 noise o t i j = 0).
Proof.
  intros o t i j L. split; intros H; unfold diagonal; cbv zeta.
  - rewrite Nat.eqb_refl. replace (existsb (Nat.eqb i) (skipn (2 * n - n_truncated t (2 * n)) o)) with true by (symmetry; apply existsb_exists; exists i; split; [exact H|apply Nat.eqb_refl]).
    replace (n_truncated 0 (2 * n)) with 0%nat by reflexivity. rewrite Nat.sub_0_r, <- L, skipn_all. cbn [existsb]. set (v := if (i <? n)%nat then _ else _). clearbody v. rewrite <- Qcmult_assoc. f_equal. apply Qc_is_canon. reflexivity.
  - destruct (Nat.eqb_spec i j); [contradiction|reflexivity].
Qed.
End Props.
Print Assumptions C134_diagonal_y.
Print Assumptions C134_quarter.
Print Assumptions C134_uncoupled.
Print Assumptions C134_parts.
Print Assumptions C134_symmetric.
Print Assumptions C134_inverse.
Print Assumptions C134_truncated.
Print Assumptions C134_diagonal.

(* three sub-apertures, the farthest of which (0) is truncated *)
Definition ex_b1 (k : nat) : Qc := q (nth k [3; 1; 0]%Z 0%Z) 1.
Definition ex_b2 (k : nat) : Qc := q (nth k [4; 1; 2]%Z 0%Z) 1.
Definition ex_full := full 3 ex_b1 ex_b2 (fun _ => 1) 1 1 [2; 1; 0]%nat (q 1 3).
Example C134_truncated_example : (n_truncated (q 1 3) 3, map (fun ij => this (ex_full (fst ij) (snd ij))) [(0, 0); (3, 3); (0, 3); (1, 1); (4, 1); (0, 1)]%nat)
  = (1%nat, [16 # 25; 9 # 25; -12 # 25; 2 # 3; -1 # 3; 0]%Q).
Proof. vm_compute. reflexivity. Qed.
(* The fluxes of the sub-apertures do not change the diagonal matrix: twice the flux does not give the diagonal of the full matrix
   without elongation. *)
Theorem C134_flux_refuted : exists n b eta s noise o t i, (i < n)%nat /\ Permutation o (seq 0 n) /\ (forall k, b k = 0) /\ diagonal n b b s noise o t i i <> full n b b eta s noise o t i i.
Proof. exists 1%nat, (fun _ => 0), (fun _ => q 2 1), 1, 1, [0%nat], 0, 0%nat. split; [lia|]. split; [reflexivity|]. split; [reflexivity|]. intros H. apply (f_equal this) in H. vm_compute in H. discriminate H. Qed.
Print Assumptions C134_flux_refuted.
