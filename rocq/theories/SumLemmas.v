(* Finite sums over an arbitrary field. *)
From Coq Require Import List PeanoNat Lia Field_theory Ring_theory Ring Field.
From Verif Require Import PyBase Arith ArithLemmas FilterSpec.
Import ListNotations.
Local Open Scope ar_scope.

Lemma sumn_ext {A : arith} n (f g : nat -> A) : (forall j, (j < n)%nat -> f j = g j) -> sumn n f = sumn n g.
Proof. induction n; intros H; simpl; auto. rewrite IHn, H; auto. Qed.

(* left-to-right summation of a list, as numpy does it for short arrays; any arithmetic *)
Lemma fold_left_sumn {A : arith} (v : vec A) : vsum v = sumn (length v) (fun j => nth j v 0).
Proof.
  unfold vsum. induction v as [|x v IH] using rev_ind; auto.
  rewrite fold_left_app, app_length, Nat.add_1_r. cbn [fold_left sumn]. rewrite IH. f_equal.
  - apply sumn_ext. intros. rewrite app_nth1; auto.
  - rewrite app_nth2, Nat.sub_diag; auto.
Qed.

Section F.
Variable A : arith.
Hypothesis HF : is_field A.
Let HF' : field_theory (@zer A) one add mul sub opp dvd inv eq := HF.
Add Field fA : HF'.

Lemma sumn_zero n (f : nat -> A) : (forall j, (j < n)%nat -> f j = 0) -> sumn n f = 0.
Proof. induction n; intros H; simpl; auto. rewrite IHn, H; auto. ring. Qed.

Lemma sumn_add n (f g : nat -> A) : sumn n (fun j => f j + g j) = sumn n f + sumn n g.
Proof. induction n; simpl; [ring|]. rewrite IHn. ring. Qed.

Lemma sumn_sub n (f g : nat -> A) : sumn n (fun j => f j - g j) = sumn n f - sumn n g.
Proof. induction n; simpl; [ring|]. rewrite IHn. ring. Qed.

Lemma sumn_scale n a (f : nat -> A) : sumn n (fun j => a * f j) = a * sumn n f.
Proof. induction n; simpl; [ring|]. rewrite IHn. ring. Qed.

Lemma sumn_scale_r n a (f : nat -> A) : sumn n (fun j => f j * a) = sumn n f * a.
Proof. induction n; simpl; [ring|]. rewrite IHn. ring. Qed.

Lemma sumn_first n (f : nat -> A) : sumn (S n) f = f 0%nat + sumn n (fun j => f (S j)).
Proof. induction n; [simpl; ring|]. cbn [sumn] in *. rewrite IHn. ring. Qed.

Lemma sumn_rev n (f : nat -> A) : sumn n f = sumn n (fun j => f (n - 1 - j)%nat).
Proof.
  induction n; auto. rewrite (sumn_first n (fun j => f (S n - 1 - j)%nat)). replace (S n - 1 - 0)%nat with n by lia. cbn [sumn].
  rewrite (sumn_ext n (fun j => f (S n - 1 - S j)%nat) (fun j => f (n - 1 - j)%nat)) by (intros; f_equal; lia).
  rewrite <- IHn. ring.
Qed.

Lemma sumn_swap n m (f : nat -> nat -> A) :
  sumn n (fun i => sumn m (fun j => f i j)) = sumn m (fun j => sumn n (fun i => f i j)).
Proof.
  induction n; simpl; [rewrite sumn_zero; auto|]. rewrite IHn, <- sumn_add. reflexivity.
Qed.

Lemma sumn_app n m (f : nat -> A) : sumn (n + m) f = sumn n f + sumn m (fun j => f (n + j)%nat).
Proof. induction m; [rewrite Nat.add_0_r; simpl; ring|]. rewrite Nat.add_succ_r. cbn [sumn]. rewrite IHm. ring. Qed.

Lemma sumn_single n k (f : nat -> A) : (k < n)%nat -> (forall j, (j < n)%nat -> j <> k -> f j = 0) -> sumn n f = f k.
Proof.
  induction n; intros Hk Hz; [lia|]. cbn [sumn]. destruct (Nat.eq_dec k n) as [->|Hn].
  - rewrite sumn_zero; [ring|]. intros; apply Hz; lia.
  - rewrite IHn; [|lia|intros; apply Hz; lia]. rewrite (Hz n); [ring|lia|lia].
Qed.

(* scalar product of two lists *)
Lemma dot_sumn (u v : vec A) n : length u = n -> length v = n -> dot u v = sumn n (fun j => nth j u 0 * nth j v 0).
Proof.
  intros Lu Lv. unfold dot. rewrite fold_left_sumn, map2_length, Lu, Lv, Nat.min_id.
  apply sumn_ext. intros j Hj. rewrite map2_nth with (a := 0) (b := 0); auto; lia.
Qed.

Lemma dot_add_r (r u v : vec A) n : length r = n -> length u = n -> length v = n ->
  dot r (vadd u v) = dot r u + dot r v.
Proof.
  intros. assert (length (vadd u v) = n) by (unfold vadd; rewrite map2_length; lia).
  rewrite !(dot_sumn _ _ n) by auto. rewrite <- sumn_add.
  apply sumn_ext. intros. unfold vadd. rewrite map2_nth with (a := 0) (b := 0) by lia. ring.
Qed.

Lemma dot_scale_r (r v : vec A) a n : length r = n -> length v = n -> dot r (vscale a v) = a * dot r v.
Proof.
  intros. assert (length (vscale a v) = n) by (unfold vscale; rewrite map_length; auto).
  rewrite !(dot_sumn _ _ n) by auto. rewrite <- sumn_scale.
  apply sumn_ext. intros. unfold vscale. rewrite (nth_indep (map (fun x => a * x) v) 0 (a * 0)) by (rewrite map_length; lia).
  rewrite (map_nth (fun x => a * x)). ring.
Qed.

Lemma dot_zeros_r (r : vec A) n : length r = n -> dot r (zeros n) = 0.
Proof.
  intros. rewrite (dot_sumn _ _ n); auto; [|apply repeat_length].
  apply sumn_zero. intros. unfold zeros. rewrite nth_repeat_same. ring.
Qed.

Lemma mv_length (M : mat A) v : length (mv M v) = length M.
Proof. apply map_length. Qed.

Lemma mv_add (M : mat A) u v n m : shape M n m -> length u = m -> length v = m ->
  mv M (vadd u v) = vadd (mv M u) (mv M v).
Proof.
  intros [_ HM] Lu Lv. unfold mv, vadd at 2. rewrite map2_map. apply map_ext_in. intros r Hr.
  apply dot_add_r with (n := m); auto.
Qed.

Lemma mv_scale (M : mat A) a v n m : shape M n m -> length v = m ->
  mv M (vscale a v) = vscale a (mv M v).
Proof.
  intros [_ HM] Lv. unfold mv, vscale at 2. rewrite map_map. apply map_ext_in. intros r Hr.
  apply dot_scale_r with (n := m); auto.
Qed.

Lemma mv_zeros (M : mat A) n m : shape M n m -> mv M (zeros m) = zeros n.
Proof.
  intros [Hn HM]. unfold mv. rewrite <- Hn. unfold zeros at 2. clear Hn. induction M; simpl; auto.
  f_equal; [apply dot_zeros_r; apply HM; simpl; auto|apply IHM; intros; apply HM; simpl; auto].
Qed.

Lemma vadd_length (u v : vec A) n : length u = n -> length v = n -> length (vadd u v) = n.
Proof. intros. unfold vadd. rewrite map2_length. lia. Qed.

Lemma vscale_length a (v : vec A) : length (vscale a v) = length v.
Proof. apply map_length. Qed.

Lemma vadd_comm (u v : vec A) : vadd u v = vadd v u.
Proof. unfold vadd. revert v; induction u; intros [|]; simpl; f_equal; auto. ring. Qed.

Lemma vadd_assoc (u v w : vec A) : vadd u (vadd v w) = vadd (vadd u v) w.
Proof. unfold vadd. revert v w; induction u; intros [|] [|]; simpl; f_equal; auto. ring. Qed.

Lemma vadd_zeros (v : vec A) : vadd v (zeros (length v)) = v.
Proof. unfold vadd, zeros. induction v; simpl; f_equal; auto. ring. Qed.

Lemma vadd_zeros_l (v : vec A) : vadd (zeros (length v)) v = v.
Proof. rewrite vadd_comm. apply vadd_zeros. Qed.
End F.
