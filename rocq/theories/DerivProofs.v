From Coq Require Import List ZArith Bool Arith Lia Lqa QArith Qcanon.
From Verif Require Import PyBase PyLemmas OpticalModel ExtModel QcTac SlopecSpec SlopecProofs InterpProofs DerivModel DerivSpec.
Import ListNotations.
Local Open Scope Qc_scope.

Lemma qcount_S n : qcount (S n) = qcount n + 1.
Proof. unfold qcount. apply Qc_iff. rewrite this_add, !this_q, Nat2Z.inj_succ. change (this 1) with (1 # 1)%Q. unfold Qeq, Qplus. cbn [Qnum Qden]. lia. Qed.
Lemma qcount_pos n : (0 < n)%nat -> 0 < qcount n.
Proof. intros H. unfold qcount, Qclt. rewrite !this_q. unfold Qlt. cbn [Qnum Qden]. lia. Qed.
Lemma q2_neq : q2 <> 0. Proof. discriminate. Qed.
Lemma qcount_neq n : (0 < n)%nat -> qcount n <> 0.
Proof. intros H E. assert (P := qcount_pos n H). rewrite E in P. discriminate. Qed.
Lemma block_in s rows k rc : (0 < s_nx s)%nat -> In rc (block s rows k) <-> in_block (s_nx s) (rows / s_nx s) k (fst rc) (snd rc).
Proof. intros H. destruct rc as [r c]. unfold block, in_block. cbn [fst snd]. rewrite in_prod_iff, !in_seq. tauto. Qed.
(* slope of one sub-aperture *)
Definition ddx (cols : nat) (phase : nat -> nat -> Qc) (lit : nat -> nat -> bool) (rc : nat * nat) : Qc := masked (lit (fst rc) (snd rc)) (gradient cols (fun c => phase (fst rc) c) (snd rc)).
Definition ddy (rows : nat) (phase : nat -> nat -> Qc) (lit : nat -> nat -> bool) (rc : nat * nat) : Qc := masked (lit (fst rc) (snd rc)) (gradient rows (fun r => phase r (snd rc)) (fst rc)).
Definition vld (dx dy : nat * nat -> Qc) (rc : nat * nat) : bool := negb (is0 (dx rc) && is0 (dy rc)).
Definition slope (s : sensor) (rows : nat) (dx dy d : nat * nat -> Qc) (k : nat) : Qc :=
  let v := filter (vld dx dy) (block s rows k) in if (length v =? 0)%nat then 0 else qsum (map d v) / qcount (length v) * s_factor s.
Lemma trigger_unfold s rows cols phase lit : (2 <= rows)%nat -> (2 <= cols)%nat -> s_map s <> [] ->
  trigger s rows cols phase lit = Ok (map (slope s rows (ddx cols phase lit) (ddy rows phase lit) (ddx cols phase lit)) (s_map s), map (slope s rows (ddx cols phase lit) (ddy rows phase lit) (ddy rows phase lit)) (s_map s)).
Proof.
  intros R C M. unfold trigger. replace ((rows <? 2) || (cols <? 2))%nat with false by (symmetry; apply orb_false_iff; rewrite !Nat.ltb_ge; lia). destruct (s_map s) as [|k m]; [now destruct M|]. reflexivity.
Qed.
Lemma slope_ext s rows dx dy d dx' dy' d' k : (forall rc, In rc (block s rows k) -> dx rc = dx' rc /\ dy rc = dy' rc /\ d rc = d' rc) -> slope s rows dx dy d k = slope s rows dx' dy' d' k.
Proof.
  intros H. unfold slope. assert (F : filter (vld dx dy) (block s rows k) = filter (vld dx' dy') (block s rows k)). { apply filter_ext_in. intros rc Hr. destruct (H rc Hr) as (A & B & _). unfold vld. now rewrite A, B. }
  rewrite F. destruct (length (filter (vld dx' dy') (block s rows k)) =? 0)%nat; [reflexivity|]. do 3 f_equal. apply map_ext_in. intros rc Hr. apply filter_In in Hr. apply H, Hr.
Qed.
Lemma qsum_const {X} (f : X -> Qc) x l : (forall p, In p l -> f p = x) -> qsum (map f l) = qcount (length l) * x.
Proof. induction l as [|p l IH]; intros H; [cbn [map qsum length]; change (qcount 0) with 0; ring|]. cbn [map qsum length]. rewrite (H p (or_introl eq_refl)), IH by (intros; apply H; now right). rewrite qcount_S. ring. Qed.
Lemma qsum_scale {X} (f g : X -> Qc) a l : (forall p, In p l -> f p = a * g p) -> qsum (map f l) = a * qsum (map g l).
Proof. induction l as [|p l IH]; intros H; [cbn; ring|]. cbn [map qsum]. rewrite (H p (or_introl eq_refl)), IH by (intros; apply H; now right). ring. Qed.
Lemma slope_zero s rows dx dy d k : (forall rc, In rc (block s rows k) -> dx rc = 0 /\ dy rc = 0) -> slope s rows dx dy d k = 0.
Proof.
  intros H. unfold slope. replace (filter (vld dx dy) (block s rows k)) with (@nil (nat * nat)); [reflexivity|]. symmetry. induction (block s rows k) as [|rc l IH]; [reflexivity|]. cbn [filter]. destruct (H rc (or_introl eq_refl)) as [A B]. unfold vld at 1. rewrite A, B. cbn. apply IH. intros; apply H; now right.
Qed.
Lemma gradient_plane n f a b i : (2 <= n)%nat -> (i < n)%nat -> (forall j, (j < n)%nat -> f j = a + b * num j) -> gradient n f i = b.
Proof.
  intros Hn Hi H. assert (Q : forall j, num (S j) = num j + 1) by exact qcount_S. unfold gradient. destruct (Nat.eqb_spec i 0) as [->|N0].
  - rewrite !H by lia. rewrite (Q 0%nat). ring.
  - destruct (Nat.eqb_spec i (n - 1)) as [->|N1].
    + rewrite !H by lia. replace (n - 1)%nat with (S (n - 2)) by lia. rewrite Q. ring.
    + rewrite !H by lia. replace (i + 1)%nat with (S (S (i - 1))) by lia. rewrite !Q. unfold q2. field. discriminate.
Qed.
Lemma gradient_scale n f g a i : (forall j, g j = a * f j) -> gradient n g i = a * gradient n f i.
Proof. intros H. unfold gradient. rewrite !H. destruct (i =? 0)%nat; [ring|]. destruct (i =? n - 1)%nat; [ring|]. field. exact q2_neq. Qed.
Lemma gradient_shift n f g a i : (forall j, g j = a + f j) -> gradient n g i = gradient n f i.
Proof. intros H. unfold gradient. rewrite !H. destruct (i =? 0)%nat; [ring|]. destruct (i =? n - 1)%nat; [ring|]. f_equal. ring. Qed.
Lemma gradient_local n f g i : (2 <= n)%nat -> (i < n)%nat -> (forall j, (j < n)%nat -> (j <= i + 1)%nat -> (i <= j + 1)%nat -> f j = g j) -> gradient n f i = gradient n g i.
Proof.
  intros Hn Hi H. unfold gradient. destruct (Nat.eqb_spec i 0) as [->|N0]; [rewrite !H by lia; reflexivity|]. destruct (Nat.eqb_spec i (n - 1)) as [E|N1]; rewrite !H by lia; reflexivity.
Qed.
Lemma is0_scale a x : a <> 0 -> is0 (a * x) = is0 x.
Proof.
  intros H. destruct (is0 x) eqn:E; [apply is0_true in E; subst x; apply is0_true; ring|]. apply is0_false in E. apply is0_false. intros G. destruct (Qcmult_integral _ _ G); contradiction.
Qed.
Lemma masked_scale b a x : masked b (a * x) = a * masked b x. Proof. destruct b; cbn; ring. Qed.
Lemma qsum_over f l : qsum (map f l) = over f l. Proof. induction l as [|p l IH]; [reflexivity|]. cbn. now rewrite IH. Qed.
Lemma qsum_le {X} (f g : X -> Qc) l : (forall p, In p l -> f p <= g p) -> qsum (map f l) <= qsum (map g l).
Proof. induction l as [|p l IH]; intros H; [apply Qcle_refl|]. cbn [map qsum]. apply Qcplus_le_compat; [apply H; now left|]. apply IH. intros; apply H; now right. Qed.
