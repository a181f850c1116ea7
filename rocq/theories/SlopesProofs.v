(* Writing to and reading from distinct positions. *)
From Coq Require Import String List ZArith Bool Arith Lia Permutation.
From Verif Require Import PyBase PyLemmas Arith NpModel NpSpec NpProofs NpSegments VecModel SlopesModel SlopesSpec.
Import ListNotations.
Local Open Scope Z_scope.

Section G.
Context {V : Type}.
Implicit Types l : list V.

Definition in_range (n : Z) (is : list Z) : Prop := forall i, In i is -> 0 <= i < n.

Lemma index_id n is : in_range n is -> map_res (index_pos n) is = Ok is.
Proof.
  destruct (Z_lt_le_dec n 0) as [Hn|Hn].
  - intros H. destruct is as [|i r]; [reflexivity|]. specialize (H i (or_introl eq_refl)). lia.
  - intros H. apply index_list_ok; [exact Hn|]. induction is as [|i r IH]; constructor.
    + assert (Q := H i (or_introl eq_refl)). unfold denotes. lia.
    + apply IH. intros j Hj. apply H. now right.
Qed.

Lemma index_lt n is : map_res (index_pos n) is = Ok is -> 0 <= n -> in_range n is.
Proof.
  intros H Hn. apply index_list_ok in H; [|exact Hn]. intros i Hi. exact (denotes_range _ _ _ H i Hi).
Qed.

Lemma scatter_other_nth (l : list V) ps vs p : 0 <= p -> (forall q, In q ps -> 0 <= q) -> ~ In p ps ->
  nth_error (scatter l (combine ps vs)) (Z.to_nat p) = nth_error l (Z.to_nat p).
Proof.
  intros Hp P N. apply scatter_other; [|intros q w Hq; apply P; now apply in_combine_l in Hq|exact Hp].
  intros v Hv. apply N. now apply in_combine_l in Hv.
Qed.

Lemma scatter_at ps : forall l (vs : list V) k p (v : V), NoDup ps -> in_range (zlen l) ps ->
  nth_error ps k = Some p -> nth_error vs k = Some v -> nth_error (scatter l (combine ps vs)) (Z.to_nat p) = Some v.
Proof.
  induction ps as [|q ps IH]; intros l vs k p v ND R Hp Hv; [now destruct k|].
  inversion ND as [|q' ps' Nq ND' E1]. subst q' ps'. destruct vs as [|w vs]; [now destruct k|].
  cbn [combine]. change ((q, w) :: combine ps vs) with ([(q, w)] ++ combine ps vs). rewrite scatter_app.
  assert (Hq : 0 <= q < zlen l) by (apply R; now left).
  destruct k as [|k]; cbn in Hp, Hv.
  - injection Hp as <-. injection Hv as <-. rewrite scatter_other_nth; [|lia| |exact Nq].
    + cbn. apply set_nth_same. unfold zlen in Hq. lia.
    + intros r Hr. apply R. now right.
  - apply (IH _ vs k); [exact ND'| |exact Hp|exact Hv]. intros r Hr. unfold zlen. rewrite scatter_length. apply R. now right.
Qed.

Lemma assign_list_distinct l is vs : NoDup is -> in_range (zlen l) is -> length vs = length is ->
  exists l', assign_list l is vs = Ok l' /\ length l' = length l /\ l' = scatter l (combine is vs).
Proof.
  intros ND R L. unfold assign_list. rewrite (index_id _ _ R). cbn [bind]. rewrite assign_fits, fits_size by exact L. cbn [bind].
  exists (scatter l (combine is vs)). split; [reflexivity|]. split; [apply scatter_length|reflexivity].
Qed.

Lemma nth_error_ext (a b : list V) : (forall k, nth_error a k = nth_error b k) -> a = b.
Proof.
  revert b. induction a as [|x a IH]; intros [|y b] H; [reflexivity| | |].
  - specialize (H 0%nat). discriminate.
  - specialize (H 0%nat). discriminate.
  - f_equal; [specialize (H 0%nat); cbn in H; congruence|]. apply IH. intros k. exact (H (S k)).
Qed.

Lemma take_list_range l is : in_range (zlen l) is -> exists out, take_list l is = Ok out.
Proof.
  intros R. destruct (gather_total l is R) as [out E]. exists out. unfold take_list. rewrite (index_id _ _ R). exact E.
Qed.

Lemma take_list_at l is out : in_range (zlen l) is -> take_list l is = Ok out <-> elements_at l is out.
Proof.
  intros R. unfold take_list. rewrite (index_id _ _ R). cbn [bind]. apply gather_ok. exact R.
Qed.

Lemma elements_at_unique l is a b : elements_at l is a -> elements_at l is b -> a = b.
Proof.
  intros [L1 H1] [L2 H2]. apply nth_error_ext. intros k. destruct (nth_error is k) as [p|] eqn:E.
  - destruct (H1 k p E) as [_ ->]. destruct (H2 k p E) as [_ ->]. reflexivity.
  - apply nth_error_None in E. rewrite !(proj2 (nth_error_None _ _)) by lia. reflexivity.
Qed.

Theorem read_written l is vs l' : NoDup is -> in_range (zlen l) is -> length vs = length is ->
  assign_list l is vs = Ok l' -> take_list l' is = Ok vs.
Proof.
  intros ND R L H. destruct (assign_list_distinct l is vs ND R L) as (m & E & Lm & Em). rewrite H in E. injection E as <-.
  apply take_list_at; [intros i Hi; unfold zlen; rewrite Lm; now apply R|]. split; [exact L|]. intros k p Hp.
  assert (Rp := R p (nth_error_In _ _ Hp)). split; [unfold zlen in Rp; rewrite Lm; exact Rp|].
  destruct (nth_error vs k) as [v|] eqn:Ev.
  - subst l'. symmetry. apply (scatter_at is l vs k); assumption.
  - apply nth_error_None in Ev. assert (K : (k < length is)%nat) by (apply nth_error_Some; congruence). lia.
Qed.

Theorem read_elsewhere l is js vs l' : NoDup is -> in_range (zlen l) is -> in_range (zlen l) js -> length vs = length is ->
  (forall j, In j js -> ~ In j is) -> assign_list l is vs = Ok l' -> take_list l' js = take_list l js.
Proof.
  intros ND R Rj L D H. destruct (assign_list_distinct l is vs ND R L) as (m & E & Lm & Em). rewrite H in E. injection E as <-.
  destruct (take_list_range l js Rj) as [out Eo]. rewrite Eo. apply take_list_at in Eo; [|exact Rj].
  apply take_list_at; [intros i Hi; unfold zlen; rewrite Lm; now apply Rj|]. destruct Eo as [L2 Ho]. split; [exact L2|].
  intros k p Hp. destruct (Ho k p Hp) as [Q ->]. split; [rewrite Lm; exact Q|]. subst l'.
  assert (Ip := nth_error_In _ _ Hp). symmetry. apply scatter_other_nth; [lia|intros q Hq; now apply R|now apply D].
Qed.

Theorem covered_list l n is js : halves n is js -> (n <= length l)%nat -> in_range (zlen l) is /\ in_range (zlen l) js /\
  NoDup is /\ NoDup js /\ (forall j, In j js -> ~ In j is).
Proof.
  intros P Hn. unfold halves in P.
  assert (R : forall i, In i (is ++ js) -> 0 <= i < zlen l).
  { intros i Hi. apply (Permutation_in _ P) in Hi. apply in_map_iff in Hi as (q & <- & Hq). apply in_seq in Hq. unfold zlen. lia. }
  assert (N : NoDup (is ++ js)).
  { apply (Permutation_NoDup (Permutation_sym P)). apply FinFun.Injective_map_NoDup; [intros a b; lia|apply seq_NoDup]. }
  split; [intros i Hi; apply R; apply in_or_app; now left|]. split; [intros i Hi; apply R; apply in_or_app; now right|].
  clear P R. induction is as [|i is IH]; [split; [constructor|]; split; [exact N|intros j _ []]|].
  cbn in N. inversion N as [|x y Nx N' E]. destruct (IH N') as (A & B & C).
  split; [constructor; [|exact A]; intros Q; apply Nx; apply in_or_app; now left|]. split; [exact B|].
  intros j Hj [<-|Hi]; [apply Nx; apply in_or_app; now right|exact (C j Hj Hi)].
Qed.
End G.

(* positions *)
Lemma arange_length a b : length (arange a b) = (b - a)%nat.
Proof. unfold arange. now rewrite map_length, seq_length. Qed.

Lemma evens_odds k : Permutation (map Z.of_nat (seq 0 (2 * k)))
  (map (fun i => i * 2) (arange 0 k) ++ map (fun i => i + 1) (map (fun i => i * 2) (arange 0 k))).
Proof.
  unfold arange. rewrite Nat.sub_0_r. induction k as [|k IH]; [reflexivity|].
  replace (2 * S k)%nat with (S (S (2 * k))) by lia. rewrite seq_S, seq_S, !map_app. cbn [Nat.add].
  rewrite seq_S, !map_app. cbn [map Nat.add].
  rewrite IH. rewrite <- !app_assoc. apply Permutation_app_head.
  replace (Z.of_nat (2 * k)) with (Z.of_nat k * 2) by lia. replace (Z.of_nat (S (2 * k))) with (Z.of_nat k * 2 + 1) by lia.
  cbn [app]. apply Permutation_sym. apply Permutation_middle.
Qed.
