From Coq Require Import List ZArith Bool Lia.
From Verif Require Import PyBase PyLemmas NpModel NpSpec.
Import ListNotations.
Local Open Scope Z_scope.

Lemma zlen_nonneg {V} (l : list V) : 0 <= zlen l.
Proof. unfold zlen. lia. Qed.

Lemma slice_pos_bounds s n : 0 <= n ->
  match slice_bounds s n with
  | Ok (a, b, k) => k = match sl_step s with Some k => k | None => 1 end /\ k <> 0 /\
     (0 < k -> a = slice_bound n 0 n 0 (sl_start s) /\ b = slice_bound n 0 n n (sl_stop s) /\ 0 <= a <= n /\ 0 <= b <= n) /\
     (k < 0 -> a = slice_bound n (-1) (n - 1) (n - 1) (sl_start s) /\ b = slice_bound n (-1) (n - 1) (-1) (sl_stop s) /\
               -1 <= a <= n - 1 /\ -1 <= b <= n - 1)
  | Err e => e = ValueError /\ sl_step s = Some 0
  end.
Proof.
  intros Hn. unfold slice_bounds. set (k := match sl_step s with Some k => k | None => 1 end).
  destruct (k =? 0) eqn:Ek.
  - apply Z.eqb_eq in Ek. split; [reflexivity|]. unfold k in Ek. destruct (sl_step s); [congruence|discriminate].
  - apply Z.eqb_neq in Ek. split; [reflexivity|]. split; [exact Ek|]. split; intros Hk; unfold slice_bound.
    + assert (Q : (k <? 0) = false) by (apply Z.ltb_ge; lia). rewrite !Q.
      destruct (sl_start s) as [a|], (sl_stop s) as [b|];
        repeat match goal with |- context[if ?x <? ?y then _ else _] => destruct (Z.ltb_spec x y) end;
        repeat match goal with |- context[if ?x <=? ?y then _ else _] => destruct (Z.leb_spec x y) end; lia.
    + assert (Q : (k <? 0) = true) by (apply Z.ltb_lt; lia). rewrite !Q.
      destruct (sl_start s) as [a|], (sl_stop s) as [b|];
        repeat match goal with |- context[if ?x <? ?y then _ else _] => destruct (Z.ltb_spec x y) end;
        repeat match goal with |- context[if ?x <=? ?y then _ else _] => destruct (Z.leb_spec x y) end; lia.
Qed.

(* number of multiples before a bound *)
Lemma count_up d k i : 0 < k -> 0 <= i -> (i < (d - 1) / k + 1 <-> i * k < d) .
Proof.
  intros Hk Hi. pose proof (Z.div_mod (d - 1) k ltac:(lia)). pose proof (Z.mod_pos_bound (d - 1) k Hk).
  set (q := (d - 1) / k) in *. split; intros H1.
  - assert (i <= q) by lia. assert (i * k <= q * k) by nia. nia.
  - assert (~ (q + 1 <= i)); [|lia]. intros Q. assert ((q + 1) * k <= i * k) by nia. nia.
Qed.

Theorem slice_pos_ok s n ps : 0 <= n -> slice_pos s n = Ok ps -> slice_selects s n ps /\ forall p, In p ps -> 0 <= p < n.
Proof.
  intros Hn. unfold slice_pos. pose proof (slice_pos_bounds s n Hn) as B. destruct (slice_bounds s n) as [[[a b] k]|e]; [|discriminate].
  cbn [bind]. intros H. injection H as <-. destruct B as (Ek & Nk & Bp & Bn). unfold slice_selects. rewrite <- Ek.
  set (c := Z.to_nat (slice_count a b k)).
  assert (N : forall i, (i < length (map (fun i => (a + Z.of_nat i * k)%Z) (seq 0 c)))%nat ->
              nth i (map (fun i => a + Z.of_nat i * k) (seq 0 c)) 0 = a + Z.of_nat i * k).
  { intros i Hi. rewrite map_length, seq_length in Hi. rewrite (nth_indep _ _ (a + Z.of_nat 0 * k)) by (rewrite map_length, seq_length; exact Hi).
    rewrite (map_nth (fun i => a + Z.of_nat i * k)), seq_nth by exact Hi. reflexivity. }
  destruct (Z.lt_ge_cases k 0) as [Hk|Hk].
  - destruct (Bn Hk) as (Ea & Eb & La & Lb).
    assert (Q : forall i, (i < c)%nat <-> b < a + Z.of_nat i * k).
    { intros i. unfold c, slice_count. assert (K : (k <? 0) = true) by (apply Z.ltb_lt; lia). rewrite K.
      destruct (Z.ltb_spec b a) as [L|L]; [|split; [lia|nia]].
      pose proof (count_up (a - b) (- k) (Z.of_nat i) ltac:(lia) ltac:(lia)) as C.
      assert (0 <= (a - b - 1) / - k) by (apply Z.div_pos; lia).
      split; intros Q; [assert (R : Z.of_nat i < (a - b - 1) / - k + 1) by lia; apply C in R; lia|].
      assert (R : Z.of_nat i * - k < a - b) by lia. apply C in R. lia. }
    split.
    + right. split; [exact Hk|]. cbn zeta. rewrite <- Ea, <- Eb. split; [exact N|]. intros i. rewrite map_length, seq_length. apply Q.
    + intros p Hp. apply in_map_iff in Hp as (i & <- & Hi). apply in_seq in Hi. assert (R : (i < c)%nat) by lia.
      apply Q in R. nia.
  - destruct (Bp ltac:(lia)) as (Ea & Eb & La & Lb).
    assert (Q : forall i, (i < c)%nat <-> a + Z.of_nat i * k < b).
    { intros i. unfold c, slice_count. assert (K : (k <? 0) = false) by (apply Z.ltb_ge; lia). rewrite K.
      destruct (Z.ltb_spec a b) as [L|L]; [|split; [lia|nia]].
      pose proof (count_up (b - a) k (Z.of_nat i) ltac:(lia) ltac:(lia)) as C.
      assert (0 <= (b - a - 1) / k) by (apply Z.div_pos; lia).
      split; intros Q; [assert (R : Z.of_nat i < (b - a - 1) / k + 1) by lia; apply C in R; lia|].
      assert (R : Z.of_nat i * k < b - a) by lia. apply C in R. lia. }
    split.
    + left. split; [lia|]. cbn zeta. rewrite <- Ea, <- Eb. split; [exact N|]. intros i. rewrite map_length, seq_length. apply Q.
    + intros p Hp. apply in_map_iff in Hp as (i & <- & Hi). apply in_seq in Hi. assert (R : (i < c)%nat) by lia.
      apply Q in R. nia.
Qed.

Lemma slice_pos_err s n : 0 <= n -> (exists e, slice_pos s n = Err e) <-> sl_step s = Some 0.
Proof.
  intros Hn. unfold slice_pos. pose proof (slice_pos_bounds s n Hn) as B. destruct (slice_bounds s n) as [[[a b] k]|e]; cbn [bind].
  - split; [intros [e Q]; discriminate|]. intros Q. destruct B as (E & N & _). rewrite Q in E. lia.
  - destruct B as [-> B]. split; [auto|]. intros _. now exists ValueError.
Qed.

Lemma slice_nodup s n ps : 0 <= n -> slice_pos s n = Ok ps -> NoDup ps.
Proof.
  intros Hn. unfold slice_pos. pose proof (slice_pos_bounds s n Hn) as B. destruct (slice_bounds s n) as [[[a b] k]|e]; [|discriminate].
  cbn [bind]. intros H. injection H as <-. destruct B as (_ & Nk & _).
  generalize (Z.to_nat (slice_count a b k)). intros c. generalize 0%nat. induction c as [|c IH]; intros o; [constructor|].
  cbn [seq map]. constructor; [|apply IH]. intros Q. apply in_map_iff in Q as (i & E & Hi). apply in_seq in Hi. nia.
Qed.

Lemma index_pos_iff n i p : 0 <= n -> index_pos n i = Ok p <-> denotes n i p.
Proof.
  intros Hn. unfold index_pos, denotes. destruct (Z.ltb_spec i (- n)), (Z.leb_spec n i); cbn [orb].
  1-3: split; [discriminate|lia].
  destruct (Z.ltb_spec i 0); (split; [intros E; injection E as <-; lia|intros Q; f_equal; lia]).
Qed.

Section Np.
Context {V : Type}.
Implicit Types l : list V.

Lemma at_pos_ok l p v : 0 <= p -> at_pos l p = Ok v <-> nth_error l (Z.to_nat p) = Some v.
Proof. intros Hp. unfold at_pos. destruct (nth_error l (Z.to_nat p)); split; congruence. Qed.

Lemma gather_ok l ps out : (forall p, In p ps -> 0 <= p < zlen l) ->
  gather l ps = Ok out <-> elements_at l ps out.
Proof.
  unfold gather, elements_at. revert out. induction ps as [|p ps IH]; intros out H; cbn [map_res].
  - split.
    + intros E. injection E as <-. split; [reflexivity|]. intros [|i]; discriminate.
    + intros [E _]. destruct out; [reflexivity|discriminate].
  - assert (Hp := H p (or_introl eq_refl)).
    assert (Sp : exists v, nth_error l (Z.to_nat p) = Some v).
    { destruct (nth_error l (Z.to_nat p)) as [v|] eqn:E; [now exists v|]. apply nth_error_None in E. unfold zlen in Hp. lia. }
    destruct Sp as [v Ev]. unfold at_pos at 1. rewrite Ev. cbn [bind].
    assert (Hps : forall q, In q ps -> 0 <= q < zlen l) by (intros q Hq; apply H; now right).
    split.
    + intros E. inv_bind E. injection E as <-. apply IH in E0 as [L F]; [|exact Hps]. split; [cbn; now rewrite L|].
      intros [|i] q Q; cbn in Q |- *; [injection Q as <-; split; [unfold zlen in Hp; lia|now rewrite Ev]|]. now apply F.
    + intros [L F]. destruct out as [|w out]; [discriminate|]. cbn in L. injection L as L.
      assert (E : map_res (at_pos l) ps = Ok out).
      { apply IH; [exact Hps|]. split; [exact L|]. intros i q Q. apply (F (S i) q Q). }
      rewrite E. cbn [bind]. destruct (F 0%nat p eq_refl) as [_ F0]. cbn in F0. rewrite Ev in F0. injection F0 as ->. reflexivity.
Qed.

Lemma gather_total l ps : (forall p, In p ps -> 0 <= p < zlen l) -> exists out, gather l ps = Ok out.
Proof.
  unfold gather. induction ps as [|p ps IH]; intros H; [now exists []|]. cbn [map_res].
  destruct IH as [out E]; [intros q Hq; apply H; now right|]. assert (Hp := H p (or_introl eq_refl)).
  unfold at_pos at 1. destruct (nth_error l (Z.to_nat p)) as [v|] eqn:Ev.
  - cbn [bind]. rewrite E. now exists (v :: out).
  - apply nth_error_None in Ev. unfold zlen in Hp. lia.
Qed.

Theorem take_slice_ok l s out : take_slice l s = Ok out <->
  exists ps, slice_pos s (zlen l) = Ok ps /\ elements_at l ps out.
Proof.
  unfold take_slice. split.
  - intros H. inv_bind H. exists a. split; [exact E|]. apply gather_ok; [|exact H].
    intros p Hp. now apply (slice_pos_ok _ _ _ (zlen_nonneg l) E).
  - intros (ps & E & H). rewrite E. cbn [bind]. apply gather_ok; [|exact H].
    intros p Hp. now apply (slice_pos_ok _ _ _ (zlen_nonneg l) E).
Qed.

Lemma index_list_ok n is ps : 0 <= n -> map_res (index_pos n) is = Ok ps <-> Forall2 (denotes n) is ps.
Proof.
  intros Hn. revert ps. induction is as [|i is IH]; intros ps; cbn [map_res].
  - split; [intros E; injection E as <-; constructor|]. intros H. inversion H. reflexivity.
  - split.
    + intros E. inv_bind E. inv_bind E. injection E as <-. constructor; [now apply index_pos_iff|now apply IH].
    + intros H. inversion H as [|? ? ? ? H1 H2]; subst. apply index_pos_iff in H1; [|exact Hn]. rewrite H1. cbn [bind].
      apply IH in H2. rewrite H2. reflexivity.
Qed.

Lemma denotes_range n is ps : Forall2 (denotes n) is ps -> forall p, In p ps -> 0 <= p < n.
Proof. induction 1 as [|i p is ps H _ IH]; intros q Hq; [destruct Hq|]; destruct Hq as [<-|Hq]; [apply H|now apply IH]. Qed.

Theorem take_list_ok l is out : take_list l is = Ok out <->
  exists ps, Forall2 (denotes (zlen l)) is ps /\ elements_at l ps out.
Proof.
  unfold take_list. split.
  - intros H. inv_bind H. apply index_list_ok in E; [|apply zlen_nonneg]. exists a. split; [exact E|].
    apply gather_ok; [|exact H]. now apply (denotes_range _ is).
  - intros (ps & E & H). assert (R := denotes_range _ _ _ E). apply index_list_ok in E; [|apply zlen_nonneg]. rewrite E. cbn [bind].
    now apply gather_ok.
Qed.

(* assignment *)
Lemma set_nth_length n v l : length (set_nth n v l) = length l.
Proof. revert n. induction l as [|x l IH]; intros [|n]; cbn; auto. Qed.
Lemma set_nth_same n v l : (n < length l)%nat -> nth_error (set_nth n v l) n = Some v.
Proof. revert n. induction l as [|x l IH]; intros [|n] H; cbn in *; try lia; auto. apply IH. lia. Qed.
Lemma set_nth_other n m v l : n <> m -> nth_error (set_nth n v l) m = nth_error l m.
Proof. revert n m. induction l as [|x l IH]; intros [|n] [|m] H; cbn; auto; try congruence. Qed.

Lemma scatter_length pvs : forall l, length (scatter l pvs) = length l.
Proof. unfold scatter. induction pvs as [|[p v] r IH]; intros l; cbn; [reflexivity|]. rewrite IH. apply set_nth_length. Qed.
Lemma scatter_app l a b : scatter l (a ++ b) = scatter (scatter l a) b.
Proof. unfold scatter. apply fold_left_app. Qed.
Lemma scatter_other pvs : forall l q, (forall v, ~ In (q, v) pvs) -> (forall p v, In (p, v) pvs -> 0 <= p) -> 0 <= q ->
  nth_error (scatter l pvs) (Z.to_nat q) = nth_error l (Z.to_nat q).
Proof.
  unfold scatter. induction pvs as [|[p v] r IH]; intros l q H P Hq; cbn [fold_left fst snd]; [reflexivity|].
  rewrite IH; [|intros w Hw; apply (H w); now right|intros p' w Hw; apply (P p' w); now right|exact Hq].
  apply set_nth_other. intros E. apply (H v). left. f_equal. pose proof (P p v (or_introl eq_refl)). lia.
Qed.
(* the last value written at a position is the one found there *)
Lemma scatter_last a b p v l : 0 <= p < zlen l -> (forall w, ~ In (p, w) b) -> (forall q w, In (q, w) b -> 0 <= q) ->
  nth_error (scatter l (a ++ (p, v) :: b)) (Z.to_nat p) = Some v.
Proof.
  intros Hp H P. rewrite scatter_app. change ((p, v) :: b) with ([(p, v)] ++ b). rewrite scatter_app.
  rewrite scatter_other; [|exact H|exact P|lia]. cbn. apply set_nth_same. rewrite scatter_length. unfold zlen in Hp. lia.
Qed.
End Np.
