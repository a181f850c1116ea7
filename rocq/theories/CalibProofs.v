From Coq Require Import List ZArith Bool Lia PeanoNat.
From Verif Require Import PyBase PyLemmas Arith ArithLemmas NpModel NpSpec NpProofs NpSegments VecModel VecProofs2 CalibModel CalibSpec.
Import ListNotations.
Local Open Scope ar_scope.

Section P.
Context {A : arith} (nz : A -> bool).

Lemma take1_nat {V} (l : list V) (m : nat) d : (m < length l)%nat -> take1 l (Z.of_nat m) = Ok (nth m l d).
Proof.
  intros H. unfold take1, index_pos, zlen. rewrite (proj2 (Z.ltb_ge _ _)) by lia. rewrite (proj2 (Z.leb_gt _ _)) by lia. cbn [orb bind].
  rewrite (proj2 (Z.ltb_ge _ 0)) by lia. unfold at_pos. rewrite Nat2Z.id. now rewrite (nth_error_nth' l d H).
Qed.
Lemma put1_nat {V} (l : list V) (m : nat) v : (m < length l)%nat -> assign_list l [Z.of_nat m] [v] = Ok (set_nth m v l).
Proof.
  intros H. unfold assign_list, index_pos, zlen. cbn [map_res]. rewrite (proj2 (Z.ltb_ge _ _)) by lia. rewrite (proj2 (Z.leb_gt _ _)) by lia. cbn [orb bind].
  rewrite (proj2 (Z.ltb_ge _ 0)) by lia. cbn [bind assign map scatter fold_left fst snd]. now rewrite Nat2Z.id.
Qed.

Lemma set_nth_seq {V} (f : nat -> V) v n : forall a m, (m < n)%nat ->
  set_nth m v (map f (seq a n)) = map (fun k => if Nat.eqb k (a + m) then v else f k) (seq a n).
Proof.
  induction n as [|n IH]; intros a m Hm; [lia|]. cbn [seq map]. destruct m as [|m]; cbn [set_nth].
  - rewrite Nat.add_0_r, Nat.eqb_refl. f_equal. apply map_ext_in. intros k Hk. apply in_seq in Hk. now rewrite (proj2 (Nat.eqb_neq k a)) by lia.
  - rewrite (proj2 (Nat.eqb_neq a (a + S m))) by lia. f_equal. rewrite IH by lia. now rewrite Nat.add_succ_comm.
Qed.

Lemma find_filter {X} (p : X -> bool) l : find p l = hd_error (filter p l).
Proof. induction l as [|x l IH]; [reflexivity|]. cbn. destruct (p x); [reflexivity|exact IH]. Qed.

Lemma nonzero_In cmds i : In i (nonzero nz cmds) <-> (i < length cmds)%nat /\ nz (nth i cmds 0) = true.
Proof. unfold nonzero. rewrite filter_In, in_seq. intuition lia. Qed.

Lemma single_nonzero cmds i r : single nz cmds -> nonzero nz cmds = i :: r -> r = [].
Proof.
  intros S E. destruct r as [|j r]; [reflexivity|]. exfalso.
  assert (I : In i (nonzero nz cmds)) by (rewrite E; now left). assert (J : In j (nonzero nz cmds)) by (rewrite E; right; now left).
  apply nonzero_In in I as [I1 I2]. apply nonzero_In in J as [J1 J2]. specialize (S i j I1 J1 I2 J2). subst j.
  assert (ND : NoDup (nonzero nz cmds)) by (apply NoDup_filter, seq_NoDup). rewrite E in ND. inversion_clear ND as [|? ? N _]. apply N. now left.
Qed.

Definition acc (ns : nat) (rs : list (vec A)) : vec A := fold_left vadd rs (zeros ns).

Lemma fold_vadd_nth rs : forall ns (z : vec A) j, length z = ns -> (forall r, In r rs -> length r = ns) -> (j < ns)%nat ->
  length (fold_left vadd rs z) = ns /\ nth j (fold_left vadd rs z) 0 = fold_left add (map (fun r => nth j r 0) rs) (nth j z 0).
Proof.
  induction rs as [|r rs IH]; intros ns z j Hz Hr Hj; cbn [fold_left map]; [now split|].
  assert (L : length (vadd z r) = ns) by (unfold vadd; rewrite map2_length, Hz, (Hr r (or_introl eq_refl)); lia).
  destruct (IH ns (vadd z r) j L ltac:(intros; apply Hr; now right) Hj) as [I1 I2]. split; [exact I1|]. rewrite I2. f_equal.
  unfold vadd. apply map2_nth; [lia|]. rewrite (Hr r (or_introl eq_refl)). lia.
Qed.
Lemma fold_vadd_length rs : forall ns (z : vec A), length z = ns -> (forall r, In r rs -> length r = ns) -> length (fold_left vadd rs z) = ns.
Proof.
  induction rs as [|r rs IH]; intros ns z Hz Hr; cbn [fold_left]; [exact Hz|]. apply IH; [|intros; apply Hr; now right].
  unfold vadd. rewrite map2_length, Hz, (Hr r (or_introl eq_refl)). lia.
Qed.

Definition accumulated (nmodes ns : nat) (first : Z) (fr : list (vec A * vec A)) (c : cal A) : Prop :=
  cl_cols c = map (fun m => acc ns (responses nz first m fr)) (seq 0 nmodes) /\
  cl_counts c = map (fun m => length (responses nz first m fr)) (seq 0 nmodes).

Lemma responses_snoc first m fr p : responses nz first m (fr ++ [p]) = responses nz first m fr ++ responses nz first m [p].
Proof. unfold responses. now rewrite flat_map_app. Qed.
Lemma responses_length ns first m fr : (forall p, In p fr -> length (fst p) = ns) -> forall r, In r (responses nz first m fr) -> length r = ns.
Proof.
  intros H r Hr. unfold responses in Hr. apply in_flat_map in Hr as (p & Hp & Hr). destruct (amplitude nz first m (snd p)); [|destruct Hr].
  destruct Hr as [<-|[]]. rewrite map_length. now apply H.
Qed.
Lemma responses_one first k s cmds :
  responses nz first k [(s, cmds)] = match amplitude nz first k cmds with Some a => [map (fun x => x / a) s] | None => [] end.
Proof. unfold responses. cbn [flat_map fst snd]. now rewrite app_nil_r. Qed.
Lemma acc_snoc ns rs r : acc ns (rs ++ [r]) = vadd (acc ns rs) r.
Proof. unfold acc. now rewrite fold_left_app. Qed.

Lemma bcast_scalar f (s : vec A) a : bcast f s [a] = Ok (map (fun x => f x a) s).
Proof. unfold bcast. destruct s as [|x [|y s]]; reflexivity. Qed.

Lemma contribute_ok nmodes ns first fr c m s a : accumulated nmodes ns first fr c -> (forall p, In p fr -> length (fst p) = ns) ->
  length s = ns -> (m < nmodes)%nat ->
  contribute c (Z.of_nat m) s [a] =
    Ok (mkCal (set_nth m (vadd (acc ns (responses nz first m fr)) (map (fun x => x / a) s)) (cl_cols c))
              (set_nth m (S (length (responses nz first m fr))) (cl_counts c))).
Proof.
  intros [I1 I2] Hf Hs Hm. unfold contribute.
  assert (L1 : length (cl_cols c) = nmodes) by (rewrite I1, map_length, seq_length; reflexivity).
  assert (L2 : length (cl_counts c) = nmodes) by (rewrite I2, map_length, seq_length; reflexivity).
  rewrite (take1_nat (cl_cols c) m []) by lia. cbn [bind]. rewrite bcast_scalar. cbn [bind].
  replace (nth m (cl_cols c) []) with (acc ns (responses nz first m fr)) by (now rewrite I1, nth_map_seq).
  unfold iadd. rewrite map_length. unfold acc at 1. rewrite (fold_vadd_length _ ns) by (try apply repeat_length; now apply (responses_length ns)).
  rewrite Hs, Nat.eqb_refl. cbn [bind]. rewrite put1_nat by lia. cbn [bind].
  rewrite (take1_nat (cl_counts c) m 0%nat) by lia. cbn [bind]. rewrite put1_nat by lia. cbn [bind].
  replace (nth m (cl_counts c) 0%nat) with (length (responses nz first m fr)) by (now rewrite I2, nth_map_seq). reflexivity.
Qed.

Lemma accumulated_step nmodes ns first fr c m s cmds a : accumulated nmodes ns first fr c -> (m < nmodes)%nat ->
  (forall k, (k < nmodes)%nat -> amplitude nz first k cmds = if Nat.eqb k m then Some a else None) ->
  accumulated nmodes ns first (fr ++ [(s, cmds)])
    (mkCal (set_nth m (vadd (acc ns (responses nz first m fr)) (map (fun x => x / a) s)) (cl_cols c))
           (set_nth m (S (length (responses nz first m fr))) (cl_counts c))).
Proof.
  intros [I1 I2] Hm Ha. split; cbn [cl_cols cl_counts].
  - rewrite I1, set_nth_seq by exact Hm. cbn [Nat.add]. apply map_ext_in. intros k Hk. apply in_seq in Hk. rewrite responses_snoc, responses_one, Ha by lia.
    destruct (Nat.eqb_spec k m) as [->|Hn]; [now rewrite acc_snoc|now rewrite app_nil_r].
  - rewrite I2, set_nth_seq by exact Hm. cbn [Nat.add]. apply map_ext_in. intros k Hk. apply in_seq in Hk. rewrite responses_snoc, responses_one, Ha by lia.
    destruct (Nat.eqb_spec k m) as [->|Hn]; [rewrite app_length; cbn; lia|now rewrite app_nil_r].
Qed.

Lemma accumulated_skip nmodes ns first fr c s cmds : accumulated nmodes ns first fr c ->
  (forall k, (k < nmodes)%nat -> amplitude nz first k cmds = None) -> accumulated nmodes ns first (fr ++ [(s, cmds)]) c.
Proof.
  intros [I1 I2] Ha. split; [rewrite I1|rewrite I2]; apply map_ext_in; intros k Hk; apply in_seq in Hk;
    rewrite responses_snoc, responses_one, Ha, app_nil_r by lia; reflexivity.
Qed.

Lemma record_ok nmodes ns first fr c s cmds : accumulated nmodes ns first fr c -> (forall p, In p fr -> length (fst p) = ns) ->
  length s = ns -> single nz cmds -> from_first nz first cmds ->
  exists c', record nz nmodes first c s cmds = Ok c' /\ accumulated nmodes ns first (fr ++ [(s, cmds)]) c'.
Proof.
  intros HI Hf Hs S1 F1. unfold record. destruct (nonzero nz cmds) as [|i r] eqn:E.
  - exists c. split; [reflexivity|]. apply accumulated_skip; [exact HI|]. intros k Hk. unfold amplitude. rewrite find_filter. fold (nonzero nz cmds). now rewrite E.
  - pose proof (single_nonzero cmds i r S1 E) as ->. assert (Hi : In i (nonzero nz cmds)) by (rewrite E; now left). apply nonzero_In in Hi as [Hi1 Hi2].
    specialize (F1 i Hi1 Hi2). cbn [map].
    assert (AM : forall k, amplitude nz first k cmds = if (Z.of_nat i - first =? Z.of_nat k)%Z then Some (nth i cmds 0) else None).
    { intros k. unfold amplitude. rewrite find_filter. fold (nonzero nz cmds). now rewrite E. }
    destruct (Z.ltb_spec (Z.of_nat i - first) (Z.of_nat nmodes)) as [L|L].
    + set (m := Z.to_nat (Z.of_nat i - first)). assert (Em : (Z.of_nat i - first)%Z = Z.of_nat m) by (unfold m; lia). rewrite Em.
      assert (Hm : (m < nmodes)%nat) by lia. rewrite (contribute_ok nmodes ns first fr) by auto. eexists. split; [reflexivity|].
      apply accumulated_step; auto. intros k Hk. rewrite AM, Em. destruct (Nat.eqb_spec k m) as [->|Hn]; [now rewrite Z.eqb_refl|].
      now rewrite (proj2 (Z.eqb_neq _ _)) by lia.
    + exists c. split; [reflexivity|]. apply accumulated_skip; [exact HI|]. intros k Hk. rewrite AM. now rewrite (proj2 (Z.eqb_neq _ _)) by lia.
Qed.

Lemma accumulated_nil nmodes ns first c : length (cl_cols c) = nmodes -> cl_counts c = repeat 0%nat nmodes ->
  accumulated nmodes ns first [] (set_nslopes ns c).
Proof.
  intros H1 H2. unfold accumulated, set_nslopes. cbn [cl_cols cl_counts responses flat_map acc fold_left length]. split.
  - rewrite <- H1. generalize (cl_cols c). intros l. clear. generalize 0%nat at 1. induction l as [|x l IH]; intros a; [reflexivity|]. cbn. f_equal. apply IH.
  - rewrite H2. apply repeat_map_seq.
Qed.

Context (ofn : nat -> A).
Lemma normalise_ok nmodes ns first fr c : accumulated nmodes ns first fr c -> (forall p, In p fr -> length (fst p) = ns) ->
  normalise ofn c = map (fun m => mean_response ofn ns (responses nz first m fr)) (seq 0 nmodes).
Proof.
  intros [I1 I2] Hf. unfold normalise. rewrite I1, I2.
  assert (C : forall (f : nat -> vec A) (g : nat -> nat) l, combine (map f l) (map g l) = map (fun m => (f m, g m)) l).
  { intros f g l. induction l as [|x l IH]; [reflexivity|]. cbn. now rewrite IH. }
  rewrite C, map_map. apply map_ext. intros m. cbn [fst snd].
  set (rs := responses nz first m fr). assert (LR : forall r, In r rs -> length r = ns) by (now apply (responses_length ns)).
  assert (LA : length (acc ns rs) = ns) by (apply fold_vadd_length; [apply repeat_length|exact LR]).
  apply (nth_ext _ _ 0 0).
  - unfold mean_response. rewrite map_length, seq_length. destruct (Nat.ltb 0 (length rs)); rewrite ?map_length; exact LA.
  - intros j Hj. assert (Hj' : (j < ns)%nat) by (destruct (Nat.ltb 0 (length rs)); rewrite ?map_length in Hj; lia).
    unfold mean_response. rewrite nth_map_seq by exact Hj'.
    destruct (fold_vadd_nth rs ns (zeros ns) j (repeat_length _ _) LR Hj') as [_ N].
    unfold zeros in N at 2. rewrite nth_repeat in N.
    destruct rs as [|r rs'] eqn:Er.
    + cbn [length Nat.ltb Nat.leb]. exact N.
    + cbn [length Nat.ltb Nat.leb]. rewrite (nth_indep _ _ ((fun x => x / ofn (S (length rs'))) 0)) by (rewrite map_length, LA; exact Hj').
      rewrite (map_nth (fun x => x / ofn (S (length rs')))). f_equal. exact N.
Qed.

End P.
