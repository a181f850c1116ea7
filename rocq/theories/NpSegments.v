(* Contiguous slices: reading and writing segments of a vector. *)
From Coq Require Import List ZArith Bool Lia PeanoNat.
From Verif Require Import PyBase PyLemmas NpModel NpSpec NpProofs.
Import ListNotations.
Local Open Scope Z_scope.

(* positions a, a+1, ..., a+k-1 *)
Definition segment (a k : nat) : list Z := map Z.of_nat (seq a k).

Lemma segment_length a k : length (segment a k) = k.
Proof. unfold segment. now rewrite map_length, seq_length. Qed.

Lemma seq_shift0 a k : map (fun i => (a + i)%nat) (seq 0 k) = seq a k.
Proof.
  revert a. induction k as [|k IH]; intros a; [reflexivity|]. cbn [seq map]. f_equal; [lia|].
  rewrite <- (IH (S a)), <- seq_shift, map_map. apply map_ext. intros i. lia.
Qed.

Definition obound (d : nat) (o : option Z) : nat := match o with Some v => Z.to_nat v | None => d end.
Lemma slice_pos_segment s n :
  sl_step s = None -> (forall v, sl_start s = Some v -> 0 <= v) -> (forall v, sl_stop s = Some v -> 0 <= v) ->
  slice_pos s (Z.of_nat n) =
  Ok (segment (Nat.min (obound 0 (sl_start s)) n) (Nat.min (obound n (sl_stop s)) n - Nat.min (obound 0 (sl_start s)) n)).
Proof.
  intros Es Ha Hb. unfold slice_pos. pose proof (slice_pos_bounds s (Z.of_nat n) ltac:(lia)) as B.
  destruct (slice_bounds s (Z.of_nat n)) as [[[a b] k]|e].
  2:{ destruct B as [_ B]. rewrite Es in B. discriminate. }
  rewrite Es in B. destruct B as (-> & _ & B & _). destruct (B ltac:(lia)) as (Ea & Eb & La & Lb). clear B.
  cbn [bind]. set (x := Nat.min (obound 0 (sl_start s)) n). set (y := Nat.min (obound n (sl_stop s)) n).
  assert (Xa : a = Z.of_nat x).
  { subst a x. unfold slice_bound, obound. destruct (sl_start s) as [v|]; [|lia]. specialize (Ha v eq_refl).
    destruct (Z.ltb_spec v 0); lia. }
  assert (Xb : b = Z.of_nat y).
  { subst b y. unfold slice_bound, obound. destruct (sl_stop s) as [v|]; [|lia]. specialize (Hb v eq_refl).
    destruct (Z.ltb_spec v 0); lia. }
  assert (C : Z.to_nat (slice_count a b 1) = (y - x)%nat).
  { unfold slice_count. cbn [Z.ltb Z.compare]. rewrite Z.div_1_r. destruct (Z.ltb_spec a b); lia. }
  rewrite C. f_equal. unfold segment. rewrite <- (seq_shift0 x). rewrite map_map. apply map_ext. intros i. lia.
Qed.

Section Np.
Context {V : Type}.
Implicit Types l : list V.

Lemma skipn_skipn' l : forall a b, skipn b (skipn a l) = skipn (a + b) l.
Proof. induction l as [|x l IH]; intros [|a] b; cbn; auto. destruct b; reflexivity. Qed.

Lemma gather_segment l : forall k a, (a + k <= length l)%nat -> gather l (segment a k) = Ok (firstn k (skipn a l)).
Proof.
  unfold gather, segment. induction k as [|k IH]; intros a H; [reflexivity|]. cbn [seq map map_res].
  unfold at_pos at 1. rewrite Nat2Z.id. destruct (nth_error l a) as [v|] eqn:E; [|apply nth_error_None in E; lia].
  cbn [bind]. rewrite IH by lia. cbn [bind]. f_equal.
  assert (S1 : skipn a l = v :: skipn (S a) l).
  { clear - E. revert a E. induction l as [|x l IH]; intros [|a] E; try discriminate; [injection E as <-; reflexivity|]. cbn in *. now apply IH. }
  rewrite S1. reflexivity.
Qed.

(* l[a:b] for non-negative bounds *)
Lemma take_segment l a b :
  (forall v, a = Some v -> 0 <= v) -> (forall v, b = Some v -> 0 <= v) ->
  take_slice l (mkSlice a b None) = Ok (firstn (obound (length l) b - obound 0 a) (skipn (obound 0 a) l)).
Proof.
  intros Ha Hb. unfold take_slice, zlen. rewrite slice_pos_segment by (auto). cbn [bind sl_start sl_stop].
  rewrite gather_segment by lia. f_equal. set (x := obound 0 a). set (y := obound (length l) b).
  destruct (Nat.le_gt_cases x (length l)).
  - replace (Nat.min x (length l)) with x by lia. destruct (Nat.le_gt_cases y (length l)).
    + now replace (Nat.min y (length l)) with y by lia.
    + replace (Nat.min y (length l)) with (length l) by lia. rewrite !firstn_all2; rewrite ?skipn_length; auto; lia.
  - replace (Nat.min x (length l)) with (length l) by lia. rewrite skipn_all. rewrite (skipn_all2 l) by lia. now rewrite !firstn_nil.
Qed.

Lemma set_nth_mid a v x r n : n = length a -> set_nth n v (a ++ x :: r) = (a ++ v :: r : list V).
Proof. intros ->. induction a as [|y a IH]; cbn; [reflexivity|]. now rewrite IH. Qed.

Lemma scatter_segment : forall (vals mid pre post : list V), length mid = length vals ->
  scatter (pre ++ mid ++ post) (combine (segment (length pre) (length vals)) vals) = pre ++ vals ++ post.
Proof.
  unfold scatter, segment. induction vals as [|v vals IH]; intros mid pre post H; destruct mid as [|m mid]; try discriminate; [reflexivity|].
  cbn [length seq map combine fold_left fst snd]. rewrite Nat2Z.id. cbn [app]. rewrite set_nth_mid by reflexivity.
  specialize (IH mid (pre ++ [v]) post ltac:(cbn in H; congruence)). rewrite app_length in IH. cbn [length] in IH.
  replace (length pre + 1)%nat with (S (length pre)) in IH by lia.
  rewrite <- !app_assoc in IH. cbn [app] in IH. exact IH.
Qed.

Lemma combine_repeat (ps : list Z) (v : V) : map (fun p => (p, v)) ps = combine ps (repeat v (length ps)).
Proof. induction ps as [|p ps IH]; [reflexivity|]. cbn. now rewrite IH. Qed.

(* numpy's rule for assigning [vals] to [k] places *)
Definition fits (k : nat) (vals : list V) : res (list V) :=
  match vals with [v] => Ok (repeat v k) | _ => if Nat.eqb k (length vals) then Ok vals else Err ValueError end.

Lemma fits_same vals : fits (length vals) vals = Ok vals.
Proof. unfold fits. rewrite Nat.eqb_refl. destruct vals as [|v [|w r]]; reflexivity. Qed.
Lemma fits_length k vals r : fits k vals = Ok r -> length r = k.
Proof.
  unfold fits. destruct vals as [|v [|w q]]; cbn [length].
  - destruct (Nat.eqb_spec k 0) as [->|]; [intros E; now injection E as <-|discriminate].
  - intros E. injection E as <-. apply repeat_length.
  - destruct (Nat.eqb_spec k (S (S (length q)))) as [->|]; [intros E; now injection E as <-|discriminate].
Qed.
Lemma fits_size k vals : length vals = k -> fits k vals = Ok vals.
Proof. intros <-. apply fits_same. Qed.
Lemma fits_err k vals : length vals <> k -> length vals <> 1%nat -> fits k vals = Err ValueError.
Proof.
  intros H H1. unfold fits. destruct vals as [|v [|w q]]; cbn [length] in *; try lia;
    (destruct (Nat.eqb_spec k 0) + destruct (Nat.eqb_spec k (S (S (length q))))); try lia; reflexivity.
Qed.

Lemma assign_fits l ps vals : assign l ps vals = (r <- fits (length ps) vals ;; Ok (scatter l (combine ps r))).
Proof.
  unfold assign, fits. destruct vals as [|v [|w q]].
  - destruct (Nat.eqb (length ps) (length [])); reflexivity.
  - cbn [bind]. now rewrite combine_repeat.
  - destruct (Nat.eqb (length ps) (length (v :: w :: q))); reflexivity.
Qed.

(* l[a:b] = vals *)
Lemma assign_segment l a b vals :
  (forall v, a = Some v -> 0 <= v) -> (forall v, b = Some v -> 0 <= v) ->
  let x := Nat.min (obound 0 a) (length l) in let y := Nat.min (obound (length l) b) (length l) in
  assign_slice l (mkSlice a b None) vals =
  (r <- fits (y - x) vals ;; Ok (firstn x l ++ r ++ skipn (Nat.max x y) l)).
Proof.
  intros Ha Hb x y. unfold assign_slice, zlen. rewrite slice_pos_segment by auto. cbn [bind sl_start sl_stop]. fold x y.
  rewrite assign_fits, segment_length. destruct (fits (y - x) vals) as [r|e] eqn:E; [|reflexivity]. cbn [bind]. f_equal.
  apply fits_length in E.
  assert (D : l = firstn x l ++ firstn (y - x) (skipn x l) ++ skipn (Nat.max x y) l).
  { rewrite <- (firstn_skipn x l) at 1. f_equal. rewrite <- (firstn_skipn (y - x) (skipn x l)) at 1. f_equal.
    rewrite skipn_skipn'. f_equal. lia. }
  rewrite D at 1. rewrite <- E. rewrite <- (scatter_segment r (firstn (length r) (skipn x l)) (firstn x l) (skipn (Nat.max x y) l)).
  - rewrite firstn_length. replace (Nat.min x (length l)) with x by (subst x; lia). reflexivity.
  - rewrite E, firstn_length, skipn_length. subst x y. lia.
Qed.

Lemma assign_all_fits l vals : assign_all l vals = fits (length l) vals.
Proof.
  unfold assign_all. rewrite assign_segment by discriminate. cbn [obound]. rewrite Nat.min_0_l, Nat.min_id, Nat.sub_0_r, Nat.max_0_l.
  destruct (fits (length l) vals) as [r|e]; [|reflexivity]. cbn [bind firstn app]. now rewrite skipn_all, app_nil_r.
Qed.

Lemma assign_all_ok l vals : length vals = length l -> assign_all l vals = Ok vals.
Proof. intros H. rewrite assign_all_fits. now apply fits_size. Qed.

(* l[:k] = vals, l[k:] = vals *)
Lemma assign_prefix l vals : (length vals <= length l)%nat ->
  assign_slice l (mkSlice None (Some (zlen vals)) None) vals = Ok (vals ++ skipn (length vals) l).
Proof.
  intros H. rewrite assign_segment; [|discriminate|intros v E; injection E as <-; apply zlen_nonneg].
  cbn [obound]. unfold zlen. rewrite Nat2Z.id, Nat.min_0_l, Nat.max_0_l, Nat.sub_0_r, Nat.min_l by exact H.
  rewrite fits_same. reflexivity.
Qed.
Lemma assign_suffix l k vals : (k + length vals = length l)%nat ->
  assign_slice l (mkSlice (Some (Z.of_nat k)) None None) vals = Ok (firstn k l ++ vals).
Proof.
  intros H. rewrite assign_segment; [|intros v E; injection E as <-; lia|discriminate].
  cbn [obound]. rewrite Nat2Z.id, Nat.min_id, Nat.min_l by lia. rewrite fits_size by lia. cbn [bind].
  rewrite Nat.max_r by lia. rewrite skipn_all, app_nil_r. reflexivity.
Qed.
End Np.
