(* Proofs about radial profiles. *)
From Coq Require Import List ZArith Bool Arith QArith Qcanon Qround Lqa Lia Sorted.
From Verif Require Import PyBase PyLemmas Arith OpticalModel NpModel SlopecModel InterpModel ScreenModel SlopecSpec FilterSpec SumLemmas QcTac SlopecProofs ShWeights MaskProofs GeomProofs RadialModel RadialSpec.
Import ListNotations.
Local Open Scope Qc_scope.

Lemma lsum_sum l : lsum l = sum l.
Proof. induction l; cbn; congruence. Qed.
Lemma lsum_app a b : lsum (a ++ b) = lsum a + lsum b.
Proof. induction a as [|x a IH]; cbn [app lsum]; [ring|rewrite IH; ring]. Qed.
Lemma lsum_scale {T} c (f : T -> Qc) l : lsum (map (fun x => c * f x) l) = c * lsum (map f l).
Proof. induction l as [|x l IH]; cbn [map lsum]; [ring|rewrite IH; ring]. Qed.
Lemma lsum_add {T} (f g : T -> Qc) l : lsum (map (fun x => f x + g x) l) = lsum (map f l) + lsum (map g l).
Proof. induction l as [|x l IH]; cbn [map lsum]; [ring|rewrite IH; ring]. Qed.
Lemma lsum_zero {T} (f : T -> Qc) l : (forall x, In x l -> f x = 0) -> lsum (map f l) = 0.
Proof. induction l as [|x l IH]; intros H; cbn [map lsum]; [reflexivity|]. rewrite (H x) by now left. rewrite IH by (intros; apply H; now right). ring. Qed.
Lemma lsum_filter {T} (P : T -> bool) (g : T -> Qc) l : lsum (map g (filter P l)) = lsum (map (fun x => if P x then g x else 0) l).
Proof. induction l as [|x l IH]; cbn [map lsum filter]; [reflexivity|]. destruct (P x); cbn [map lsum]; rewrite IH; ring. Qed.
Lemma lsum_drop {T} (P : T -> bool) (g : T -> Qc) l : (forall x, P x = false -> g x = 0) -> lsum (map g (filter P l)) = lsum (map g l).
Proof. intros H. rewrite lsum_filter. f_equal. apply map_ext. intros x. destruct (P x) eqn:E; [reflexivity|symmetry; now apply H]. Qed.
Lemma lsum_ge {T} (f : T -> Qc) l : (forall x, In x l -> 0 <= f x) -> 0 <= lsum (map f l).
Proof. induction l as [|x l IH]; intros H; cbn [map lsum]; [apply Qcle_refl|]. assert (A := H x (or_introl eq_refl)). assert (B := IH (fun y Hy => H y (or_intror Hy))). qclra. Qed.
Lemma lsum_le {T} (f g : T -> Qc) l : (forall x, In x l -> f x <= g x) -> lsum (map f l) <= lsum (map g l).
Proof. induction l as [|x l IH]; intros H; cbn [map lsum]; [apply Qcle_refl|]. assert (A := H x (or_introl eq_refl)). assert (B := IH (fun y Hy => H y (or_intror Hy))). qclra. Qed.
Lemma qn_S n : qn (S n) = 1 + qn n.
Proof. unfold qn. apply Qc_iff. rewrite this_add, !this_q. rewrite Nat2Z.inj_succ, <- Z.add_1_l, inject_Z_plus. reflexivity. Qed.
Lemma qn_nz n : (0 < n)%nat -> qn n <> 0.
Proof. intros H. apply nz_pos. rewrite qn_qnat. now apply qnat_pos. Qed.
Lemma lsum_const {T} c (l : list T) : lsum (map (fun _ => c) l) = c * qn (length l).
Proof. induction l as [|x l IH]; cbn [map lsum length]; [change (qn 0) with 0; ring|]. rewrite IH, qn_S. ring. Qed.

(* one bin receives the first sample *)
Lemma bump (b m : nat) (x : Qc) (g : nat -> Qc) : (b < m)%nat -> lsum (map (fun k => if (b =? k)%nat then x + g k else g k) (seq 0 m)) = x + lsum (map g (seq 0 m)).
Proof.
  intros H. replace (map (fun k => if (b =? k)%nat then x + g k else g k) (seq 0 m)) with (map (fun k => (if (b =? k)%nat then x else 0) + g k) (seq 0 m)) by (apply map_ext; intros k; destruct (b =? k)%nat; ring).
  rewrite lsum_add. f_equal. clear g. revert b H. induction m as [|m IH]; intros b H; [lia|]. rewrite seq_S, map_app, lsum_app. cbn [map lsum plus].
  destruct (Nat.eq_dec b m) as [->|N].
  - rewrite Nat.eqb_refl. rewrite lsum_zero; [ring|]. intros k K. apply in_seq in K. destruct (Nat.eqb_spec m k); [lia|reflexivity].
  - rewrite IH by lia. destruct (Nat.eqb_spec b m); [lia|ring].
Qed.
Lemma split_bins (f : Qc * Qc -> Qc) m l : (forall p, In p l -> (bin p < m)%nat) -> lsum (map f l) = lsum (map (fun k => lsum (map f (in_bin k l))) (seq 0 m)).
Proof.
  induction l as [|p l IH]; intros H.
  - cbn. symmetry. now apply lsum_zero.
  - cbn [map lsum]. rewrite IH by (intros; apply H; now right). rewrite <- (bump (bin p) m (f p)) by (apply H; now left). f_equal. apply map_ext. intros k. unfold in_bin. cbn [filter]. destruct (bin p =? k)%nat; reflexivity.
Qed.
Lemma bin_lt p l : In p l -> (bin p < nbins l)%nat.
Proof.
  intros H. unfold nbins. destruct l as [|q l]; [contradiction|]. apply Nat.lt_succ_r.
  pose proof (proj1 (list_max_le (map bin (q :: l)) (list_max (map bin (q :: l)))) (Nat.le_refl _)) as F. rewrite Forall_forall in F. apply F. now apply in_map.
Qed.
Lemma in_bin_in k l p : In p (in_bin k l) <-> In p l /\ bin p = k.
Proof. unfold in_bin. rewrite filter_In, Nat.eqb_eq. reflexivity. Qed.

Definition count k l := length (in_bin k l).
Lemma valid_in k l : In k (valid_bins l) <-> (0 < count k l)%nat.
Proof.
  unfold valid_bins, count. rewrite filter_In, Nat.ltb_lt, in_seq. split; [tauto|]. intros H. split; [|exact H]. split; [lia|].
  destruct (in_bin k l) as [|p r] eqn:E; [cbn in H; lia|]. assert (I : In p (in_bin k l)) by (rewrite E; now left). apply in_bin_in in I as [I <-]. cbn [plus]. now apply bin_lt.
Qed.
Lemma filter_seq_sorted (P : nat -> bool) n : forall s, StronglySorted lt (filter P (seq s n)).
Proof.
  induction n as [|n IH]; intros s; cbn [seq filter]; [constructor|]. destruct (P s); [|apply IH]. constructor; [apply IH|]. apply Forall_forall. intros k K. apply filter_In in K as [K _]. apply in_seq in K. lia.
Qed.
Lemma valid_sorted l : StronglySorted lt (valid_bins l).
Proof. apply filter_seq_sorted. Qed.
(* sums over the bins that have pixels *)
Lemma valid_total (f : Qc * Qc -> Qc) l : lsum (map (fun k => lsum (map f (in_bin k l))) (valid_bins l)) = lsum (map f l).
Proof.
  unfold valid_bins. rewrite lsum_drop; [symmetry; exact (split_bins f _ l (fun p => bin_lt p l))|]. intros k K. apply Nat.ltb_ge in K. destruct (in_bin k l); [reflexivity|cbn in K; lia].
Qed.
Lemma valid_partial (f : Qc * Qc -> Qc) b l : lsum (map (fun k => lsum (map f (in_bin k l))) (filter (fun k => (k <=? b)%nat) (valid_bins l))) = lsum (map (fun p => if (bin p <=? b)%nat then f p else 0) l).
Proof.
  rewrite lsum_filter. rewrite <- (valid_total (fun p => if (bin p <=? b)%nat then f p else 0)). f_equal. apply map_ext. intros k.
  destruct (k <=? b)%nat eqn:E.
  - f_equal. apply map_ext_in. intros p P. apply in_bin_in in P as [_ ->]. now rewrite E.
  - symmetry. apply lsum_zero. intros p P. apply in_bin_in in P as [_ ->]. now rewrite E.
Qed.

(* the samples as sums over pixels *)
Definition centre (n : nat) (c : option Qc) : Qc := match c with Some c => c | None => qn n / two end.
Lemma lsum_seq (f : nat -> Qc) n : lsum (map f (seq 0 n)) = qsum n f.
Proof. unfold qsum. induction n as [|n IH]; [reflexivity|]. rewrite seq_S, map_app, lsum_app, IH. cbn [map lsum plus sumn]. change (@add qc) with Qcplus. ring. Qed.
Lemma lsum_flat {T} (f : T -> list Qc) l : lsum (flat_map f l) = lsum (map (fun x => lsum (f x)) l).
Proof. induction l as [|x l IH]; cbn [flat_map map lsum]; [reflexivity|]. now rewrite lsum_app, IH. Qed.
Lemma map_flat {T U V} (g : U -> V) (f : T -> list U) l : map g (flat_map f l) = flat_map (fun x => map g (f x)) l.
Proof. induction l as [|x l IH]; cbn [flat_map map]; [reflexivity|]. now rewrite map_app, IH. Qed.
Definition dist_of root h w cy cx (i j : nat) : Qc := distance root (centre h cy) (centre w cx) i j.
Lemma samples_eq root h w img cy cx : samples root h w img cy cx = flat_map (fun i => map (fun j => (dist_of root h w cy cx i j, img i j)) (seq 0 w)) (seq 0 h).
Proof. reflexivity. Qed.
Lemma samples_sum root h w img cy cx (f : Qc * Qc -> Qc) : lsum (map f (samples root h w img cy cx)) = flux h w (fun i j => f (dist_of root h w cy cx i j, img i j)).
Proof.
  rewrite samples_eq, map_flat, lsum_flat, lsum_seq. unfold flux. apply (SumLemmas.sumn_ext (A:=qc)). intros i I. rewrite map_map. apply lsum_seq.
Qed.
Lemma samples_in root h w img cy cx p : In p (samples root h w img cy cx) <-> exists i j, (i < h)%nat /\ (j < w)%nat /\ p = (dist_of root h w cy cx i j, img i j).
Proof.
  rewrite samples_eq, in_flat_map. split.
  - intros [i [I P]]. apply in_map_iff in P as [j [<- J]]. apply in_seq in I, J. exists i, j. repeat split; lia.
  - intros [i [j [I [J ->]]]]. exists i. split; [apply in_seq; lia|]. apply in_map_iff. exists j. split; [reflexivity|apply in_seq; lia].
Qed.
Lemma flat_length {T U} (f : T -> list U) w l : (forall x, length (f x) = w) -> length (flat_map f l) = (length l * w)%nat.
Proof. intros H. induction l as [|x l IH]; cbn [flat_map length mult]; [reflexivity|]. now rewrite app_length, H, IH. Qed.
Lemma samples_length root h w img cy cx : length (samples root h w img cy cx) = (h * w)%nat.
Proof. rewrite samples_eq, (flat_length _ w), seq_length; [reflexivity|]. intros i. now rewrite map_length, seq_length. Qed.

(* cumulated sums *)
Lemma cumsum_nth l : forall acc t, (t < length l)%nat -> nth t (cumsum acc l) 0 = acc + lsum (firstn (S t) l).
Proof.
  induction l as [|x l IH]; intros acc t H; [cbn in H; lia|]. cbn [cumsum]. destruct t as [|t]; [cbn; ring|]. cbn [nth]. rewrite IH by (cbn in H; lia). cbn [firstn lsum]. ring.
Qed.
Lemma cumsum_length l : forall acc, length (cumsum acc l) = length l.
Proof. induction l as [|x l IH]; intros acc; cbn; [reflexivity|]. now rewrite IH. Qed.
Lemma last_nth {T} (l : list T) d : last l d = nth (length l - 1) l d.
Proof. induction l as [|x [|y l] IH]; [reflexivity|reflexivity|]. change (last (x :: y :: l) d) with (last (y :: l) d). rewrite IH. cbn [length]. replace (S (S (length l)) - 1)%nat with (S (S (length l) - 1)) by lia. reflexivity. Qed.
Lemma cumsum_last l : last (cumsum 0 l) 0 = lsum l.
Proof.
  destruct l as [|x l]; [reflexivity|]. rewrite last_nth, cumsum_length. rewrite cumsum_nth by (cbn; lia). replace (S (length (x :: l) - 1)) with (length (x :: l)) by (cbn; lia). rewrite firstn_all. ring.
Qed.
Lemma filter_none {T} (P : T -> bool) l : (forall x, In x l -> P x = false) -> filter P l = [].
Proof. induction l as [|x l IH]; intros H; cbn [filter]; [reflexivity|]. rewrite (H x) by now left. apply IH. intros; apply H; now right. Qed.
Lemma firstn_le (l : list nat) : StronglySorted lt l -> forall t, (t < length l)%nat -> firstn (S t) l = filter (fun k => (k <=? nth t l 0%nat)%nat) l.
Proof.
  induction 1 as [|x l Hl IH F]; intros t H; [cbn in H; lia|]. rewrite Forall_forall in F. destruct t as [|t]; cbn [nth filter].
  - rewrite Nat.leb_refl. cbn [firstn]. f_equal. symmetry. apply filter_none. intros y Y. apply F in Y. apply Nat.leb_gt. exact Y.
  - cbn in H. assert (I : In (nth t l 0%nat) l) by (apply nth_In; lia). apply F in I. destruct (Nat.leb_spec x (nth t l 0%nat)); [|lia]. change (firstn (S (S t)) (x :: l)) with (x :: firstn (S t) l). f_equal. apply IH. lia.
Qed.
Lemma firstn_map' {T U} (f : T -> U) n l : firstn n (map f l) = map f (firstn n l).
Proof. revert l. induction n as [|n IH]; intros [|x l]; cbn; try reflexivity. now rewrite IH. Qed.

(* ------------------------------------------------------------------- profile of a list of samples *)
Lemma qdivmul a b : b <> 0 -> a / b * b = a.
Proof. intros. field. assumption. Qed.
Lemma mean_times l : (0 < length l)%nat -> mean l * qn (length l) = lsum l.
Proof. intros H. unfold mean. apply qdivmul, qn_nz, H. Qed.
Lemma times_map {T} (f g : T -> Qc) l : times (map f l) (map g l) = map (fun x => f x * g x) l.
Proof. unfold times. induction l as [|x l IH]; cbn [map combine]; [reflexivity|]. f_equal. exact IH. Qed.
Lemma energy_bins l : times (map (fun k => mean (map snd (in_bin k l))) (valid_bins l)) (map qn (map (fun k => length (in_bin k l)) (valid_bins l))) = map (fun k => lsum (map snd (in_bin k l))) (valid_bins l).
Proof.
  rewrite map_map, times_map. apply map_ext_in. intros k K. apply valid_in in K. unfold count in K. rewrite <- (map_length snd). apply mean_times. now rewrite map_length.
Qed.
Lemma mean_bounds {T} (f : T -> Qc) l a b : (0 < length l)%nat -> (forall x, In x l -> a <= f x /\ f x <= b) -> a <= mean (map f l) /\ mean (map f l) <= b.
Proof.
  intros L H. pose proof (lsum_le (fun _ => a) f l (fun x X => proj1 (H x X))) as A. pose proof (lsum_le f (fun _ => b) l (fun x X => proj2 (H x X))) as B. rewrite lsum_const in A, B.
  assert (P : 0 < qn (length l)) by (rewrite qn_qnat; now apply qnat_pos). assert (N := nz_pos _ P). unfold mean. rewrite map_length. set (n := qn (length l)) in *. set (s := lsum (map f l)) in *.
  assert (E : s / n * n = s) by now apply qdivmul. rewrite <- E in A, B. unfold Qcle, Qclt in *. rewrite !this_mul in A, B. change (this 0) with 0%Q in *. split; nra.
Qed.
Lemma mean_upper {T} (f : T -> Qc) l a b : (0 < length l)%nat -> (forall x, In x l -> a <= f x /\ f x < b) -> a <= mean (map f l) /\ mean (map f l) < b.
Proof.
  intros L H. split; [apply (mean_bounds f l a b L); intros x X; split; [now apply H|apply Qclt_le_weak; now apply H]|].
  assert (M : exists m, m < b /\ forall x, In x l -> f x <= m).
  { clear L. induction l as [|x l IH]; [exists (b - 1); split; [qclra|contradiction]|]. destruct IH as [m [A B]]; [intros; apply H; now right|]. assert (X := proj2 (H x (or_introl eq_refl))).
    exists (qmax m (f x)). unfold qmax. destruct (qlt m (f x)) eqn:E; (split; [assumption|]); intros y [<-|Y].
    - apply Qcle_refl.
    - specialize (B y Y). qclra.
    - qclra.
    - now apply B. }
  destruct M as [m [A B]]. apply Qcle_lt_trans with m; [|exact A]. apply (mean_bounds f l a m L). intros x X. split; [now apply H|now apply B].
Qed.

(* floors of distances *)
Lemma bin_spec p k : 0 <= fst p -> (bin p = k <-> qn k <= fst p /\ fst p < qn (S k)).
Proof.
  intros H. unfold bin. assert (F := qfloor_le (fst p)). assert (G := qfloor_lt (fst p)). assert (P : (0 <= qfloor (fst p))%Z).
  { apply Z.lt_succ_r. rewrite Zlt_Qlt. unfold Qcle in H. change (this 0) with 0%Q in H. unfold Z.succ. rewrite inject_Z_plus. change (inject_Z 0) with 0%Q. change (inject_Z 1) with 1%Q. lra. }
  unfold Qcle, Qclt. rewrite qn_S, this_add. unfold qn. rewrite this_q. change (this 1) with 1%Q. split.
  - intros <-. rewrite Z2Nat.id by exact P. split; lra.
  - intros [A B]. assert (C : (qfloor (fst p) < Z.of_nat k + 1)%Z) by (rewrite Zlt_Qlt; rewrite inject_Z_plus; change (inject_Z 1) with 1%Q; lra).
    assert (D : (Z.of_nat k < qfloor (fst p) + 1)%Z) by (rewrite Zlt_Qlt; rewrite inject_Z_plus; change (inject_Z 1) with 1%Q; lra). lia.
Qed.
Lemma qn_le a b : (a <= b)%nat -> qn a <= qn b.
Proof. intros H. unfold Qcle, qn. rewrite !this_q. rewrite <- Zle_Qle. lia. Qed.
Lemma bin_le p b : 0 <= fst p -> (bin p <=? b)%nat = qlt (fst p) (qn (S b)).
Proof.
  intros H. destruct (proj1 (bin_spec p (bin p) H) eq_refl) as [A B]. apply eq_true_iff_eq. rewrite Nat.leb_le, qlt_true. split.
  - intros L. assert (Q := qn_le (S (bin p)) (S b) ltac:(lia)). unfold Qclt, Qcle in *. lra.
  - intros L. destruct (Nat.le_gt_cases (bin p) b) as [C|C]; [exact C|]. exfalso. assert (Q := qn_le (S b) (bin p) ltac:(lia)). unfold Qclt, Qcle in *. lra.
Qed.

(* ------------------------------------------------------------------- rings *)
Lemma flux_ext h w f g : (forall i j, (i < h)%nat -> (j < w)%nat -> f i j = g i j) -> flux h w f = flux h w g.
Proof. intros H. unfold flux, qsum. apply (SumLemmas.sumn_ext (A:=qc)). intros i I. apply (SumLemmas.sumn_ext (A:=qc)). intros j J. now apply H. Qed.
Lemma ring_bin root h w cy cx k v (x : Qc) i j : (forall x, 0 <= root x) ->
  (if (bin (dist_of root h w cy cx i j, v) =? k)%nat then x else 0) = ring (dist_of root h w cy cx) k (fun _ _ => x) i j.
Proof.
  intros R. unfold ring. assert (P : 0 <= fst (dist_of root h w cy cx i j, v)) by (cbn [fst]; apply R). assert (B := bin_spec _ k P). cbn [fst] in *. rewrite !qn_qnat in B.
  destruct (Nat.eqb_spec (bin (dist_of root h w cy cx i j, v)) k) as [E|E].
  - apply B in E as [A C]. destruct (Qclt_le_dec _ _) as [L|L]; [exfalso; exact (Qcle_not_lt _ _ A L)|]. destruct (Qclt_le_dec _ _) as [M|M]; [reflexivity|exfalso; exact (Qcle_not_lt _ _ M C)].
  - destruct (Qclt_le_dec _ _) as [L|L]; [reflexivity|]. destruct (Qclt_le_dec _ _) as [M|M]; [exfalso; apply E, B; split; assumption|reflexivity].
Qed.
Lemma bin_sum root h w img cy cx k (f : Qc * Qc -> Qc) : (forall x, 0 <= root x) ->
  lsum (map f (in_bin k (samples root h w img cy cx))) = flux h w (ring (dist_of root h w cy cx) k (fun i j => f (dist_of root h w cy cx i j, img i j))).
Proof.
  intros R. unfold in_bin. rewrite lsum_filter, samples_sum. apply flux_ext. intros i j I J. now rewrite ring_bin.
Qed.
Lemma bin_count root h w img cy cx k : (forall x, 0 <= root x) -> qn (count k (samples root h w img cy cx)) = flux h w (ring (dist_of root h w cy cx) k (fun _ _ => 1)).
Proof. intros R. rewrite <- (bin_sum root h w img cy cx k (fun _ => 1) R), lsum_const. unfold count. ring. Qed.

Lemma nth_map {T U} (f : T -> U) l t d d' : (t < length l)%nat -> nth t (map f l) d' = f (nth t l d).
Proof. revert t. induction l as [|x l IH]; intros [|t] H; cbn in *; try lia; [reflexivity|]. apply IH. lia. Qed.
Lemma sorted_nth l : StronglySorted lt l -> forall s t, (s < t)%nat -> (t < length l)%nat -> (nth s l 0 < nth t l 0)%nat.
Proof.
  induction 1 as [|x l Hl IH F]; intros s t S L; [cbn in L; lia|]. rewrite Forall_forall in F. destruct t as [|t]; [lia|]. cbn in L. destruct s as [|s]; cbn [nth]; [apply F, nth_In; lia|apply IH; lia].
Qed.

(* what does not depend on the image *)
Lemma filter_map_comm {T U} (f : T -> U) (P : U -> bool) l : filter P (map f l) = map f (filter (fun x => P (f x)) l).
Proof. induction l as [|x l IH]; cbn [map filter]; [reflexivity|]. destruct (P (f x)); cbn [map]; now rewrite IH. Qed.
Definition pixels (h w : nat) : list (nat * nat) := flat_map (fun i => map (fun j => (i, j)) (seq 0 w)) (seq 0 h).
Lemma samples_pixels root h w img cy cx : samples root h w img cy cx = map (fun x => (dist_of root h w cy cx (fst x) (snd x), img (fst x) (snd x))) (pixels h w).
Proof. rewrite samples_eq. unfold pixels. rewrite map_flat. apply flat_map_ext. intros i. rewrite map_map. reflexivity. Qed.
Definition pix_bin root h w cy cx (k : nat) : list (nat * nat) := filter (fun x => (Z.to_nat (qfloor (dist_of root h w cy cx (fst x) (snd x))) =? k)%nat) (pixels h w).
Lemma bin_pixels root h w img cy cx k : in_bin k (samples root h w img cy cx) = map (fun x => (dist_of root h w cy cx (fst x) (snd x), img (fst x) (snd x))) (pix_bin root h w cy cx k).
Proof. unfold in_bin. rewrite samples_pixels, filter_map_comm. reflexivity. Qed.
Lemma count_shape root h w f g cy cx k : length (in_bin k (samples root h w f cy cx)) = length (in_bin k (samples root h w g cy cx)).
Proof. now rewrite !bin_pixels, !map_length. Qed.
Lemma dist_shape root h w f g cy cx k : map fst (in_bin k (samples root h w f cy cx)) = map fst (in_bin k (samples root h w g cy cx)).
Proof. now rewrite !bin_pixels, !map_map. Qed.
Lemma nbins_shape root h w f g cy cx : nbins (samples root h w f cy cx) = nbins (samples root h w g cy cx).
Proof. rewrite !samples_pixels. unfold nbins. destruct (pixels h w) as [|x r]; [reflexivity|]. cbn [map]. f_equal. f_equal. cbn [map]. f_equal. now rewrite !map_map. Qed.
Lemma valid_shape root h w f g cy cx : valid_bins (samples root h w f cy cx) = valid_bins (samples root h w g cy cx).
Proof. unfold valid_bins. rewrite (nbins_shape root h w f g). apply filter_ext. intros k. now rewrite (count_shape root h w f g). Qed.
Lemma sum_linear root h w f g cy cx a b k : lsum (map snd (in_bin k (samples root h w (fun i j => a * f i j + b * g i j) cy cx))) = a * lsum (map snd (in_bin k (samples root h w f cy cx))) + b * lsum (map snd (in_bin k (samples root h w g cy cx))).
Proof. rewrite !bin_pixels, !map_map. cbn [snd]. rewrite lsum_add, !lsum_scale. reflexivity. Qed.
Lemma combine_map {T U V} (f : T -> U) (g : T -> V) l : combine (map f l) (map g l) = map (fun x => (f x, g x)) l.
Proof. induction l as [|x l IH]; cbn [map combine]; [reflexivity|]. now rewrite IH. Qed.

(* ------------------------------------------------------------------- encircled energy *)
Lemma firstn_mono (l : list Qc) t : (forall x, In x l -> 0 <= x) -> lsum (firstn t l) <= lsum (firstn (S t) l).
Proof.
  revert t. induction l as [|x l IH]; intros t H; [rewrite !firstn_nil; apply Qcle_refl|]. destruct t as [|t].
  - cbn. assert (P := H x (or_introl eq_refl)). qclra.
  - change (firstn (S (S t)) (x :: l)) with (x :: firstn (S t) l). change (firstn (S t) (x :: l)) with (x :: firstn t l). cbn [lsum]. assert (Q := IH t (fun y Y => H y (or_intror Y))). qclra.
Qed.
Lemma firstn_bounds (l : list Qc) t : (forall x, In x l -> 0 <= x) -> 0 <= lsum (firstn t l) /\ lsum (firstn t l) <= lsum l.
Proof.
  intros H. rewrite <- (firstn_skipn t l) in H. rewrite <- (firstn_skipn t l) at 3. rewrite lsum_app.
  assert (A := lsum_ge (fun x => x) (firstn t l) (fun x X => H x (in_or_app _ _ _ (or_introl X)))). assert (B := lsum_ge (fun x => x) (skipn t l) (fun x X => H x (in_or_app _ _ _ (or_intror X)))). rewrite map_id in A, B. split; [exact A|qclra].
Qed.
Lemma accumulate_length norm e : length (accumulate norm e) = length e.
Proof. unfold accumulate. destruct norm; [destruct (Qc_eq_dec _ _)|]; rewrite ?map_length; apply cumsum_length. Qed.
Lemma accumulate_nth norm e t : (t < length e)%nat -> nth t (accumulate norm e) 0 = if norm then (if Qc_eq_dec (lsum e) 0 then lsum (firstn (S t) e) else lsum (firstn (S t) e) / lsum e) else lsum (firstn (S t) e).
Proof.
  intros H. unfold accumulate. assert (C : nth t (cumsum 0 e) 0 = lsum (firstn (S t) e)) by (rewrite cumsum_nth by exact H; ring). rewrite cumsum_last. destruct norm; [|exact C]. destruct (Qc_eq_dec (lsum e) 0); [exact C|].
  rewrite (nth_map _ _ _ 0) by now rewrite cumsum_length. now rewrite C.
Qed.
Lemma div_le a b c : 0 < c -> (a / c <= b / c <-> a <= b).
Proof.
  intros C. assert (N := nz_pos _ C). assert (A := qdivmul a c N). assert (B := qdivmul b c N). set (x := a / c) in *. set (y := b / c) in *. clearbody x y. subst a b. unfold Qcle, Qclt in *. rewrite !this_mul. change (this 0) with 0%Q in *. split; intros; nra.
Qed.
Lemma Qcmult_le_0_compat' a b : 0 <= a -> 0 <= b -> 0 <= a * b.
Proof. unfold Qcle. rewrite this_mul. change (this 0) with 0%Q. intros. nra. Qed.
(* positive energies: the curve rises from 0 to 1 *)
Lemma curve_rises e : (forall x, In x e -> 0 <= x) -> lsum e <> 0 -> ascending (accumulate true e) /\ last (accumulate true e) 0 = 1 /\ (forall x, In x (accumulate true e) -> 0 <= x /\ x <= 1).
Proof.
  intros H T. assert (P : 0 < lsum e). { destruct (firstn_bounds e 0 H) as [_ A]. cbn in A. apply Qcle_lt_or_eq in A as [A|A]; [exact A|]. exfalso. apply T. now symmetry. }
  assert (V : forall t, (t < length e)%nat -> nth t (accumulate true e) 0 = lsum (firstn (S t) e) / lsum e).
  { intros t L. rewrite accumulate_nth by exact L. destruct (Qc_eq_dec (lsum e) 0); [contradiction|reflexivity]. }
  split; [|split].
  - intros t L. rewrite accumulate_length in L. rewrite !V by lia. apply div_le; [exact P|]. apply firstn_mono. exact H.
  - rewrite last_nth, accumulate_length. assert (L : (0 < length e)%nat) by (destruct e; [contradiction T; reflexivity|cbn; lia]). rewrite V by lia. replace (S (length e - 1)) with (length e) by lia. rewrite firstn_all. field. exact T.
  - intros x X. apply (In_nth _ _ 0) in X as [t [L <-]]. rewrite accumulate_length in L. rewrite V by exact L. destruct (firstn_bounds e (S t) H) as [A B].
    split; [replace 0 with (0 / lsum e) by (field; exact T)|replace 1 with (lsum e / lsum e) by (field; exact T)]; apply div_le; assumption.
Qed.
Lemma accumulate_scale c e : c <> 0 -> lsum e <> 0 -> accumulate true (map (fun x => c * x) e) = accumulate true e.
Proof.
  intros C T. assert (S : forall l, lsum (map (fun x => c * x) l) = c * lsum l) by (intros l; rewrite (lsum_scale c (fun x => x)), map_id; reflexivity).
  apply (nth_ext _ _ 0 0); [now rewrite !accumulate_length, map_length|]. intros t L. rewrite accumulate_length, map_length in L. rewrite !accumulate_nth by (rewrite ?map_length; exact L). rewrite firstn_map', !S.
  destruct (Qc_eq_dec (c * lsum e) 0) as [Z|Z]; [exfalso; apply Qcmult_integral in Z as [Z|Z]; contradiction|]. destruct (Qc_eq_dec (lsum e) 0); [contradiction|]. field. split; assumption.
Qed.

(* ------------------------------------------------------------------- areas of annuli *)
Lemma qmax_r a b : b <= a -> qmax a b = a.
Proof. intros H. unfold qmax. destruct (qlt a b) eqn:E; [exfalso; qclra|reflexivity]. Qed.
Lemma sq_mono a b : 0 <= a -> a <= b -> 0 <= b * b - a * a.
Proof. unfold Qcle. rewrite this_sub, !this_mul. change (this 0) with 0%Q. intros. nra. Qed.
Lemma telescope l : forall a t, 0 <= a -> (forall i, (S i < length (a :: l))%nat -> nth i (a :: l) 0 <= nth (S i) (a :: l) 0) -> (t < length l)%nat ->
  lsum (firstn (S t) (map (fun p => qmax (fst p * fst p - snd p * snd p) 0) (combine l (a :: l)))) = nth t l 0 * nth t l 0 - a * a.
Proof.
  induction l as [|x l IH]; intros a t A H T; [cbn in T; lia|]. assert (X : a <= x) by (apply (H 0%nat); cbn; lia).
  change (combine (x :: l) (a :: x :: l)) with ((x, a) :: combine l (x :: l)). cbn [map firstn lsum fst snd]. rewrite qmax_r by now apply sq_mono.
  destruct t as [|t]; [cbn; ring|]. rewrite IH.
  - cbn [nth]. ring.
  - apply Qcle_trans with a; assumption.
  - intros i I. apply (H (S i)). cbn in *. lia.
  - cbn in T. lia.
Qed.
Lemma combine_snoc {T} (m : list T) x : forall a, combine (m ++ [x]) (a :: m) = combine (m ++ [x]) (a :: m ++ [x]).
Proof. induction m as [|y m IH]; intros a; [reflexivity|]. cbn [app combine]. f_equal. apply IH. Qed.
Lemma midpoints_length r : length (midpoints r) = (length r - 1)%nat.
Proof. induction r as [|a [|b r] IH]; [reflexivity|reflexivity|]. change (midpoints (a :: b :: r)) with ((b + a) / two :: midpoints (b :: r)). cbn [length] in *. rewrite IH. lia. Qed.
Lemma midpoints_nth r : forall i, (S i < length r)%nat -> nth i (midpoints r) 0 = (nth (S i) r 0 + nth i r 0) / two.
Proof.
  induction r as [|a [|b r] IH]; intros i I; [cbn in I; lia|cbn in I; lia|]. change (midpoints (a :: b :: r)) with ((b + a) / two :: midpoints (b :: r)). destruct i as [|i]; [reflexivity|]. change (nth (S i) ((b + a) / two :: midpoints (b :: r)) 0) with (nth i (midpoints (b :: r)) 0). rewrite IH; [reflexivity|]. cbn in *. lia.
Qed.
(* the outer radius of a bin *)
Definition outer_radius (r : list Qc) (t : nat) : Qc := if (S t <? length r)%nat then (nth (S t) r 0 + nth t r 0) / two else nth t r 0 + (nth t r 0 - nth (t - 1) r 0) / two.
Lemma two_nz : two <> 0. Proof. discriminate. Qed.
Lemma outer_nth r t : (2 <= length r)%nat -> (t < length r)%nat -> nth t (midpoints r ++ [outer_last r]) 0 = outer_radius r t.
Proof.
  intros L T. unfold outer_radius. destruct (Nat.ltb_spec (S t) (length r)) as [H|H].
  - rewrite app_nth1 by (rewrite midpoints_length; lia). now apply midpoints_nth.
  - rewrite app_nth2 by (rewrite midpoints_length; lia). rewrite midpoints_length. replace (t - (length r - 1))%nat with 0%nat by lia. cbn [nth]. unfold outer_last. rewrite !last_nth, midpoints_length. replace (length r - 1)%nat with t by lia.
    rewrite midpoints_nth by lia. replace (S (t - 1)) with t by lia. unfold two. field. exact two_nz.
Qed.
Lemma this_half x : (this (x / two) == this x * (1 # 2))%Q.
Proof. rewrite this_div. change (this two) with 2%Q. field. Qed.
Lemma half_le a b c : a <= b -> b <= c -> a <= (c + b) / two /\ (b + a) / two <= (c + b) / two.
Proof.
  intros A B. assert (E := this_half). unfold Qcle in *. rewrite !E, !this_add. split; lra.
Qed.
Lemma annulus_area r t : (2 <= length r)%nat -> increasing r -> 0 <= nth 0 r 0 -> (t < length r)%nat -> lsum (firstn (S t) (annulus r)) = outer_radius r t * outer_radius r t.
Proof.
  intros L I P T. unfold annulus. rewrite combine_snoc, telescope.
  - rewrite outer_nth by assumption. ring.
  - apply Qcle_refl.
  - intros i H. cbn [length] in H. rewrite app_length, midpoints_length in H. cbn [length] in H.
    assert (W : forall j, (S j < length r)%nat -> nth j r 0 <= nth (S j) r 0) by (intros j J; apply Qclt_le_weak, I, J).
    assert (HH : forall j, (S (S j) < length r)%nat -> outer_radius r j <= outer_radius r (S j)).
    { intros j J. unfold outer_radius. replace (S j <? length r)%nat with true by (symmetry; apply Nat.ltb_lt; lia). replace (S (S j) <? length r)%nat with true by (symmetry; apply Nat.ltb_lt; lia). apply half_le; apply W; lia. }
    assert (E := this_half).
    destruct i as [|i].
    + cbn [nth]. rewrite outer_nth by lia. unfold outer_radius. replace (1 <? length r)%nat with true by (symmetry; apply Nat.ltb_lt; lia). specialize (W 0%nat ltac:(lia)). unfold Qcle in *. rewrite E, this_add. change (this 0) with 0%Q in *. lra.
    + cbn [nth]. rewrite !outer_nth by lia. destruct (Nat.lt_ge_cases (S (S i)) (length r)) as [J|J]; [now apply HH|].
      unfold outer_radius. replace (S i <? length r)%nat with true by (symmetry; apply Nat.ltb_lt; lia). replace (S (S i) <? length r)%nat with false by (symmetry; apply Nat.ltb_ge; lia). replace (S i - 1)%nat with i by lia. specialize (W i ltac:(lia)). unfold Qcle in *. rewrite this_add, !E, this_add, this_sub. lra.
  - rewrite app_length, midpoints_length. cbn. lia.
Qed.
Lemma annulus_length r : (1 <= length r)%nat -> length (annulus r) = length r.
Proof. intros L. unfold annulus. rewrite map_length, combine_length, app_length. cbn [length]. rewrite midpoints_length. lia. Qed.
Lemma times_const c n : forall l, length l = n -> times (repeat c n) l = map (fun x => c * x) l.
Proof. induction n as [|n IH]; intros [|x l] H; try discriminate; [reflexivity|]. cbn [repeat]. unfold times in *. cbn [combine map fst snd]. f_equal. apply IH. cbn in H. lia. Qed.

(* ------------------------------------------------------------------- lookup in a curve *)
Lemma increasing_tail a r : increasing (a :: r) -> increasing r.
Proof. intros I i H. apply (I (S i)). cbn. lia. Qed.
Lemma increasing_lt r : increasing r -> forall i j, (i < j)%nat -> (j < length r)%nat -> nth i r 0 < nth j r 0.
Proof.
  intros I i j L. induction L as [|j L IH]; intros J; [now apply I|]. apply Qclt_trans with (nth j r 0); [apply IH; lia|now apply I].
Qed.
Lemma search_at r d : forall i, (i < length r)%nat -> d <= nth i r 0 -> (forall j, (j < i)%nat -> nth j r 0 < d) -> searchsorted r d = i.
Proof.
  induction r as [|a r IH]; intros i L A B; [cbn in L; lia|]. cbn [searchsorted]. destruct i as [|i].
  - cbn in A. destruct (qlt a d) eqn:E; [exfalso; qclra|reflexivity].
  - assert (X := B 0%nat ltac:(lia)). cbn in X. destruct (qlt a d) eqn:E; [|exfalso; qclra]. f_equal. apply IH; [cbn in L; lia|exact A|]. intros j J. apply (B (S j)). lia.
Qed.
Lemma energy_inside ee r d i : length ee = length r -> increasing r -> (S i < length r)%nat -> nth i r 0 <= d -> d <= nth (S i) r 0 ->
  energy_at ee r d = Ok (Some (nth i ee 0 + (d - nth i r 0) * (nth (S i) ee 0 - nth i ee 0) / (nth (S i) r 0 - nth i r 0))).
Proof.
  intros E I L A B. unfold energy_at. rewrite E, Nat.eqb_refl. destruct (Nat.eqb_spec (length r) 0) as [Z|Z]; [lia|]. cbn [negb]. f_equal. f_equal. set (n := length r) in *.
  assert (G := I i L). assert (N : nth (S i) r 0 - nth i r 0 <> 0) by (apply nz_pos; qclra).
  destruct (Qc_eq_dec d (nth i r 0)) as [Ed|Nd].
  - (* at the left point *)
    subst d. replace (nth i r 0 - nth i r 0) with 0 by ring. replace (nth i ee 0 + 0 * (nth (S i) ee 0 - nth i ee 0) / (nth (S i) r 0 - nth i r 0)) with (nth i ee 0) by (field; exact N).
    assert (Q : nth i r 0 < nth (n - 1) r 0) by (apply (increasing_lt r I); unfold n in *; lia). replace (qlt (nth i r 0) (nth (n - 1) r 0)) with true by (symmetry; apply qlt_true; exact Q). cbn [negb].
    rewrite (search_at r (nth i r 0) i) by (unfold n in *; try lia; try apply Qcle_refl; intros j J; apply (increasing_lt r I); lia).
    unfold clip. destruct i as [|i].
    + replace (qlt (nth 0 r 0) (nth 0 r 0)) with false by (symmetry; apply qlt_false; apply Qle_refl). reflexivity.
    + assert (Q0 : nth 0 r 0 < nth (S i) r 0) by (apply (increasing_lt r I); unfold n in *; lia). replace (qlt (nth 0 r 0) (nth (S i) r 0)) with true by (symmetry; apply qlt_true; exact Q0). cbn [negb].
      replace (Nat.min (Nat.max 0 (S i)) (n - 1)) with (S i) by lia. replace (Nat.min (Nat.max 1 (S i)) (n - 1)) with (S i) by lia. replace (S i - 1)%nat with i by lia. replace ((0 <? S i) && (S i <? n))%nat with true by (symmetry; apply andb_true_intro; split; apply Nat.ltb_lt; lia).
      assert (G' := I i ltac:(unfold n in *; lia)). assert (N' : nth (S i) r 0 - nth i r 0 <> 0) by (apply nz_pos; qclra). destruct (Qc_eq_dec _ 0) as [X|X]; [contradiction|]. cbn [negb andb]. field. exact N'.
  - assert (A' : nth i r 0 < d) by (apply Qcle_lt_or_eq in A as [A|A]; [exact A|symmetry in A; contradiction]).
    assert (Q0 : nth 0 r 0 < d). { destruct i as [|i]; [exact A'|]. apply Qclt_trans with (nth (S i) r 0); [apply (increasing_lt r I); unfold n in *; lia|exact A']. }
    replace (qlt (nth 0 r 0) d) with true by (symmetry; apply qlt_true; exact Q0). cbn [negb].
    assert (SS : searchsorted r d = S i).
    { apply search_at; [exact L|exact B|]. intros j J. apply Qcle_lt_trans with (nth i r 0); [|exact A']. destruct (Nat.eq_dec j i) as [->|]; [apply Qcle_refl|]. apply Qclt_le_weak, (increasing_lt r I); [lia|unfold n in L; lia]. }
    rewrite SS.
    unfold clip. replace (Nat.min (Nat.max 0 (S i)) (n - 1)) with (S i) by lia. replace (Nat.min (Nat.max 1 (S i)) (n - 1)) with (S i) by lia. replace (S i - 1)%nat with i by lia. replace ((0 <? S i) && (S i <? n))%nat with true by (symmetry; apply andb_true_intro; split; apply Nat.ltb_lt; lia).
    destruct (Qc_eq_dec _ 0) as [X|X]; [contradiction|]. cbn [negb andb]. destruct (qlt d (nth (n - 1) r 0)) eqn:Q; [reflexivity|]. cbn [negb].
    (* at the last point *)
    apply qlt_false in Q. assert (M : S i = (n - 1)%nat). { destruct (Nat.eq_dec (S i) (n - 1)) as [X1|X1]; [exact X1|]. exfalso. assert (Y := increasing_lt r I (S i) (n - 1)%nat ltac:(lia) ltac:(unfold n in *; lia)). unfold Qclt, Qcle in *. lra. }
    rewrite <- M in *. assert (D : d = nth (S i) r 0) by (apply Qcle_antisym; [exact B|exact Q]). rewrite D. field. exact N.
Qed.
Lemma energy_before ee r d : length ee = length r -> increasing r -> (0 < length r)%nat -> d <= nth 0 r 0 -> energy_at ee r d = Ok (Some (nth 0 ee 0)).
Proof.
  intros E I L A. unfold energy_at. rewrite E, Nat.eqb_refl. destruct (Nat.eqb_spec (length r) 0) as [Z|Z]; [lia|]. cbn [negb]. f_equal. f_equal.
  replace (qlt (nth 0 r 0) d) with false by (symmetry; apply qlt_false; exact A). cbn [negb]. destruct (qlt d _) eqn:Q; [reflexivity|]. cbn [negb]. apply qlt_false in Q.
  destruct (Nat.eq_dec (length r) 1) as [X|X]; [rewrite X; reflexivity|]. exfalso. assert (Y := increasing_lt r I 0 (length r - 1)%nat ltac:(lia) ltac:(lia)). unfold Qclt, Qcle in *. lra.
Qed.
Lemma energy_after ee r d : length ee = length r -> (0 < length r)%nat -> nth (length r - 1) r 0 <= d -> energy_at ee r d = Ok (Some (nth (length r - 1) ee 0)).
Proof.
  intros E L A. unfold energy_at. rewrite E, Nat.eqb_refl. destruct (Nat.eqb_spec (length r) 0) as [Z|Z]; [lia|]. cbn [negb]. f_equal. f_equal. replace (qlt d (nth (length r - 1) r 0)) with false by (symmetry; apply qlt_false; exact A). reflexivity.
Qed.
(* where a distance falls *)
Lemma locate r d : (0 < length r)%nat -> d <= nth 0 r 0 \/ nth (length r - 1) r 0 <= d \/ exists i, (S i < length r)%nat /\ nth i r 0 <= d /\ d <= nth (S i) r 0.
Proof.
  induction r as [|a r IH]; intros L; [cbn in L; lia|]. destruct (Qclt_le_dec a d) as [A|A]; [|left; exact A]. destruct r as [|b r]; [right; left; cbn; now apply Qclt_le_weak|].
  right. destruct (Qclt_le_dec b d) as [B|B].
  - destruct IH as [H|[H|[i [H1 [H2 H3]]]]]; [cbn; lia| | |].
    + exfalso. cbn in H. unfold Qclt, Qcle in *. lra.
    + left. cbn [length] in *. replace (S (S (length r)) - 1)%nat with (S (S (length r) - 1)) by lia. exact H.
    + right. exists (S i). split; [cbn in *; lia|]. split; assumption.
  - right. exists 0%nat. split; [cbn; lia|]. split; [now apply Qclt_le_weak|exact B].
Qed.

(* ------------------------------------------------------------------- width *)
Lemma lmax_peak l : l <> [] -> is_peak (lmax l) l.
Proof.
  destruct l as [|x l]; [congruence|]. intros _. destruct (fold_max l x) as [A [B C]]. split; [destruct A as [A|A]; [left; symmetry; exact A|right; exact A]|]. intros y [<-|Y]; [exact B|now apply C].
Qed.
Lemma peak_unique a b l : is_peak a l -> is_peak b l -> a = b.
Proof. intros [A B] [C D]. apply Qcle_antisym; [apply D, A|apply B, C]. Qed.
Lemma first_filter (P : nat -> bool) n : forall s, match filter P (seq s n) with [] => forall j, (s <= j < s + n)%nat -> P j = false
  | i :: _ => (s <= i < s + n)%nat /\ P i = true /\ forall j, (s <= j < i)%nat -> P j = false end.
Proof.
  induction n as [|n IH]; intros s; cbn [seq filter]; [intros; lia|]. specialize (IH (S s)). destruct (P s) eqn:E.
  - split; [lia|]. split; [exact E|]. intros; lia.
  - destruct (filter P (seq (S s) n)) as [|i l].
    + intros j J. destruct (Nat.eq_dec j s) as [->|]; [exact E|apply IH; lia].
    + destruct IH as [A [B C]]. split; [lia|]. split; [exact B|]. intros j J. destruct (Nat.eq_dec j s) as [->|]; [exact E|apply C; lia].
Qed.
Lemma filter_filter {T} (P Q : T -> bool) l : filter P (filter Q l) = filter (fun x => P x && Q x) l.
Proof. induction l as [|x l IH]; cbn [filter]; [reflexivity|]. destruct (Q x) eqn:E; cbn [filter]; [|rewrite andb_false_r; exact IH]. rewrite andb_true_r. destruct (P x); now rewrite IH. Qed.
Lemma lmax_scale c l : 0 < c -> lmax (map (fun x => c * x) l) = c * lmax l.
Proof.
  intros C. destruct l as [|x l]; [cbn; ring|]. apply (peak_unique _ _ (map (fun y => c * y) (x :: l))); [apply lmax_peak; discriminate|]. destruct (lmax_peak (x :: l)) as [A B]; [discriminate|]. split; [apply in_map_iff; eauto|].
  intros y Y. apply in_map_iff in Y as [z [<- Z]]. apply B in Z. unfold Qcle, Qclt in *. rewrite !this_mul. change (this 0) with 0%Q in *. nra.
Qed.
Lemma qlt_scale c a b : 0 < c -> qlt (c * a) (c * b) = qlt a b.
Proof. intros C. apply eq_true_iff_eq. rewrite !qlt_true. unfold Qclt in C. change (this 0) with 0%Q in C. rewrite !this_mul. split; intros; nra. Qed.
Lemma nth_scale c l i : nth i (map (fun x => c * x) l) 0 = c * nth i l 0.
Proof. destruct (Nat.lt_ge_cases i (length l)) as [H|H]; [now rewrite (nth_map _ _ _ 0)|]. rewrite !nth_overflow by (rewrite ?map_length; exact H). ring. Qed.

Lemma profile_ext root h w f g cy cx : (forall i j, (i < h)%nat -> (j < w)%nat -> f i j = g i j) -> compute_radial_profile root h w f cy cx = compute_radial_profile root h w g cy cx.
Proof.
  intros H. unfold compute_radial_profile. f_equal. rewrite !samples_pixels. apply map_ext_in. intros [i j] X. cbn [fst snd]. unfold pixels in X. apply in_flat_map in X as [i' [I X]]. apply in_map_iff in X as [j' [E J]]. injection E as -> ->. apply in_seq in I, J. rewrite H by lia. reflexivity.
Qed.
Lemma flat_in h w img x : In x (flat h w img) <-> exists i j, (i < h)%nat /\ (j < w)%nat /\ x = img i j.
Proof.
  unfold flat. rewrite in_flat_map. split.
  - intros [i [I X]]. apply in_map_iff in X as [j [<- J]]. apply in_seq in I, J. exists i, j. repeat split; lia.
  - intros [i [j [I [J ->]]]]. exists i. split; [apply in_seq; lia|]. apply in_map_iff. exists j. split; [reflexivity|apply in_seq; lia].
Qed.
Lemma flat_scale c h w img : flat h w (fun i j => c * img i j) = map (fun x => c * x) (flat h w img).
Proof. unfold flat. rewrite map_flat. apply flat_map_ext. intros i. now rewrite map_map. Qed.
Lemma normalised_scale c h w img i j : 0 < c -> normalised h w (fun i j => c * img i j) i j = normalised h w img i j.
Proof.
  intros C. assert (CN := nz_pos _ C). unfold normalised. rewrite flat_scale, lmax_scale by exact C. set (m := lmax (flat h w img)).
  assert (E : qlt 0 (c * m) = qlt 0 m) by (rewrite <- (qlt_scale c 0 m C); f_equal; ring). rewrite E. destruct (qlt 0 m) eqn:Q; [|reflexivity]. cbn [negb]. field. split; [|exact CN]. apply nz_pos. apply qlt_true in Q. exact Q.
Qed.
Lemma flux_scale c h w f : flux h w (fun i j => c * f i j) = c * flux h w f.
Proof.
  unfold flux. rewrite <- !lsum_seq. rewrite <- lsum_scale. f_equal. apply map_ext. intros i. rewrite <- !lsum_seq. now rewrite <- lsum_scale.
Qed.
Lemma profile_lengths root h w img cy cx p r n : compute_radial_profile root h w img cy cx = (p, r, n) -> length p = length r /\ length n = length r.
Proof. unfold compute_radial_profile, profile_of. intros [= <- <- <-]. now rewrite !map_length. Qed.
