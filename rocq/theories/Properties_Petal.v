(* C116: influence functions of a mirror of petals. *)
From Coq Require Import Reals List Bool Arith Lia Lra ZArith.
From Verif Require Import PyBase PetalModel PetalSpec PetalProofs.
Import ListNotations.
Local Open Scope R_scope.

Theorem C116_errors atan2 dim n off mask special rows cols tilts :
  (0 < n)%nat -> rows = dim -> cols = dim -> exists r, compute_petal_ifunc atan2 dim n off mask special rows cols tilts = Ok r.
Proof. intros N -> ->. unfold compute_petal_ifunc. destruct (Nat.eqb_spec n 0); [lia|]. rewrite !Nat.eqb_refl. now eexists. Qed.
Print Assumptions C116_errors.
Theorem C116_error_kinds atan2 dim n off mask special rows cols tilts e :
  compute_petal_ifunc atan2 dim n off mask special rows cols tilts = Err e -> (n = 0%nat /\ e = ZeroDivisionError) \/ (n <> 0%nat /\ (rows, cols) <> (dim, dim) /\ e = ValueError).
Proof.
  unfold compute_petal_ifunc. destruct (Nat.eqb_spec n 0) as [->|N]; [intros H; left; split; congruence|]. destruct (Nat.eqb_spec rows dim) as [->|Nr]; [destruct (Nat.eqb_spec cols dim) as [->|Nc]|]; cbn [negb andb]; intros H; try discriminate; right; repeat split; try congruence; assumption.
Qed.
Print Assumptions C116_error_kinds.

Section Result.
Variable atan2 : R -> R -> R.
Variables (dim n : nat) (off : R) (mask : image) (special tilts : bool).
Variables (ifs : list (list R)) (centres : list (R * R)).
Hypothesis Hres : compute_petal_ifunc atan2 dim n off mask special dim dim tilts = Ok (ifs, centres).
Notation petal := (petal atan2 dim n off mask special).
Notation angle := (angle atan2 dim off).
Notation idx := (idx dim mask).
(* value q of mode m, and its pixel *)
Definition value (m q : nat) : R := nth q (nth m ifs []) 0.
Definition row (q : nat) : nat := fst (nth q idx (0%nat, 0%nat)).
Definition col (q : nat) : nat := snd (nth q idx (0%nat, 0%nat)).

Lemma result : (0 < n)%nat /\ ifs = map (fun f => map (at_ f) idx) (modes atan2 dim n off mask special tilts) /\ centres = map (centre atan2 dim n off mask special) (seq 0 n).
Proof.
  unfold compute_petal_ifunc in Hres. destruct (Nat.eqb_spec n 0); [discriminate|]. rewrite !Nat.eqb_refl in Hres. cbn [negb andb] in Hres. injection Hres as <- <-. repeat split. lia.
Qed.
Lemma modes_length : length (modes atan2 dim n off mask special tilts) = (if tilts then 3 * n else n)%nat.
Proof. clear Hres. unfold modes. rewrite app_length, map_length, seq_length. destruct tilts; [rewrite app_length, !map_length, seq_length; lia|cbn; lia]. Qed.
Theorem C116_shape : length ifs = (if tilts then 3 * n else n)%nat /\ (forall m, (m < length ifs)%nat -> length (nth m ifs []) = length idx) /\ length centres = n.
Proof.
  destruct result as (N & -> & ->). rewrite !map_length, seq_length, modes_length. split; [reflexivity|]. split; [|reflexivity]. intros m Hm. rewrite (nth_indep _ [] (map (at_ (fun _ _ => 0)) idx)) by (rewrite map_length, modes_length; exact Hm).
  rewrite (map_nth (fun f => map (at_ f) idx)). apply map_length.
Qed.
Lemma nth_mode m f : nth_error (modes atan2 dim n off mask special tilts) m = Some f -> nth m ifs [] = map (at_ f) idx.
Proof.
  intros H. destruct result as (N & -> & _). apply nth_error_nth with (d := []). rewrite nth_error_map, H. reflexivity.
Qed.
Lemma piston_mode k : (k < n)%nat -> nth_error (modes atan2 dim n off mask special tilts) k = Some (petal k).
Proof. intros K. unfold modes. rewrite nth_error_app1 by (rewrite map_length, seq_length; exact K). rewrite nth_error_map, (nth_error_nth' _ 0%nat) by (rewrite seq_length; exact K). now rewrite seq_nth. Qed.
Lemma tip_mode k : tilts = true -> (k < n)%nat -> nth_error (modes atan2 dim n off mask special tilts) (n + k) = Some (tip atan2 dim n off mask special k).
Proof.
  intros T K. unfold modes. rewrite T. rewrite nth_error_app2 by (rewrite map_length, seq_length; lia). rewrite map_length, seq_length. replace (n + k - n)%nat with k by lia. rewrite nth_error_app1 by (rewrite map_length, seq_length; exact K).
  rewrite nth_error_map, (nth_error_nth' _ 0%nat) by (rewrite seq_length; exact K). now rewrite seq_nth.
Qed.
Lemma tilt_mode k : tilts = true -> (k < n)%nat -> nth_error (modes atan2 dim n off mask special tilts) (2 * n + k) = Some (tilt atan2 dim n off mask special k).
Proof.
  intros T K. unfold modes. rewrite T. rewrite nth_error_app2 by (rewrite map_length, seq_length; lia). rewrite map_length, seq_length. rewrite nth_error_app2 by (rewrite map_length, seq_length; lia). rewrite map_length, seq_length. replace (2 * n + k - n - n)%nat with k by lia.
  rewrite nth_error_map, (nth_error_nth' _ 0%nat) by (rewrite seq_length; exact K). now rewrite seq_nth.
Qed.
Lemma value_eq m f q : nth_error (modes atan2 dim n off mask special tilts) m = Some f -> (q < length idx)%nat -> value m q = f (row q) (col q).
Proof.
  intros H Q. unfold value. rewrite (nth_mode m f H). rewrite (nth_indep _ 0 (at_ f (0%nat, 0%nat))) by (rewrite map_length; exact Q). rewrite (map_nth (at_ f)). reflexivity.
Qed.
(* pistons: the mask, in one sector of n *)
Theorem C116_piston k q : (k < n)%nat -> (q < length idx)%nat -> special = false ->
  (in_sector n k (angle (row q) (col q)) -> value k q = mask (row q) (col q)) /\ (~ in_sector n k (angle (row q) (col q)) -> value k q = 0).
Proof.
  intros K Q S. destruct result as (N & _). rewrite (value_eq k (petal k) q (piston_mode k K) Q). split; intros H; [now apply petal_in|]. apply petal_out; try assumption. rewrite S. apply andb_false_r.
Qed.
(* each pixel is in one petal *)
Theorem C116_one q : (q < length idx)%nat -> special = false -> exists k, (k < n)%nat /\ value k q = mask (row q) (col q) /\ forall k', (k' < n)%nat -> k' <> k -> value k' q = 0.
Proof.
  intros Q S. destruct result as (N & _). destruct (one_sector n (angle (row q) (col q)) N) as (k & K & I & U). exists k. split; [exact K|]. split; [now apply C116_piston|]. intros k' K' D. apply C116_piston; try assumption. intros I'. apply D. now apply U.
Qed.
Lemma sum_single (f : nat -> R) (k : nat) : forall a m, (a <= k < a + m)%nat -> (forall j, (a <= j < a + m)%nat -> j <> k -> f j = 0) -> sum (map f (seq a m)) = f k.
Proof.
  intros a m. revert a. induction m as [|m IH]; intros a K H; [lia|]. cbn [seq map]. unfold sum in *. cbn [fold_right]. destruct (Nat.eq_dec a k) as [->|D].
  - enough (G : forall b m', (k < b)%nat -> (b + m' <= k + S m)%nat -> fold_right Rplus 0 (map f (seq b m')) = 0) by (rewrite G by lia; ring).
    intros b m'. revert b. induction m' as [|m' IH']; intros b B1 B2; [reflexivity|]. cbn. rewrite IH' by lia. rewrite H by lia. ring.
  - rewrite IH by (lia || (intros; apply H; lia)). rewrite H by lia. ring.
Qed.
Corollary C116_sum q : (q < length idx)%nat -> special = false -> sum (map (fun k => value k q) (seq 0 n)) = mask (row q) (col q).
Proof.
  intros Q S. destruct (C116_one q Q S) as (k & K & V & O). rewrite (sum_single (fun k => value k q) k); [exact V|lia|]. intros j J D. apply O; [lia|exact D].
Qed.
(* the option for the last petal makes it the whole mirror *)
Theorem C116_special q : (q < length idx)%nat -> special = true -> value (n - 1) q = mask (row q) (col q).
Proof. intros Q S. destruct result as (N & _). rewrite (value_eq (n - 1) (petal (n - 1)) q) by (try apply piston_mode; try lia; exact Q). rewrite S. now apply petal_last. Qed.

(* gradients *)
Hypothesis Hpos : forall i j, (i < dim)%nat -> (j < dim)%nat -> 0 <= mask i j.
Lemma pixels_in p : In p (pixels dim) <-> (fst p < dim)%nat /\ (snd p < dim)%nat.
Proof.
  unfold pixels. rewrite in_flat_map. split.
  - intros (i & I & J). apply in_map_iff in J. destruct J as (j & <- & J). apply in_seq in I, J. cbn. lia.
  - intros [I J]. exists (fst p). split; [apply in_seq; lia|]. apply in_map_iff. exists (snd p). split; [now destruct p|apply in_seq; lia].
Qed.
Lemma petal_nonneg k p : In p (pixels dim) -> 0 <= at_ (petal k) p.
Proof. intros H. apply pixels_in in H. unfold at_, PetalModel.petal. destruct (within _ _ _ _); [apply Hpos; tauto|lra]. Qed.
Lemma petal_nz k p : at_ (petal k) p <> 0 -> at_ mask p <> 0.
Proof. unfold at_, PetalModel.petal. destruct (within _ _ _ _); [tauto|]. intros H. now destruct H. Qed.
Notation lit := (lit atan2 dim n off mask special).
Lemma lit_in k p : In p (lit k) <-> In p (pixels dim) /\ 0 < at_ (petal k) p.
Proof. unfold PetalModel.lit. rewrite filter_In. destruct (Rlt_dec 0 _); intuition discriminate. Qed.
Lemma over_idx (f : nat * nat -> R) k : (forall p, In p (pixels dim) -> ~ 0 < at_ (petal k) p -> f p = 0) -> total (map f idx) = total (map f (lit k)).
Proof.
  intros H. unfold PetalModel.idx, PetalModel.lit. rewrite !total_filter; [reflexivity| |].
  - intros p Hp E. apply H; [exact Hp|]. destruct (Rlt_dec _ _); [discriminate|assumption].
  - intros p Hp E. apply H; [exact Hp|]. intros L. unfold nz in E. destruct (Req_EM_T (at_ mask p) 0) as [Z|Z]; [|discriminate]. assert (G := petal_nz k p). lra.
Qed.
Lemma gradient_out c k p : In p (pixels dim) -> ~ 0 < at_ (petal k) p -> at_ (gradient atan2 dim n off mask special c k) p = 0.
Proof.
  intros Hp H. assert (G := petal_nonneg k p Hp). assert (Z : at_ (petal k) p = 0) by lra. destruct p as [i j]. unfold at_ in *. cbn [fst snd] in *. unfold gradient. destruct (Rlt_dec _ _); [contradiction|]. unfold at_. cbn [fst snd]. rewrite Z. ring.
Qed.
Lemma gradient_lit c k p : In p (lit k) -> let raw := fun p => c p * at_ (petal k) p in
  at_ (gradient atan2 dim n off mask special c k) p = (raw p - mean (map raw (lit k))) / (if Req_EM_T (std (map raw (lit k))) 0 then 1 else std (map raw (lit k))).
Proof. intros H. apply lit_in in H. destruct p as [i j]. destruct H as [_ H]. unfold at_ in *. cbn [fst snd] in *. unfold gradient. destruct (Rlt_dec _ _); [reflexivity|contradiction]. Qed.
Lemma gradient_mean c k : total (map (at_ (gradient atan2 dim n off mask special c k)) idx) = 0.
Proof.
  rewrite (over_idx _ k) by apply gradient_out. destruct (lit k) as [|p0 l] eqn:L; [reflexivity|]. rewrite <- L. rewrite (total_ext _ _ _ (gradient_lit c k)). apply scaled_zero. rewrite L. discriminate.
Qed.
Lemma gradient_norm c k : (exists p p', In p (lit k) /\ In p' (lit k) /\ c p * at_ (petal k) p <> c p' * at_ (petal k) p') -> total (map (fun p => at_ (gradient atan2 dim n off mask special c k) p ^ 2) idx) = INR (length (lit k)).
Proof.
  intros (p & p' & P & P' & D). set (raw := fun p => c p * at_ (petal k) p). assert (L : lit k <> []) by (intros E; rewrite E in P; destruct P).
  rewrite (over_idx (fun p => at_ (gradient atan2 dim n off mask special c k) p ^ 2) k) by (intros q Q1 Q2; rewrite gradient_out by assumption; ring).
  rewrite (total_ext _ (fun q => ((raw q - mean (map raw (lit k))) / (if Req_EM_T (std (map raw (lit k))) 0 then 1 else std (map raw (lit k)))) ^ 2)) by (intros q Q; now rewrite (gradient_lit c k q Q)).
  apply scaled_square; [exact L|]. intros Z. apply D. fold (raw p) (raw p'). now rewrite !(constant_zero raw (lit k) L Z).
Qed.
Lemma gradient_flat c k p : In p (pixels dim) -> (forall p p', In p (lit k) -> In p' (lit k) -> c p * at_ (petal k) p = c p' * at_ (petal k) p') -> at_ (gradient atan2 dim n off mask special c k) p = 0.
Proof.
  intros Hp H. destruct (Rlt_dec 0 (at_ (petal k) p)) as [L|L]; [|now apply gradient_out]. assert (P : In p (lit k)) by now apply lit_in. rewrite (gradient_lit c k p P). cbv zeta.
  rewrite (map_ext_in _ (fun _ => c p * at_ (petal k) p) (lit k)) by (intros q Q; now apply H). unfold mean at 1. rewrite total_const, map_length. assert (N : 0 < INR (length (lit k))) by (apply lt_0_INR; destruct (lit k); [destruct P|cbn; lia]).
  replace (c p * at_ (petal k) p - INR (length (lit k)) * (c p * at_ (petal k) p) / INR (length (lit k))) with 0 by (field; lra). unfold Rdiv. ring.
Qed.
(* gradients have no mean; *)
Theorem C116_gradient_mean m : (n <= m < length ifs)%nat -> sum (nth m ifs []) = 0.
Proof.
  intros M. destruct C116_shape as (Ln & _). assert (T : tilts = true) by (destruct (bool_dec tilts true) as [T|T]; [exact T|apply not_true_is_false in T; rewrite T in Ln; lia]); rewrite T in Ln. change sum with total. destruct (lt_dec m (2 * n)) as [A|A].
  - replace m with (n + (m - n))%nat by lia. rewrite (nth_mode _ _ (tip_mode (m - n) T ltac:(lia))). apply gradient_mean.
  - replace m with (2 * n + (m - 2 * n))%nat by lia. rewrite (nth_mode _ _ (tilt_mode (m - 2 * n) T ltac:(lia))). apply gradient_mean.
Qed.
(* a standard deviation of one on petals with more than one column or row; *)
Theorem C116_gradient_norm k : tilts = true -> (k < n)%nat -> (forall i j, mask i j = 0 \/ mask i j = 1) ->
  ((exists p p', In p (lit k) /\ In p' (lit k) /\ snd p <> snd p') -> sum (map (fun v => v ^ 2) (nth (n + k) ifs [])) = INR (length (lit k))) /\
  ((exists p p', In p (lit k) /\ In p' (lit k) /\ fst p <> fst p') -> sum (map (fun v => v ^ 2) (nth (2 * n + k) ifs [])) = INR (length (lit k))).
Proof.
  intros T K B. assert (One : forall p, In p (lit k) -> at_ (petal k) p = 1).
  { intros p P. apply lit_in in P. destruct P as [_ P]. unfold at_, PetalModel.petal in *. destruct (within _ _ _ _); [|lra]. destruct (B (fst p) (snd p)); lra. }
  assert (Co : forall a b, coord dim a = coord dim b -> a = b) by (intros a b E; unfold coord in E; apply INR_eq; lra). change sum with total.
  split; intros (p & p' & P & P' & D); [rewrite (nth_mode _ _ (tip_mode k T K))|rewrite (nth_mode _ _ (tilt_mode k T K))]; rewrite map_map; apply gradient_norm; exists p, p'; repeat split; try assumption; rewrite (One p P), (One p' P'), !Rmult_1_r; intros E; apply D, Co, E.
Qed.
(* zero outside their petal, *)
Theorem C116_gradient_support k q : tilts = true -> (k < n)%nat -> (q < length idx)%nat -> value k q = 0 -> value (n + k) q = 0 /\ value (2 * n + k) q = 0.
Proof.
  intros T K Q V. rewrite (value_eq k (petal k) q (piston_mode k K) Q) in V. rewrite (value_eq _ _ q (tip_mode k T K) Q), (value_eq _ _ q (tilt_mode k T K) Q). set (p := nth q idx (0%nat, 0%nat)).
  assert (I : In p (pixels dim)) by (assert (J : In p idx) by (apply nth_In; exact Q); unfold PetalModel.idx in J; apply filter_In in J; apply J).
  assert (Z : ~ 0 < at_ (petal k) p) by (unfold at_; unfold row, col in V; fold p in V; rewrite V; lra). split; apply (gradient_out _ k p I Z).
Qed.
(* and orthogonal to all pistons *)
Lemma dot_map (f g : nat * nat -> R) l : dot (map f l) (map g l) = total (map (fun p => f p * g p) l).
Proof. unfold dot, sum, total. induction l as [|p l IH]; [reflexivity|]. cbn. now rewrite IH. Qed.
Theorem C116_orthogonal k m : special = false -> (forall i j, mask i j = 0 \/ mask i j = 1) -> (k < n)%nat -> (m < length ifs)%nat -> m <> k -> dot (nth k ifs []) (nth m ifs []) = 0.
Proof.
  intros S B K M D. destruct C116_shape as (Ln & _). destruct result as (N & _). rewrite (nth_mode k _ (piston_mode k K)).
  assert (Dis : forall k' p, (k' < n)%nat -> k' <> k -> 0 < at_ (petal k) p -> at_ (petal k') p = 0).
  { intros k' p K' D' L. unfold at_ in *. destruct (one_sector n (angle (fst p) (snd p)) N) as (u & Uk & Ui & Uu). assert (F : forall x, (x =? n - 1)%nat && special = false) by (intros; rewrite S; apply andb_false_r).
    assert (Hk : k = u). { destruct (Nat.eq_dec k u); [assumption|]. exfalso. rewrite (petal_out atan2 dim n off mask N k (fst p) (snd p) special K (F k)) in L by (intros I; now apply n0, Uu). lra. }
    apply petal_out; try assumption; [apply F|]. intros I. apply D'. rewrite Hk. now apply Uu. }
  assert (Gr : forall c k', (k' < n)%nat -> dot (map (at_ (petal k)) idx) (map (at_ (gradient atan2 dim n off mask special c k')) idx) = 0).
  { intros c k' K'. rewrite dot_map. destruct (Nat.eq_dec k' k) as [->|Nk].
    - rewrite <- (gradient_mean c k). apply total_ext. intros p Hp. apply filter_In in Hp. destruct Hp as [Hp _]. destruct (Rlt_dec 0 (at_ (petal k) p)) as [L|L]; [|rewrite (gradient_out c k p Hp L); ring].
      replace (at_ (petal k) p) with 1; [ring|]. unfold at_, PetalModel.petal in *. destruct (within _ _ _ _); [|lra]. destruct (B (fst p) (snd p)); lra.
    - rewrite (total_ext _ (fun _ => 0)); [rewrite total_const; ring|]. intros p Hp. apply filter_In in Hp. destruct Hp as [Hp _]. assert (G := petal_nonneg k p Hp). destruct (Rlt_dec 0 (at_ (petal k) p)) as [L|L]; [|replace (at_ (petal k) p) with 0 by lra; ring].
      rewrite (gradient_out c k' p Hp); [ring|]. rewrite (Dis k' p K' Nk L). lra. }
  destruct (lt_dec m n) as [A|A]; [|assert (T : tilts = true) by (destruct (bool_dec tilts true) as [T|T]; [exact T|apply not_true_is_false in T; rewrite T in Ln; lia]); rewrite T in Ln; destruct (lt_dec m (2 * n)) as [A2|A2]].
  - rewrite (nth_mode m _ (piston_mode m A)), dot_map. rewrite (total_ext _ (fun _ => 0)); [rewrite total_const; ring|]. intros p Hp. apply filter_In in Hp. destruct Hp as [Hp _]. assert (G := petal_nonneg k p Hp).
    destruct (Rlt_dec 0 (at_ (petal k) p)) as [L|L]; [rewrite (Dis m p A D L); ring|replace (at_ (petal k) p) with 0 by lra; ring].
  - replace m with (n + (m - n))%nat by lia. rewrite (nth_mode _ _ (tip_mode (m - n) T ltac:(lia))). apply Gr. lia.
  - replace m with (2 * n + (m - 2 * n))%nat by lia. rewrite (nth_mode _ _ (tilt_mode (m - 2 * n) T ltac:(lia))). apply Gr. lia.
Qed.
End Result.
Print Assumptions C116_shape.
Print Assumptions C116_piston.
Print Assumptions C116_one.
Print Assumptions C116_sum.
Print Assumptions C116_special.
Print Assumptions C116_gradient_mean.
Print Assumptions C116_gradient_norm.
Print Assumptions C116_gradient_support.
Print Assumptions C116_orthogonal.

(* a rotation by one sector renumbers the petals *)
Lemma sector_next n k a : (0 < n)%nat -> (k < n)%nat -> in_sector n k a -> in_sector n (S k mod n) (a + 2 * PI / INR n).
Proof.
  intros N K [t H]. destruct (turn_angle n N) as [W E]. set (w := 2 * PI / INR n) in *. rewrite S_INR in H. destruct (Nat.eq_dec (S k) n) as [E1|D].
  - rewrite E1, Nat.mod_same by lia. exists (t - 1)%Z. fold w. rewrite minus_IZR, S_INR. cbn [INR]. assert (Kn : (INR k + 1) * w = 2 * PI) by (rewrite <- S_INR, E1; exact E). lra.
  - rewrite Nat.mod_small by lia. exists t. fold w. rewrite !S_INR. lra.
Qed.
Lemma petal_next atan2 dim n off mask k i j : (0 < n)%nat -> (k < n)%nat -> petal atan2 dim n (off + 360 / INR n) mask false (S k mod n) i j = petal atan2 dim n off mask false k i j.
Proof.
  intros N K. assert (P : (0 < INR n)) by now apply lt_0_INR. assert (F : forall x, (x =? n - 1)%nat && false = false) by (intros; apply andb_false_r).
  assert (M : forall x, (x mod n < n)%nat) by (intros; apply Nat.mod_upper_bound; lia).
  assert (A : angle atan2 dim (off + 360 / INR n) i j = angle atan2 dim off i j + 2 * PI / INR n) by (unfold angle; field; lra).
  destruct (one_sector n (angle atan2 dim off i j) N) as (u & U & I & Un). destruct (Nat.eq_dec k u) as [->|D].
  - rewrite (petal_in _ _ _ off mask N u i j false U I). apply petal_in; [exact N|apply M|]. rewrite A. now apply sector_next.
  - rewrite (petal_out _ _ _ off mask N k i j false K (F k)) by (intros J; now apply D, Un). apply petal_out; [exact N|apply M|apply F|]. intros J. rewrite A in J.
    destruct (one_sector n (angle atan2 dim off i j + 2 * PI / INR n) N) as (v & V & Iv & Uv). assert (E1 := Uv _ (M (S u)) (sector_next n u _ N U I)). assert (E2 := Uv _ (M (S k)) J). apply D.
    assert (Q : (S k mod n = S u mod n)%nat) by congruence. destruct (Nat.eq_dec (S k) n) as [Ek|Ek], (Nat.eq_dec (S u) n) as [Eu|Eu]; rewrite ?Ek, ?Eu, ?Nat.mod_same in Q by lia; rewrite ?Nat.mod_small in Q by lia; lia.
Qed.
Theorem C116_rotation atan2 dim n off mask tilts ifs ifs' c c' k : compute_petal_ifunc atan2 dim n off mask false dim dim tilts = Ok (ifs, c) -> compute_petal_ifunc atan2 dim n (off + 360 / INR n) mask false dim dim tilts = Ok (ifs', c') ->
  (k < n)%nat -> nth (S k mod n) ifs' [] = nth k ifs [].
Proof.
  intros H H' K. assert (R := result _ _ _ _ _ _ _ _ _ H). destruct R as (N & _). assert (M : (S k mod n < n)%nat) by (apply Nat.mod_upper_bound; lia).
  rewrite (nth_mode _ _ _ _ _ _ _ _ _ H k _ (piston_mode _ _ _ _ _ _ _ k K)), (nth_mode _ _ _ _ _ _ _ _ _ H' _ _ (piston_mode _ _ _ _ _ _ _ _ M)). apply map_ext. intros p. unfold at_. now apply petal_next.
Qed.
Print Assumptions C116_rotation.
(* and a whole turn changes nothing *)
Theorem C116_turn atan2 dim n off mask special rows cols tilts : compute_petal_ifunc atan2 dim n (off + 360) mask special rows cols tilts = compute_petal_ifunc atan2 dim n off mask special rows cols tilts.
Proof.
  assert (T : forall i j, theta atan2 dim (off + 360) i j = theta atan2 dim off i j). { intros i j. rewrite !theta_angle. rewrite <- (remainder_turns (angle atan2 dim off i j) _ 1 two_pi). f_equal. unfold angle. lra. }
  assert (P : forall k i j, petal atan2 dim n (off + 360) mask special k i j = petal atan2 dim n off mask special k i j) by (intros; unfold petal; now rewrite T).
  assert (L : forall k, lit atan2 dim n (off + 360) mask special k = lit atan2 dim n off mask special k) by (intros; unfold lit; apply filter_ext; intros p; unfold at_; now rewrite P).
  assert (G : forall c k i j, gradient atan2 dim n (off + 360) mask special c k i j = gradient atan2 dim n off mask special c k i j).
  { intros c k i j. unfold gradient. rewrite P, L. unfold at_. cbn [fst snd]. rewrite P. rewrite (map_ext (fun p => c p * petal atan2 dim n (off + 360) mask special k (fst p) (snd p)) (fun p => c p * petal atan2 dim n off mask special k (fst p) (snd p))) by (intros; now rewrite P). reflexivity. }
  unfold compute_petal_ifunc. destruct (n =? 0)%nat; [reflexivity|]. destruct (negb _); [reflexivity|]. f_equal. f_equal.
  - unfold modes. rewrite !map_app, !map_map. f_equal; [|destruct tilts; [|reflexivity]; rewrite !map_app, !map_map; f_equal]; apply map_ext; intros k; apply map_ext; intros p; unfold at_; [apply P|apply G|apply G].
  - apply map_ext. intros k. unfold centre. rewrite (filter_ext _ (fun p => nz (at_ (petal atan2 dim n off mask special k) p))) by (intros p; unfold at_; now rewrite P). reflexivity.
Qed.
Print Assumptions C116_turn.
(* centres *)
Lemma mean_range (l : list R) a b : l <> [] -> (forall x, In x l -> a <= x <= b) -> a <= mean l <= b.
Proof.
  intros N H. unfold mean. assert (P : 0 < INR (length l)) by (apply lt_0_INR; destruct l; [now destruct N|cbn; lia]).
  assert (G : INR (length l) * a <= total l <= INR (length l) * b). { clear N P. induction l as [|x l IH]; [cbn; lra|]. cbn [length total fold_right]. rewrite S_INR. assert (A := H x (or_introl eq_refl)). assert (B := IH (fun y Hy => H y (or_intror Hy))). unfold total in B. lra. }
  split; [apply Rmult_le_reg_l with (INR (length l))|apply Rmult_le_reg_l with (INR (length l))]; try exact P; replace (INR (length l) * (total l / INR (length l))) with (total l) by (field; lra); lra.
Qed.
Theorem C116_centres atan2 dim n off mask special tilts ifs c k : compute_petal_ifunc atan2 dim n off mask special dim dim tilts = Ok (ifs, c) -> (k < n)%nat ->
  ((forall q, (q < length (idx dim mask))%nat -> nth q (nth k ifs []) 0 = 0) -> nth k c (0, 0) = (0, 0)) /\
  ((exists q, (q < length (idx dim mask))%nat /\ nth q (nth k ifs []) 0 <> 0) -> 0 <= fst (nth k c (0, 0)) <= INR dim - 1 /\ 0 <= snd (nth k c (0, 0)) <= INR dim - 1).
Proof.
  intros H K. destruct (result _ _ _ _ _ _ _ _ _ H) as (N & _ & ->). rewrite (nth_indep _ _ (centre atan2 dim n off mask special 0%nat)) by (rewrite map_length, seq_length; exact K). rewrite map_nth, seq_nth by exact K. cbn [plus].
  rewrite (nth_mode _ _ _ _ _ _ _ _ _ H k _ (piston_mode _ _ _ _ _ _ _ k K)). set (f := petal atan2 dim n off mask special k).
  assert (V : forall q, (q < length (idx dim mask))%nat -> nth q (map (at_ f) (idx dim mask)) 0 = at_ f (nth q (idx dim mask) (0%nat, 0%nat))). { intros q Q. rewrite (nth_indep _ 0 (at_ f (0%nat, 0%nat))) by (rewrite map_length; exact Q). apply map_nth. }
  assert (B : forall p, In p (pixels dim) -> at_ f p <> 0 -> In p (idx dim mask)). { intros p Hp D. unfold idx. apply filter_In. split; [exact Hp|]. unfold nz. destruct (Req_EM_T _ _) as [Z|Z]; [|reflexivity]. exfalso. apply (petal_nz _ _ _ _ _ _ _ _ D). exact Z. }
  unfold centre. fold f. set (w := filter _ _). assert (W : forall p, In p w <-> In p (pixels dim) /\ at_ f p <> 0) by (intros p; unfold w; rewrite filter_In; unfold nz; destruct (Req_EM_T _ _); intuition congruence). split.
  - intros Z. destruct w as [|p w'] eqn:E; [reflexivity|]. exfalso. assert (Hp : In p (p :: w')) by now left. apply W in Hp. destruct Hp as [Hp D]. apply D. destruct (In_nth _ _ (0%nat, 0%nat) (B p Hp D)) as (q & Q & <-). rewrite <- V by exact Q. now apply Z.
  - intros (q & Q & D). rewrite V in D by exact Q. assert (I : In (nth q (idx dim mask) (0%nat, 0%nat)) w). { apply W. split; [|exact D]. assert (J := nth_In (idx dim mask) (0%nat, 0%nat) Q). unfold idx in J. apply filter_In in J. apply J. }
    assert (Rg : forall p, In p w -> 0 <= INR (fst p) <= INR dim - 1 /\ 0 <= INR (snd p) <= INR dim - 1). { intros p Hp. apply W in Hp. destruct Hp as [Hp _]. apply pixels_in in Hp. assert (L : forall x, (x < dim)%nat -> 0 <= INR x <= INR dim - 1) by (intros x X; split; [apply pos_INR|]; apply le_INR in X; rewrite S_INR in X; lra). split; apply L; tauto. }
    destruct w as [|p0 w']; [destruct I|]. cbn [fst snd]. split; (apply mean_range; [discriminate|]); intros x X; apply in_map_iff in X; destruct X as (p & <- & Hp); apply Rg; exact Hp.
Qed.
Print Assumptions C116_centres.

(* one pixel, at -135 degrees from the centre of the frame, in two petals *)
Theorem C116_special_refuted : exists off ifs c, compute_petal_ifunc (fun _ _ => - (3 * PI / 4)) 1 2 off (fun _ _ => 1) true 1 1 false = Ok (ifs, c) /\ idx 1 (fun _ _ => 1) = [(0, 0)%nat] /\ value ifs 0 0 = 1 /\ value ifs 1 0 = 1.
Proof.
  exists (-90). do 2 eexists. split; [reflexivity|]. assert (I : idx 1 (fun _ _ => 1) = [(0, 0)%nat]) by (unfold idx, nz, at_; cbn; destruct (Req_EM_T 1 0); [lra|reflexivity]). split; [exact I|].
  assert (P := PI_RGT_0). assert (G : forall m, value (map (fun f => map (at_ f) (idx 1 (fun _ _ => 1))) (modes (fun _ _ => - (3 * PI / 4)) 1 2 (-90) (fun _ _ => 1) true false)) m 0 = nth m (map (fun f : image => f 0%nat 0%nat) (modes (fun _ _ => - (3 * PI / 4)) 1 2 (-90) (fun _ _ => 1) true false)) 0).
  { intros m. unfold value. rewrite I. rewrite <- (map_nth (fun l => nth 0 l 0)). rewrite map_map. reflexivity. }
  rewrite !G. cbn [modes seq map app nth]. split.
  - apply petal_in; [lia|lia|]. exists 1%Z. unfold angle. cbn [INR]. lra.
  - apply (petal_last (fun _ _ => - (3 * PI / 4)) 1 2 (-90) (fun _ _ => 1) ltac:(lia) 0 0).
Qed.
Print Assumptions C116_special_refuted.
Example C116_example : exists ifs c, compute_petal_ifunc (fun _ _ => - (3 * PI / 4)) 1 2 (-90) (fun _ _ => 1) false 1 1 true = Ok (ifs, c) /\ length ifs = 6%nat /\ value ifs 0 0 = 1 /\ value ifs 1 0 = 0 /\ value ifs 2 0 = 0.
Proof.
  destruct (C116_errors (fun _ _ => - (3 * PI / 4)) 1 2 (-90) (fun _ _ => 1) false 1 1 true ltac:(lia) eq_refl eq_refl) as [[ifs c] H]. exists ifs, c. split; [exact H|]. assert (P := PI_RGT_0).
  assert (I : idx 1 (fun _ _ => 1) = [(0, 0)%nat]) by (unfold idx, nz, at_; cbn; destruct (Req_EM_T 1 0); [lra|reflexivity]). assert (Q : (0 < length (idx 1 (fun _ _ => 1%R)))%nat) by (rewrite I; cbn; lia).
  assert (S0 : in_sector 2 0 (angle (fun _ _ => - (3 * PI / 4)) 1 (-90) 0 0)) by (exists 1%Z; unfold angle; cbn [INR]; lra).
  assert (R0 : row 1 (fun _ _ => 1%R) 0 = 0%nat /\ col 1 (fun _ _ => 1%R) 0 = 0%nat) by (unfold row, col; rewrite I; split; reflexivity). destruct R0 as [R0 C0].
  split; [apply (C116_shape _ _ _ _ _ _ _ _ _ H)|]. split; [|split].
  - destruct (C116_piston _ _ _ _ _ _ _ _ _ H 0 0 ltac:(lia) Q eq_refl) as [A _]. apply A. rewrite R0, C0. exact S0.
  - destruct (C116_piston _ _ _ _ _ _ _ _ _ H 1 0 ltac:(lia) Q eq_refl) as [_ A]. apply A. rewrite R0, C0. intros J. destruct (one_sector 2 (angle (fun _ _ => - (3 * PI / 4)) 1 (-90) 0 0) ltac:(lia)) as (u & U & _ & Un). assert (E0 := Un 0%nat ltac:(lia) S0). assert (E1 := Un 1%nat ltac:(lia) J). congruence.
  - assert (M := C116_gradient_mean _ _ _ _ _ _ _ _ _ H (fun _ _ _ _ => Rle_0_1) 2). destruct (C116_shape _ _ _ _ _ _ _ _ _ H) as (L1 & L2 & _). specialize (M ltac:(rewrite L1; lia)). specialize (L2 2%nat ltac:(rewrite L1; lia)). rewrite I in L2. unfold value.
    destruct (nth 2 ifs []) as [|x [|y l]]; try discriminate. cbn in M. cbn. lra.
Qed.
