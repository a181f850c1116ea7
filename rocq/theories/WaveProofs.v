From Coq Require Import Reals ZArith List Bool Arith Lia Lra.
From Verif Require Import PyBase PyLemmas Arith ZernModel ZernSpec ZernProofs WaveModel WaveSpec.
Import ListNotations.
Local Open Scope R_scope.

Lemma nth_rep (x d : R) n i : (i < n)%nat -> nth i (repeat x n) d = x.
Proof. revert i. induction n as [|n IH]; intros i H; [lia|]. destruct i as [|i]; [reflexivity|]. apply IH. lia. Qed.
Lemma map2_length' {A B C} (f : A -> B -> C) a : forall b, length a = length b -> length (map2 f a b) = length a.
Proof. induction a as [|x a IH]; intros [|y b] H; try discriminate; [reflexivity|]. cbn. f_equal. apply IH. now injection H. Qed.
Lemma map2_nth' (f : R -> R -> R) a : forall b i, length a = length b -> (i < length a)%nat -> nth i (map2 f a b) 0 = f (nth i a 0) (nth i b 0).
Proof. induction a as [|x a IH]; intros [|y b] i H Hi; cbn in *; try lia. destruct i as [|i]; [reflexivity|]. apply IH; lia. Qed.
Lemma at_nth l i : (i < length l)%nat -> length l <> 1%nat -> at_ l i = nth i l 0.
Proof. destruct l as [|x [|y l]]; cbn; intros; try lia; reflexivity. Qed.
Lemma at_one l : length l = 1%nat -> exists x, l = [x] /\ forall i, at_ l i = x.
Proof. destruct l as [|x [|y l]]; cbn; intros H; try lia. exists x. split; reflexivity. Qed.
Lemma at_map f l i : (i < length l \/ length l = 1)%nat -> at_ (map f l) i = f (at_ l i).
Proof.
  intros H. destruct (Nat.eq_dec (length l) 1) as [E|E]; [destruct (at_one l E) as (x & -> & _); reflexivity|]. rewrite !at_nth by (rewrite ?map_length; lia).
  rewrite (nth_indep _ 0 (f 0)) by (rewrite map_length; lia). apply map_nth.
Qed.
(* one operation between vectors with n elements or one *)
Lemma zipb_fits op n a b : (1 <= n)%nat -> fits n a -> fits n b -> exists c, zipb op a b = Ok c /\ fits n c /\ (length a = n \/ length b = n -> length c = n)%nat /\ (length c = n -> length a = n \/ length b = n)%nat /\ forall i, (i < n)%nat -> at_ c i = op (at_ a i) (at_ b i).
Proof.
  intros Hn Ha Hb. unfold zipb. destruct (Nat.eqb_spec (length a) (length b)) as [E|E].
  - exists (map2 op a b). assert (L := map2_length' op a b E). unfold fits in *. repeat split; try lia. intros i Hi.
    destruct (Nat.eq_dec (length a) 1) as [O|O].
    + destruct (at_one a O) as (x & -> & _). destruct (at_one b ltac:(lia)) as (y & -> & _). reflexivity.
    + rewrite !at_nth by lia. apply map2_nth'; lia.
  - unfold fits in *. destruct (Nat.eq_dec (length a) 1) as [O|O].
    + destruct (at_one a O) as (x & -> & _). exists (map (op x) b). cbn [length at_] in *. rewrite map_length. repeat split; try lia. intros i Hi. rewrite at_map by lia. reflexivity.
    + destruct (at_one b ltac:(lia)) as (y & -> & _). exists (map (fun x => op x y) a). cbn [length] in *. rewrite map_length. split.
      * destruct a as [|x1 [|x2 a]]; cbn in *; try lia; reflexivity.
      * repeat split; try lia. intros i Hi. rewrite at_map by lia. reflexivity.
Qed.
Lemma assign_fits n c : (1 <= n)%nat -> fits n c -> exists v, assign n c = Ok v /\ length v = n /\ forall i, (i < n)%nat -> nth i v 0 = at_ c i.
Proof.
  intros Hn H. unfold assign. destruct (Nat.eqb_spec (length c) n) as [E|E].
  - exists c. repeat split; try assumption. intros i Hi. destruct (Nat.eq_dec (length c) 1) as [O|O]; [|now rewrite at_nth by lia]. destruct (at_one c O) as (x & -> & _). cbn in *. replace i with 0%nat by lia. reflexivity.
  - destruct H as [H|H]; [|lia]. destruct (at_one c H) as (x & -> & _). exists (repeat x n). split; [reflexivity|]. split; [apply repeat_length|]. intros i Hi. now rewrite nth_rep by exact Hi.
Qed.
Lemma fits_ones n v : (v = 1 \/ v = n)%nat -> fits n (repeat 1 v) /\ forall i, (i < n)%nat -> at_ (repeat 1 v) i = 1.
Proof.
  intros H. split; [unfold fits; rewrite repeat_length; exact H|]. intros i Hi. destruct (Nat.eq_dec v 1) as [->|N]; [reflexivity|]. rewrite at_nth by (rewrite repeat_length; lia). apply nth_rep. lia.
Qed.

(* ---------------------------------------------------------------- sizes *)
Lemma validate_ok ps k : validate ps = Ok k <-> ((forall p, In p ps -> exists x, p = Sc x) /\ k = 1%nat) \/ ((exists l, In (Ve l) ps) /\ forall l, In (Ve l) ps -> length l = k).
Proof.
  unfold validate. assert (I : forall n, In n (sizes ps) <-> exists l, In (Ve l) ps /\ length l = n).
  { intros n. unfold sizes. rewrite in_flat_map. split.
    - intros ([x|l] & H1 & H2); [destruct H2|]. destruct H2 as [<-|[]]. now exists l.
    - intros (l & H1 & <-). exists (Ve l). split; [exact H1|now left]. }
  destruct (sizes ps) as [|n r] eqn:E.
  - split.
    + intros G. injection G as <-. left. split; [|reflexivity]. intros [x|l] H; [now exists x|]. exfalso. apply (proj2 (I (length l))). now exists l.
    + intros [[_ ->]|[[l H] _]]; [reflexivity|]. exfalso. apply (proj2 (I (length l))). now exists l.
  - destruct (forallb (Nat.eqb n) r) eqn:F.
    + rewrite forallb_forall in F. assert (A : forall l, In (Ve l) ps -> length l = n). { intros l H. assert (G : In (length l) (n :: r)) by (apply I; now exists l). destruct G as [G|G]; [now symmetry|]. apply F, Nat.eqb_eq in G. now symmetry. }
      assert (W : exists l, In (Ve l) ps /\ length l = n) by (apply I; now left). split.
      * intros G. injection G as <-. right. split; [|exact A]. destruct W as (l & H & _). now exists l.
      * intros [[H _]|[_ H]]; destruct W as (l & G & L); [destruct (H _ G); discriminate|]. rewrite <- (H l G). now rewrite L.
    + split; [discriminate|]. intros [[H _]|[_ H]].
      * exfalso. destruct (proj1 (I n) (or_introl eq_refl)) as (l & G & _). destruct (H _ G). discriminate.
      * exfalso. assert (T : forallb (Nat.eqb n) r = true); [|congruence]. apply forallb_forall. intros y Hy. destruct (proj1 (I n) (or_introl eq_refl)) as (l & G & L). destruct (proj1 (I y) (or_intror Hy)) as (l' & G' & L'). apply Nat.eqb_eq. rewrite <- L, <- L', (H _ G), (H _ G'). reflexivity.
Qed.
Lemma validate_err ps : (exists k, validate ps = Ok k) \/ validate ps = Err ValueError.
Proof. unfold validate. destruct (sizes ps) as [|n r]; [left; now eexists|]. destruct (forallb (Nat.eqb n) r); [left; now eexists|now right]. Qed.
Lemma valid_fits ps k p : validate ps = Ok k -> In p ps -> fits k (values p).
Proof. intros V H. apply validate_ok in V. destruct V as [[V _]|[_ V]]; [destruct (V p H) as [x ->]; now left|]. destruct p as [x|l]; [now left|]. right. exact (V l H). Qed.
Lemma longest_le ps k : (forall p, In p ps -> (length (values p) <= k)%nat) -> (longest ps <= k)%nat.
Proof. intros H. unfold longest. induction ps as [|p ps IH]; [cbn; lia|]. cbn [map fold_right]. apply Nat.max_lub; [apply H; now left|]. apply IH. intros p' H'. apply H. now right. Qed.
Lemma longest_ge ps p : In p ps -> (length (values p) <= longest ps)%nat.
Proof. unfold longest. induction ps as [|q ps IH]; [intros []|]. intros [<-|H]; cbn [map fold_right]; [apply Nat.le_max_l|]. apply (Nat.le_trans _ _ _ (IH H)), Nat.le_max_r. Qed.
Lemma longest_valid ps k : validate ps = Ok k -> ps <> [] -> (1 <= k)%nat -> longest ps = k.
Proof.
  intros V N K. apply Nat.le_antisymm.
  - apply longest_le. intros p H. destruct (valid_fits _ _ _ V H) as [E|E]; lia.
  - apply validate_ok in V. destruct V as [[V ->]|[[l H] V]].
    + destruct ps as [|p ps]; [now destruct N|]. destruct (V p (or_introl eq_refl)) as [x ->]. apply (longest_ge (Sc x :: ps) (Sc x)). now left.
    + rewrite <- (V l H). apply (longest_ge ps (Ve l) H).
Qed.

(* ---------------------------------------------------------------- waves *)
Lemma fits_one n x : fits n [x]. Proof. now left. Qed.
Ltac op H := match goal with |- context [zipb ?f ?a ?b] => destruct (zipb_fits f _ a b H) as (?c & ?E & ?F & ?L & ?M & ?V); [..|rewrite E; cbn [bind]] end.
Lemma wave_value w k t : (1 <= k)%nat -> fits k (values (w_amp w)) -> fits k (values (w_freq w)) -> fits k (values (w_offset w)) -> fits k (values (w_slope w)) -> fits k (values (w_const w)) ->
  (w_vsize w = 1 \/ w_vsize w = k)%nat -> w_out w = k -> exists v, wave_trigger w t = Ok v /\ length v = k /\ forall i, (i < k)%nat ->
    nth i v 0 = at_ (values (w_slope w)) i * t + at_ (values (w_amp w)) i * shape_of (w_kind w) (at_ (values (w_freq w)) i * 2 * PI * t + at_ (values (w_offset w)) i) + at_ (values (w_const w)) i.
Proof.
  intros Hk Fa Ff Fo Fs Fc Hv Ho. unfold wave_trigger.
  assert (Fm : forall g l, fits k l -> fits k (map g l)) by (intros g l; unfold fits; now rewrite map_length).
  destruct (zipb_fits Rmult k (map (fun f => f * 2 * PI) (values (w_freq w))) [t] Hk (Fm _ _ Ff) (fits_one k t)) as (p0 & -> & F0 & _ & _ & V0). cbn [bind].
  destruct (zipb_fits Rplus k p0 (values (w_offset w)) Hk F0 Fo) as (ph & -> & F1 & _ & _ & V1). cbn [bind].
  destruct (zipb_fits Rmult k (values (w_slope w)) [t] Hk Fs (fits_one k t)) as (st & -> & F2 & _ & _ & V2). cbn [bind].
  destruct (zipb_fits Rmult k (values (w_amp w)) (map (shape_of (w_kind w)) ph) Hk Fa (Fm _ _ F1)) as (aw & -> & F3 & _ & _ & V3). cbn [bind].
  destruct (zipb_fits Rplus k st aw Hk F2 F3) as (s1 & -> & F4 & _ & _ & V4). cbn [bind].
  destruct (zipb_fits Rplus k s1 (values (w_const w)) Hk F4 Fc) as (s2 & -> & F5 & _ & _ & V5). cbn [bind].
  destruct (fits_ones k (w_vsize w) Hv) as [F6 V6].
  destruct (zipb_fits Rmult k s2 (repeat 1 (w_vsize w)) Hk F5 F6) as (v0 & -> & F7 & _ & _ & V7). cbn [bind]. rewrite Ho.
  destruct (assign_fits k v0 Hk F7) as (v & -> & L & V8). exists v. repeat split; [exact L|]. intros i Hi. rewrite V8, V7, V6, V5, V4, V2, V3 by exact Hi.
  rewrite at_map by (destruct F1; lia). rewrite V1, V0 by exact Hi. rewrite at_map by (destruct Ff; lia). cbn [at_]. ring.
Qed.

(* ---------------------------------------------------------------- weights *)
Lemma order_spec j n : (tri n < j <= tri (S n))%nat -> order_of (Z.of_nat j) = Z.of_nat n.
Proof.
  intros H. rewrite <- (radial_order_spec j n H). unfold order_of, radial_order. f_equal. replace (9 + 8 * (IZR (Z.of_nat j) - 1)) with (8 * IZR (Z.of_nat j) + 1) by ring. field.
Qed.
Lemma order_split i : exists n d, (d <= n)%nat /\ i = (tri n + d)%nat.
Proof. destruct (order_exists (i + 1) ltac:(lia)) as (n & d & H & E). exists n, d. split; [exact H|lia]. Qed.
Lemma order_at n d : (d <= n)%nat -> order_of (Z.of_nat (tri n + d) + 1) = Z.of_nat n.
Proof. intros H. replace (Z.of_nat (tri n + d) + 1)%Z with (Z.of_nat (tri n + d + 1)) by lia. apply order_spec. rewrite tri_S. lia. Qed.
Definition spec_weight (l : law) (n : nat) : R := match l with Inverse => inverse_weight n | Linear => linear_weight n | _ => 1 end.
Lemma weight_spec l n d : (d <= n)%nat -> l <> OtherLaw -> weight l (tri n + d) = Ok (spec_weight l n).
Proof.
  intros H N. unfold weight. rewrite order_at, zeqb0, <- INR_IZR_INZ by exact H. destruct l; try reflexivity; [| |now destruct N]; destruct n as [|n]; try reflexivity; cbn [Nat.eqb]; unfold spec_weight, inverse_weight, linear_weight; f_equal; [unfold Rdiv|]; ring.
Qed.
Lemma weight_pos l n : 0 < spec_weight l n.
Proof. destruct l; unfold spec_weight; try lra; destruct n as [|n]; unfold inverse_weight, linear_weight; try lra; [apply Rinv_0_lt_compat|]; apply lt_0_INR; lia. Qed.
Lemma total_squares l : rtotal (map (fun a => a ^ 2) l) = squares l.
Proof. induction l as [|a l IH]; [reflexivity|]. cbn [map rtotal fold_right squares]. unfold rtotal in IH. now rewrite IH. Qed.
Lemma squares_scale k l : squares (map (fun a => a * k) l) = k ^ 2 * squares l.
Proof. induction l as [|a l IH]; cbn [map squares]; [ring|]. rewrite IH. ring. Qed.
Lemma squares_nonneg l : 0 <= squares l.
Proof. induction l as [|a l IH]; cbn [squares]; [lra|]. assert (H := pow2_ge_0 a). lra. Qed.
Lemma squares_elem l a : In a l -> a ^ 2 <= squares l.
Proof. induction l as [|b l IH]; [intros []|]. intros [->|H]; cbn [squares]; [assert (G := squares_nonneg l); lra|]. specialize (IH H). assert (G := pow2_ge_0 b). lra. Qed.
Lemma squares_zero l : (forall a, In a l -> a = 0) -> squares l = 0.
Proof. induction l as [|b l IH]; intros H; [reflexivity|]. cbn [squares]. rewrite IH by (intros; apply H; now right). rewrite (H b (or_introl eq_refl)). ring. Qed.

Lemma map_res_pure' {X Y} (f : X -> res Y) g l : (forall x, In x l -> f x = Ok (g x)) -> map_res f l = Ok (map g l).
Proof.
  induction l as [|x l IH]; intros H; [reflexivity|]. cbn [map_res map]. rewrite (H x (or_introl eq_refl)). cbn [bind].
  rewrite IH by (intros; apply H; now right). reflexivity.
Qed.
Definition base (l : law) (f i : nat) : R := if (i <? f)%nat then 0 else spec_weight l (Z.to_nat (order_of (Z.of_nat i + 1))).
Lemma base_at l f n d : (d <= n)%nat -> (f <= tri n + d)%nat -> base l f (tri n + d) = spec_weight l n.
Proof. intros H F. unfold base. rewrite order_at, Nat2Z.id by exact H. now replace (tri n + d <? f)%nat with false by (symmetry; apply Nat.ltb_ge; exact F). Qed.
Lemma nth_map_seq (g : nat -> R) n i : (i < n)%nat -> nth i (map g (seq 0 n)) 0 = g i.
Proof. intros H. rewrite (nth_indep _ 0 (g 0%nat)) by (rewrite map_length, seq_length; exact H). rewrite map_nth, seq_nth by exact H. reflexivity. Qed.
Lemma scaled_spec rms n f l : l <> OtherLaw -> exists k, scaled_amps rms n f l = Ok (map (fun i => k * base l f i) (seq 0 n)) /\
  ((f < n)%nat -> 0 < squares (map (base l f) (seq 0 n)) /\ k = rms / sqrt (squares (map (base l f) (seq 0 n)))).
Proof.
  intros N. unfold scaled_amps. rewrite (map_res_pure' _ (base l f)).
  - cbn [bind]. rewrite total_squares. set (b := map (base l f) (seq 0 n)). destruct (Rlt_dec 0 (sqrt (squares b))) as [P|P].
    + exists (rms / sqrt (squares b)). split.
      * f_equal. unfold b at 2. rewrite map_map. apply map_ext. intros i. ring.
      * intros F. split; [|reflexivity]. destruct (Rle_lt_or_eq_dec 0 (squares b) (squares_nonneg b)) as [G|G]; [exact G|]. rewrite <- G, sqrt_0 in P. lra.
    + assert (Z0 : squares b = 0). { destruct (Rle_lt_or_eq_dec 0 (squares b) (squares_nonneg b)) as [G|G]; [|now symmetry]. exfalso. apply P. now apply sqrt_lt_R0. }
      exists 1. split; [f_equal; apply map_ext; intros i; ring|]. intros F. exfalso.
      assert (In (base l f f) b) by (apply in_map, in_seq; lia). apply squares_elem in H. unfold base in H. rewrite Nat.ltb_irrefl in H. assert (W := weight_pos l (Z.to_nat (order_of (Z.of_nat f + 1)))). nra.
  - intros i _. unfold base. destruct (i <? f)%nat; [reflexivity|]. destruct (order_split i) as (m & d & D & ->). rewrite order_at, Nat2Z.id by exact D. now apply weight_spec.
Qed.

(* ---------------------------------------------------------------- random numbers *)
Lemma normal_value g k draw : (1 <= k)%nat -> r_dist g = Normal -> fits k (values (r_amp g)) -> fits k (values (r_const g)) -> (r_vsize g = 1 \/ r_vsize g = k)%nat -> r_out g = k -> length draw = k ->
  exists v, random_trigger g draw = Ok v /\ length v = k /\ forall i, (i < k)%nat -> nth i v 0 = nth i draw 0 * at_ (values (r_amp g)) i + at_ (values (r_const g)) i.
Proof.
  intros Hk D Fa Fc Hv Ho Hd. unfold random_trigger. rewrite D.
  destruct (zipb_fits Rmult k draw (values (r_amp g)) Hk (or_intror Hd) Fa) as (a & -> & F1 & _ & _ & V1). cbn [bind].
  destruct (zipb_fits Rplus k a (values (r_const g)) Hk F1 Fc) as (b & -> & F2 & _ & _ & V2). cbn [bind].
  destruct (fits_ones k (r_vsize g) Hv) as [F6 V6].
  destruct (zipb_fits Rmult k b (repeat 1 (r_vsize g)) Hk F2 F6) as (v0 & -> & F7 & _ & _ & V7). cbn [bind]. rewrite Ho.
  destruct (assign_fits k v0 Hk F7) as (v & -> & L & V8). exists v. repeat split; [exact L|]. intros i Hi. rewrite V8, V7, V6, V2, V1 by exact Hi.
  replace (at_ draw i) with (nth i draw 0); [ring|]. destruct (Nat.eq_dec (length draw) 1) as [O|O]; [|symmetry; apply at_nth; lia]. destruct (at_one draw O) as (x & -> & _). cbn in *. replace i with 0%nat by lia. reflexivity.
Qed.
Lemma uniform_value g k draw : (1 <= k)%nat -> r_dist g = Uniform -> fits k (values (r_amp g)) -> fits k (values (r_const g)) -> (r_vsize g = 1 \/ r_vsize g = k)%nat -> r_out g = k -> length draw = k ->
  exists v, random_trigger g draw = Ok v /\ length v = k /\ forall i, (i < k)%nat -> nth i v 0 = at_ (values (r_const g)) i + at_ (values (r_amp g)) i * (nth i draw 0 - 1 / 2).
Proof.
  intros Hk D Fa Fc Hv Ho Hd. unfold random_trigger. rewrite D. set (half := map (fun a => a / 2) (values (r_amp g))).
  assert (Fh : fits k half) by (unfold fits, half; rewrite map_length; exact Fa).
  destruct (zipb_fits Rminus k (values (r_const g)) half Hk Fc Fh) as (lo & -> & F1 & _ & _ & V1). cbn [bind].
  destruct (zipb_fits Rplus k (values (r_const g)) half Hk Fc Fh) as (hi & -> & F2 & _ & _ & V2). cbn [bind].
  destruct (zipb_fits Rminus k hi lo Hk F2 F1) as (w & -> & F3 & _ & _ & V3). cbn [bind].
  replace ((length w =? length draw) || (length w =? 1))%nat with true by (symmetry; apply orb_true_iff; rewrite !Nat.eqb_eq; destruct F3; lia). cbn [negb].
  destruct (zipb_fits Rmult k w draw Hk F3 (or_intror Hd)) as (a & -> & F4 & _ & _ & V4). cbn [bind].
  destruct (zipb_fits Rplus k lo a Hk F1 F4) as (b & -> & F5 & _ & _ & V5). cbn [bind].
  destruct (fits_ones k (r_vsize g) Hv) as [F6 V6].
  destruct (zipb_fits Rmult k b (repeat 1 (r_vsize g)) Hk F5 F6) as (v0 & -> & F7 & _ & _ & V7). cbn [bind]. rewrite Ho.
  destruct (assign_fits k v0 Hk F7) as (v & -> & L & V8). exists v. repeat split; [exact L|]. intros i Hi. rewrite V8, V7, V6, V5, V4, V3, V2, V1 by exact Hi.
  unfold half. rewrite at_map by (destruct Fa; lia). replace (at_ draw i) with (nth i draw 0); [field|]. destruct (Nat.eq_dec (length draw) 1) as [O|O]; [|symmetry; apply at_nth; lia]. destruct (at_one draw O) as (x & -> & _). cbn in *. replace i with 0%nat by lia. reflexivity.
Qed.
