(* C56: the X and Y parts of a slope vector and its maps. *)
From Coq Require Import String List ZArith Bool Arith Lia Permutation QArith Qcanon.
From Verif Require Import PyBase PyLemmas Arith ArithLemmas NpModel NpSpec NpProofs NpSegments VecModel SlopesModel SlopesSpec SlopesProofs Properties_Filter.
Import ListNotations.
Local Open Scope nat_scope.

Section P.
Variable A : arith.
Implicit Types s : slopes A.

(* After construction every element is either an X or a Y slope, unless the vector is
   interleaved and has an odd number of elements. *)
Theorem C56_construction (v : vec A) inter : inter = false \/ Nat.Even (length v) ->
  let s := new_slopes A v inter in halves (length v) (sl_ix s) (sl_iy s) /\ sl_val s = v.
Proof.
  intros H. cbn zeta. split; [|reflexivity]. unfold new_slopes, halves. cbn [sl_ix sl_iy]. destruct inter.
  - destruct H as [H|[k Hk]]; [discriminate|]. unfold inter_x, inter_y, inter_x. rewrite Hk.
    replace (2 * k / 2) with k by (rewrite Nat.mul_comm, Nat.div_mul; lia). apply Permutation_sym, evens_odds.
  - unfold arange. rewrite <- map_app. apply Permutation_map. rewrite Nat.sub_0_r.
    assert (D : length v / 2 <= length v) by (apply Nat.div_le_upper_bound; lia).
    set (h := length v / 2) in *. assert (E : length v = h + (length v - h)) by lia. rewrite E at 2. rewrite seq_app. reflexivity.
Qed.

(* Interleaved vectors of odd size: the last element is neither an X nor a Y slope. *)
Theorem C56_interleaved_odd (v : vec A) : Nat.Odd (length v) ->
  let s := new_slopes A v true in halves (length v - 1) (sl_ix s) (sl_iy s).
Proof.
  intros [k Hk]. cbn zeta. unfold new_slopes, halves. cbn [sl_ix sl_iy]. unfold inter_x, inter_y, inter_x. rewrite Hk.
  replace ((2 * k + 1) / 2) with k by (rewrite Nat.mul_comm, Nat.div_add_l by lia; cbn; lia).
  replace (2 * k + 1 - 1) with (2 * k) by lia. apply Permutation_sym, evens_odds.
Qed.

(* After a change of size the first 2*(n/2) elements are covered. *)
Theorem C56_resize s n : let r := resize A s n in
  halves (2 * (n / 2)) (sl_ix r) (sl_iy r) /\ sl_val r = repeat zer n /\ sl_inter r = sl_inter s.
Proof.
  cbn zeta. split; [|split; reflexivity]. unfold resize, halves. cbn [sl_ix sl_iy]. destruct (sl_inter s).
  - unfold inter_x, inter_y, inter_x. apply Permutation_sym, evens_odds.
  - unfold arange. rewrite Nat.sub_0_r, map_map. set (k := n / 2).
    replace (map (fun x => (Z.of_nat x + Z.of_nat k)%Z) (seq 0 k)) with (map Z.of_nat (seq k k)).
    + rewrite <- map_app. apply Permutation_map. replace (2 * k) with (k + k) by lia. rewrite seq_app. reflexivity.
    + rewrite <- (seq_shift0 k k). rewrite map_map. apply map_ext. intros x. lia.
Qed.

(* Even sizes: resizing and constructing agree. *)
Theorem C56_resize_like_new s n : Nat.Even n ->
  let r := resize A s n in let c := new_slopes_len A n (sl_inter s) in
  sl_val r = sl_val c /\ sl_ix r = sl_ix c /\ sl_iy r = sl_iy c.
Proof.
  intros [k Hk]. cbn zeta. unfold resize, new_slopes_len, new_slopes. cbn [sl_val sl_ix sl_iy].
  assert (L : length (@zeros A n) = n) by apply repeat_length. rewrite L. split; [reflexivity|].
  destruct (sl_inter s); [split; reflexivity|]. split; [reflexivity|]. unfold arange. rewrite Nat.sub_0_r, map_map.
  assert (E : n / 2 = k) by (rewrite Hk, Nat.mul_comm, Nat.div_mul; lia). rewrite E. replace (n - k) with k by lia.
  rewrite <- (seq_shift0 k k), map_map. apply map_ext. intros x. lia.
Qed.

(* The X slopes are the first half and the Y slopes the second half. *)
Theorem C56_sequential (v : vec A) : let s := new_slopes A v false in
  xslopes A s = Ok (firstn (length v / 2) v) /\ yslopes A s = Ok (skipn (length v / 2) v).
Proof.
  cbn zeta. assert (D : length v / 2 <= length v) by (apply Nat.div_le_upper_bound; lia).
  assert (G : forall a k, a + k <= length v -> take_list v (arange a (a + k)) = Ok (firstn k (skipn a v))).
  { intros a k H. unfold take_list, arange. rewrite index_id.
    - cbn [bind]. replace (a + k - a) with k by lia. rewrite <- (gather_segment v k a H). reflexivity.
    - intros i Hi. apply in_map_iff in Hi as (q & <- & Hq). apply in_seq in Hq. unfold zlen. lia. }
  unfold xslopes, yslopes, new_slopes. cbn [sl_val sl_ix sl_iy]. split.
  - apply (G 0). lia.
  - assert (Q := G (length v / 2) (length v - length v / 2)). replace (length v / 2 + (length v - length v / 2)) with (length v) in Q by lia.
    rewrite Q by lia. rewrite firstn_all2; [reflexivity|]. rewrite skipn_length. lia.
Qed.

Lemma inter_step (x y : A) v : forall is, (forall i, In i is -> 0 <= i < zlen v)%Z ->
  take_list (x :: y :: v) (map (fun i => (i + 2)%Z) is) = take_list v is.
Proof.
  intros is H. destruct (take_list_range v is H) as [out E]. rewrite E. apply take_list_at in E; [|exact H].
  apply take_list_at.
  - intros i Hi. apply in_map_iff in Hi as (j & <- & Hj). specialize (H j Hj). unfold zlen in *. cbn [length]. lia.
  - destruct E as [L E]. split; [now rewrite map_length|]. intros k p Hp. rewrite nth_error_map in Hp.
    destruct (nth_error is k) as [i|] eqn:Ei; [|discriminate]. cbn in Hp. injection Hp as <-.
    destruct (E k i Ei) as [R ->]. split; [cbn [length]; lia|]. replace (Z.to_nat (i + 2)) with (S (S (Z.to_nat i))) by lia. reflexivity.
Qed.

Lemma inter_x_SS n : inter_x (S (S n)) = 0%Z :: map (fun i => (i + 2)%Z) (inter_x n).
Proof.
  unfold inter_x, arange. rewrite !Nat.sub_0_r. replace (S (S n) / 2) with (S (n / 2)).
  - cbn [seq map]. f_equal. rewrite <- seq_shift, !map_map. apply map_ext. intros x. lia.
  - replace (S (S n)) with (n + 1 * 2) by lia. rewrite Nat.div_add by lia. lia.
Qed.
Lemma inter_x_range n i : In i (inter_x n) -> (0 <= i /\ i + 1 < Z.of_nat n)%Z.
Proof.
  unfold inter_x, arange. rewrite Nat.sub_0_r. intros H. apply in_map_iff in H as (z & <- & H).
  apply in_map_iff in H as (k & <- & H). apply in_seq in H. assert (D := Nat.mul_div_le n 2). lia.
Qed.

Lemma take_list_cons {V} (l : list V) i is v : nth_error l i = Some v ->
  take_list l (Z.of_nat i :: is) = (r <- take_list l is ;; Ok (v :: r)).
Proof.
  intros H. assert (Hi : i < length l) by (apply nth_error_Some; congruence). unfold take_list. cbn [map_res].
  rewrite (proj2 (index_pos_iff (zlen l) (Z.of_nat i) (Z.of_nat i) ltac:(unfold zlen; lia))) by (unfold denotes, zlen; lia).
  cbn [bind]. destruct (map_res (index_pos (zlen l)) is) as [ps|e]; cbn [bind]; [|reflexivity].
  unfold gather. cbn [map_res]. unfold at_pos at 1. rewrite Nat2Z.id, H. cbn [bind]. reflexivity.
Qed.

(* Interleaved vectors: X and Y slopes take turns. *)
Theorem C56_interleaved (v : vec A) : let s := new_slopes A v true in
  xslopes A s = Ok (fst (interleaved v)) /\ yslopes A s = Ok (snd (interleaved v)).
Proof.
  cbn zeta. unfold xslopes, yslopes, new_slopes. cbn [sl_val sl_ix sl_iy].
  assert (G : forall n v, length v <= n -> take_list v (inter_x (length v)) = Ok (fst (interleaved v)) /\
                           take_list v (inter_y (length v)) = Ok (snd (interleaved v : vec A * vec A))).
  { clear v. intros n. induction n as [|n IH]; intros v L; destruct v as [|x [|y r]]; try (split; reflexivity); try (cbn in L; lia).
    destruct (IH r ltac:(cbn in L; lia)) as [IHx IHy]. cbn [length]. unfold inter_y. rewrite inter_x_SS.
    cbn [interleaved map]. destruct (interleaved r) as [a b] eqn:Er. cbn [fst snd] in *.
    assert (R : forall i, In i (inter_x (length r)) -> (0 <= i < zlen r)%Z).
    { intros i Hi. apply inter_x_range in Hi. unfold zlen. lia. }
    split.
    - change 0%Z with (Z.of_nat 0). rewrite (take_list_cons _ 0 _ x) by reflexivity. rewrite inter_step by exact R. now rewrite IHx.
    - change (0 + 1)%Z with (Z.of_nat 1). rewrite (take_list_cons _ 1 _ y) by reflexivity.
      replace (map (fun i => (i + 1)%Z) (map (fun i => (i + 2)%Z) (inter_x (length r)))) with (map (fun i => (i + 2)%Z) (inter_y (length r)))
        by (unfold inter_y; rewrite !map_map; apply map_ext; intros z; lia).
      rewrite inter_step; [now rewrite IHy|]. intros i Hi. unfold inter_y in Hi. apply in_map_iff in Hi as (j & <- & Hj).
      apply inter_x_range in Hj. unfold zlen. lia. }
  exact (G (length v) v (le_n _)).
Qed.

(* Writing X and Y slopes, in either order, and reading them back. *)
Theorem C56_write_read s n (vx vy : vec A) :
  halves n (sl_ix s) (sl_iy s) -> n <= s_size A s -> length vx = length (sl_ix s) -> length vy = length (sl_iy s) ->
  exists s1 s2, set_xslopes A s vx = Ok s1 /\ set_yslopes A s1 vy = Ok s2 /\
    xslopes A s2 = Ok vx /\ yslopes A s2 = Ok vy /\ s_size A s2 = s_size A s /\
    yslopes A s1 = yslopes A s /\
    exists t1, set_yslopes A s vy = Ok t1 /\ xslopes A t1 = xslopes A s /\ set_xslopes A t1 vx = Ok s2.
Proof.
  intros H Hn Lx Ly. destruct (covered_list (sl_val s) n (sl_ix s) (sl_iy s) H Hn) as (Rx & Ry & Nx & Ny & D).
  assert (D' : forall i, In i (sl_ix s) -> ~ In i (sl_iy s)) by (intros i Hi Hj; exact (D i Hj Hi)).
  destruct (assign_list_distinct (sl_val s) (sl_ix s) vx Nx Rx Lx) as (l1 & E1 & L1 & Q1).
  destruct (assign_list_distinct (sl_val s) (sl_iy s) vy Ny Ry Ly) as (m1 & F1 & M1 & P1).
  assert (Ry1 : in_range (zlen l1) (sl_iy s)) by (unfold zlen; rewrite L1; exact Ry).
  assert (Rx1 : in_range (zlen l1) (sl_ix s)) by (unfold zlen; rewrite L1; exact Rx).
  assert (Rxm : in_range (zlen m1) (sl_ix s)) by (unfold zlen; rewrite M1; exact Rx).
  assert (Rym : in_range (zlen m1) (sl_iy s)) by (unfold zlen; rewrite M1; exact Ry).
  destruct (assign_list_distinct l1 (sl_iy s) vy Ny Ry1 Ly) as (l2 & E2 & L2 & Q2).
  destruct (assign_list_distinct m1 (sl_ix s) vx Nx Rxm Lx) as (m2 & F2 & M2 & P2).
  exists (with_val A s l1), (with_val A s l2). unfold set_xslopes, set_yslopes, xslopes, yslopes, s_size, with_val.
  cbn [sl_val sl_ix sl_iy]. rewrite E1. cbn [bind]. split; [reflexivity|]. cbn [sl_val sl_ix sl_iy sl_inter sl_mask sl_map sl_pup sl_sub].
  rewrite E2. cbn [bind]. split; [reflexivity|].
  split; [rewrite (read_elsewhere _ _ _ _ _ Ny Ry1 Rx1 Ly D' E2); exact (read_written _ _ _ _ Nx Rx Lx E1)|].
  split; [exact (read_written _ _ _ _ Ny Ry1 Ly E2)|]. split; [congruence|].
  split; [exact (read_elsewhere _ _ _ _ _ Nx Rx Ry Lx D E1)|].
  exists (with_val A s m1). unfold with_val. rewrite F1. cbn [bind sl_val sl_ix sl_iy sl_inter sl_mask sl_map sl_pup sl_sub].
  split; [reflexivity|]. split; [exact (read_elsewhere _ _ _ _ _ Ny Ry Rx Ly D' F1)|]. rewrite F2. cbn [bind].
  replace m2 with l2; [reflexivity|]. apply nth_error_ext. intros k. rewrite Q2, P2, Q1, P1.
  replace k with (Z.to_nat (Z.of_nat k)) by lia. set (p := Z.of_nat k).
  assert (P0 : (0 <= p)%Z) by (unfold p; lia).
  assert (Px : forall q, In q (sl_ix s) -> (0 <= q)%Z) by (intros q Hq; apply (Rx q Hq)).
  assert (Py : forall q, In q (sl_iy s) -> (0 <= q)%Z) by (intros q Hq; apply (Ry q Hq)).
  destruct (in_dec Z.eq_dec p (sl_iy s)) as [Iy|Iy].
  - rewrite (scatter_other_nth _ (sl_ix s) vx p P0 Px (D p Iy)). apply In_nth_error in Iy as [j Hj].
    assert (exists y, nth_error vy j = Some y) as [y Hy].
    { destruct (nth_error vy j) eqn:E; [eauto|]. apply nth_error_None in E. assert (j < length (sl_iy s)) by (apply nth_error_Some; congruence). lia. }
    rewrite !(scatter_at (sl_iy s) _ vy j p y); auto. unfold in_range, zlen. rewrite scatter_length. exact Ry.
  - rewrite (scatter_other_nth _ (sl_iy s) vy p P0 Py Iy). destruct (in_dec Z.eq_dec p (sl_ix s)) as [Ix|Ix].
    + apply In_nth_error in Ix as [j Hj]. assert (exists y, nth_error vx j = Some y) as [y Hy].
      { destruct (nth_error vx j) eqn:E; [eauto|]. apply nth_error_None in E. assert (j < length (sl_ix s)) by (apply nth_error_Some; congruence). lia. }
      rewrite !(scatter_at (sl_ix s) _ vx j p y); auto. unfold in_range, zlen. rewrite scatter_length. exact Rx.
    + rewrite !scatter_other_nth; auto.
Qed.

(* Elements outside both index sets are not changed by the setters. *)
Theorem C56_write_local s n (vx : vec A) s1 p : halves n (sl_ix s) (sl_iy s) -> n <= s_size A s -> length vx = length (sl_ix s) ->
  set_xslopes A s vx = Ok s1 -> ~ In (Z.of_nat p) (sl_ix s) -> nth_error (sl_val s1) p = nth_error (sl_val s) p.
Proof.
  intros H Hn Lx E N. destruct (covered_list (sl_val s) n (sl_ix s) (sl_iy s) H Hn) as (Rx & Ry & Nx & Ny & D).
  destruct (assign_list_distinct (sl_val s) (sl_ix s) vx Nx Rx Lx) as (l1 & E1 & L1 & Q1). unfold set_xslopes in E. rewrite E1 in E.
  cbn [bind] in E. injection E as <-. cbn [sl_val with_val]. rewrite Q1. replace p with (Z.to_nat (Z.of_nat p)) by lia.
  apply scatter_other_nth; [lia|intros q Hq; apply (Rx q Hq)|exact N].
Qed.

(* set_value accepts exactly vectors of the same size *)
Theorem C56_set_value s (v : vec A) :
  (length v = s_size A s -> exists s1, set_value A s v = Ok s1 /\ sl_val s1 = v /\ sl_ix s1 = sl_ix s /\ sl_iy s1 = sl_iy s) /\
  (length v <> s_size A s -> set_value A s v = Err AssertionError).
Proof.
  unfold set_value. split; intros H.
  - rewrite H, Nat.eqb_refl, assign_all_ok by exact H. cbn [bind]. exists (with_val A s v). repeat split.
  - apply Nat.eqb_neq in H. now rewrite H.
Qed.

(* Maps *)
Lemma put_shows np idx (v : vec A) : NoDup idx -> in_range (Z.of_nat np) idx -> length v = length idx ->
  exists f, np_put A (zeros np) idx v = Ok f /\ shows_at zer np idx v f.
Proof.
  intros ND R L. unfold np_put. destruct v as [|x v].
  - destruct idx; [|discriminate]. exists (zeros np). split; [reflexivity|]. split; [apply repeat_length|]. split.
    + intros [|k]; discriminate.
    + intros p Hp _. unfold zeros. now apply nth_error_repeat.
  - set (w := x :: v) in *. assert (E : map (fun k => nth (k mod length w) w zer) (seq 0 (length idx)) = w).
    { rewrite <- L. apply nth_ext with zer zer; [now rewrite map_length, seq_length|]. rewrite map_length, seq_length. intros k Hk.
      rewrite nth_map_seq by exact Hk. cbn [Nat.add]. now rewrite Nat.mod_small. }
    rewrite E. assert (R' : in_range (zlen (@zeros A np)) idx) by (unfold zlen, zeros; rewrite repeat_length; exact R).
    destruct (assign_list_distinct (@zeros A np) idx w ND R' L) as (f & Ef & Lf & Qf). exists f. split; [exact Ef|].
    split; [rewrite Lf; apply repeat_length|]. rewrite Qf. split.
    + intros k i y Hi Hy. exact (scatter_at idx _ w k i y ND R' Hi Hy).
    + intros p Hp N. replace p with (Z.to_nat (Z.of_nat p)) by lia.
      rewrite (scatter_other_nth (@zeros A np) idx w (Z.of_nat p)); [|lia|intros q Hq; apply (R q Hq)|exact N].
      rewrite Nat2Z.id. unfold zeros. now apply nth_error_repeat.
Qed.

(* The maps show each X (Y) slope at its sub-aperture and zero elsewhere. *)
Theorem C56_maps s np idx vx vy :
  sl_mask s = Some np -> sl_map s = Some idx -> NoDup idx -> in_range (Z.of_nat np) idx ->
  s_size A s <> length idx -> xslopes A s = Ok vx -> yslopes A s = Ok vy -> length vx = length idx -> length vy = length idx ->
  exists fx fy, get2d A s = Ok [fx; fy] /\ shows_at zer np idx vx fx /\ shows_at zer np idx vy fy.
Proof.
  intros Em Ei ND R NE Hx Hy Lx Ly. unfold get2d, x_remap2d, y_remap2d. rewrite Em, Ei. apply Nat.eqb_neq in NE. rewrite NE, Hx, Hy. cbn [bind].
  destruct (put_shows np idx vx ND R Lx) as (fx & -> & Sx). destruct (put_shows np idx vy ND R Ly) as (fy & -> & Sy).
  cbn [bind]. exists fx, fy. auto.
Qed.

(* One value per sub-aperture (slopes from intensity): a single map. *)
Theorem C56_intensity_map s np idx :
  sl_mask s = Some np -> sl_map s = Some idx -> NoDup idx -> in_range (Z.of_nat np) idx -> s_size A s = length idx ->
  exists f, get2d A s = Ok [f] /\ shows_at zer np idx (sl_val s) f.
Proof.
  intros Em Ei ND R E. unfold get2d. rewrite Em, Ei, E, Nat.eqb_refl. destruct (put_shows np idx (sl_val s) ND R E) as (f & -> & Sf).
  cbn [bind]. exists f. auto.
Qed.

Theorem C56_no_map s : sl_mask s = None \/ sl_map s = None -> get2d A s = Err ValueError.
Proof. intros [E|E]; unfold get2d; rewrite E; [reflexivity|now destruct (sl_mask s)]. Qed.

Lemma iop_same f (u v : vec A) : length u = length v -> iop A f u v = Ok (map2 f u v).
Proof.
  intros L. unfold iop. destruct v as [|x [|y r]].
  - destruct u; [reflexivity|discriminate].
  - destruct u as [|a [|b u]]; try discriminate. reflexivity.
  - now rewrite L, Nat.eqb_refl.
Qed.

(* Adding factor times another vector of the same size and subtracting it again. *)
Theorem C56_sum_subtract s (s2 : slopes A) factor : is_field A -> s_size A s2 = s_size A s ->
  exists s1, sum_slopes A s s2 factor = Ok s1 /\ s_size A s1 = s_size A s /\
    (forall i, i < s_size A s -> nth i (sl_val s1) zer = add (nth i (sl_val s) zer) (mul (nth i (sl_val s2) zer) factor)) /\
    subtract A s1 (map (fun x => mul x factor) (sl_val s2)) = Ok s.
Proof.
  intros HF L. unfold s_size in *. set (w := map (fun x => mul x factor) (sl_val s2)).
  assert (Lw : length w = length (sl_val s)) by (unfold w; rewrite map_length; exact L).
  unfold sum_slopes. fold w. rewrite iop_same by auto. cbn [bind]. eexists. split; [reflexivity|]. cbn [sl_val with_val].
  assert (L1 : length (map2 add (sl_val s) w) = length (sl_val s)) by (rewrite map2_length; lia).
  split; [exact L1|]. split.
  - intros i Hi. rewrite (map2_nth add (sl_val s) w i zer zer zer) by lia. f_equal. unfold w.
    rewrite (nth_indep _ zer (mul zer factor)) by (rewrite map_length; lia). now rewrite (map_nth (fun x => mul x factor)).
  - assert (G : forall u : vec A, length u = length w -> map2 sub (map2 add u w) w = u).
    { pose proof (F_R HF) as HR. clear Lw L1. induction w as [|y w IH]; intros [|x u] H; try discriminate; [reflexivity|].
      cbn [map2]. f_equal; [|apply IH; cbn in H; lia].
      rewrite (Rsub_def HR), <- (Radd_assoc HR), (Ropp_def HR), (Radd_comm HR). apply (Radd_0_l HR). }
    unfold subtract. destruct w as [|y r] eqn:Ew.
    + destruct s as [[|x v] b c d e f g h]; [reflexivity|cbn in Lw; discriminate].
    + rewrite iop_same by (cbn [sl_val with_val]; lia). cbn [bind sl_val with_val]. rewrite G by lia. now destruct s.
Qed.
End P.

(* After construction a vector of 3 slopes has the Y slopes 1 and 2; after a change of size
   to 3 the last element is neither an X nor a Y slope: the two do not agree. *)
Theorem C56_resize_refuted : exists (s : slopes qc) n,
  sl_iy (new_slopes_len qc n (sl_inter s)) = [1; 2]%Z /\ sl_ix (resize qc s n) = [0]%Z /\ sl_iy (resize qc s n) = [1]%Z.
Proof. exists (new_slopes_len qc 4 false), 3. repeat split. Qed.

(* The full claim does not hold for interleaved vectors of odd size. *)
Theorem C56_construction_refuted : exists (v : vec qc), ~ halves (length v) (sl_ix (new_slopes qc v true)) (sl_iy (new_slopes qc v true)).
Proof.
  exists [qi 1; qi 2; qi 3]. intros H. apply Permutation_length in H. cbn in H. discriminate.
Qed.

(* A single sub-aperture with one map position: if the number of slopes equals the number of
   positions one map is returned, so two maps need the sizes to differ. *)
Example C56_example_interleaved :
  (sl_ix (new_slopes_len qc 6 true), sl_iy (new_slopes_len qc 6 true)) = ([0; 2; 4], [1; 3; 5])%Z.
Proof. reflexivity. Qed.
Example C56_example_write :
  match set_xslopes qc (new_slopes_len qc 5 false) [qi 7; qi 8] with
  | Ok s => match set_yslopes qc s [qi 1; qi 2; qi 3] with
            | Ok t => map this (sl_val t) = map this [qi 7; qi 8; qi 1; qi 2; qi 3]
            | Err _ => False end
  | Err _ => False end.
Proof. vm_compute. reflexivity. Qed.
Example C56_example_maps :
  match get2d qc (mkSlopes [qi 1; qi 2; qi 3; qi 4] false [0; 1]%Z [2; 3]%Z (Some 4) (Some [3; 0]%Z) None None) with
  | Ok l => map (map this) l = map (map this) [[qi 2; qi 0; qi 0; qi 1]; [qi 4; qi 0; qi 0; qi 3]]
  | Err _ => False end.
Proof. vm_compute. reflexivity. Qed.
Example C56_example_resize : sl_iy (resize qc (new_slopes_len qc 2 true) 5) = [1; 3]%Z.
Proof. reflexivity. Qed.

Print Assumptions C56_construction.
Print Assumptions C56_interleaved_odd.
Print Assumptions C56_resize.
Print Assumptions C56_resize_like_new.
Print Assumptions C56_sequential.
Print Assumptions C56_interleaved.
Print Assumptions C56_write_read.
Print Assumptions C56_write_local.
Print Assumptions C56_set_value.
Print Assumptions C56_maps.
Print Assumptions C56_intensity_map.
Print Assumptions C56_no_map.
Print Assumptions C56_sum_subtract.
Print Assumptions C56_resize_refuted.
Print Assumptions C56_construction_refuted.
