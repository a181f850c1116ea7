(* C77: zero-centred coordinates. *)
From Coq Require Import String List ZArith Bool PeanoNat Lia QArith Qcanon Lqa Field.
From Verif Require Import PyBase PyLemmas Arith ArithLemmas FilterSpec NpModel ExtModel QcTac SlopecModel SlopecSpec SlopecProofs ShProofs GridSpec Properties_Filter.
Import ListNotations.
Local Open Scope nat_scope.

(* whether the lower ends of the cells are sampled: zero_sampled only matters for even n *)
Definition ends (n : nat) (zs : bool) : bool := Nat.even n && zs.
Notation point n ratio zs := (cell_point n ratio (ends n zs)).

Lemma point_eq n ratio zs i : 0 < n -> ((qn i - (if Nat.even n && zs then half (Z.of_nat n) else half (Z.of_nat n - 1))) / half (Z.of_nat n) * ratio)%Qc = point n ratio zs i.
Proof.
  intros H. assert (N : (qnat n <> 0)%Qc) by (now apply Qc_pos_neq, qnat_pos). unfold cell_point, ends. rewrite half_nat, half_pred by exact H. rewrite qn_qnat.
  destruct (Nat.even n && zs); rewrite ?(qnat_add (2 * i) 1), (qnat_mul 2 i), qnat_2, ?qnat_1; field; split; try exact N; exact two_neq.
Qed.

Lemma map_add_seq a l : map (fun i => a + i) (seq 0 l) = seq a l.
Proof.
  assert (G : forall l b, map (fun i => a + i) (seq b l) = seq (a + b) l); [|rewrite (G l 0); f_equal; lia].
  clear l. induction l as [|l IH]; intros b; [reflexivity|]. cbn [seq map]. f_equal. rewrite IH. f_equal. lia.
Qed.
Lemma nth_repeat_lt {V} (x d : V) n i : i < n -> nth i (repeat x n) d = x.
Proof. revert i. induction n as [|n IH]; intros i H; [lia|]. destruct i; [reflexivity|]. cbn. apply IH. lia. Qed.

(* The full axis *)
Theorem C77_axis n ratio zs : 2 <= n -> make_axis n ratio zs false false = Ok (map (point n ratio zs) (seq 0 n)).
Proof.
  intros H. unfold make_axis. replace (n <=? 1) with false by (symmetry; apply Nat.leb_gt; lia). cbn [andb]. unfold axis. f_equal. apply map_ext. intros i. apply point_eq. lia.
Qed.

(* Half of the axis: its points from the middle on *)
Lemma even_double k : Nat.even (2 * k) = true. Proof. apply Nat.even_spec. now exists k. Qed.
Lemma odd_double k : Nat.even (2 * k + 1) = false. Proof. rewrite <- Nat.negb_odd. replace (Nat.odd (2 * k + 1)) with true; [reflexivity|]. symmetry. apply Nat.odd_spec. now exists k. Qed.
Lemma qnat_0 : qnat 0 = 0%Qc. Proof. reflexivity. Qed.
Theorem C77_quarter n ratio zs fft : 2 <= n -> make_axis n ratio zs true fft = Ok (map (point n ratio zs) (seq (n / 2) (n - n / 2))).
Proof.
  intros H. unfold make_axis. replace (n <=? 1) with false by (symmetry; apply Nat.leb_gt; lia). rewrite andb_false_r. f_equal. unfold axis.
  assert (N : (qnat n <> 0)%Qc) by (apply Qc_pos_neq, qnat_pos; lia).
  assert (Sz : (if Nat.even n then n / 2 else (n + 1) / 2) = n - n / 2).
  { destruct (Nat.Even_or_Odd n) as [[k ->]|[k ->]].
    - rewrite even_double. replace (2 * k / 2) with k by (rewrite Nat.mul_comm, Nat.div_mul; lia). lia.
    - rewrite odd_double. replace ((2 * k + 1 + 1) / 2) with (k + 1) by (replace (2 * k + 1 + 1) with ((k + 1) * 2) by lia; rewrite Nat.div_mul; lia).
      replace ((2 * k + 1) / 2) with k by (rewrite Nat.add_comm, Nat.mul_comm, Nat.div_add by lia; reflexivity). lia. }
  rewrite Sz. replace (seq (n / 2) (n - n / 2)) with (map (fun i => n / 2 + i) (seq 0 (n - n / 2))).
  2:{ apply map_add_seq. }
  rewrite map_map. apply map_ext. intros i. unfold cell_point, ends. rewrite half_nat.
  destruct (Nat.Even_or_Odd n) as [[k E]|[k E]]; [assert (Ev : Nat.even n = true) by (rewrite E; apply even_double)|assert (Ev : Nat.even n = false) by (rewrite E; apply odd_double)]; rewrite Ev; cbn [andb].
  - assert (D : n / 2 = k) by (rewrite E, Nat.mul_comm, Nat.div_mul; lia). rewrite D. assert (Q : qnat n = (qnat 2 * qnat k)%Qc) by (rewrite E; apply qnat_mul).
    rewrite qn_qnat. destruct zs; cbn [negb andb].
    + rewrite (qnat_mul 2 (k + i)), (qnat_add k i). rewrite Q in *. rewrite qnat_2 in *. field. split; [intros Z; apply N; rewrite Z; ring|exact two_neq].
    + change (half (-1)) with (- (1 / (1 + 1)))%Qc. rewrite (qnat_add (2 * (k + i)) 1), (qnat_mul 2 (k + i)), (qnat_add k i), qnat_1. rewrite Q in *. rewrite qnat_2 in *.
      field. split; [intros Z; apply N; rewrite Z; ring|exact two_neq].
  - assert (D : n / 2 = k) by (rewrite E, Nat.add_comm, Nat.mul_comm, Nat.div_add by lia; reflexivity). rewrite D.
    assert (Q : qnat n = (qnat 2 * qnat k + 1)%Qc) by (rewrite E, (qnat_add (2 * k) 1), (qnat_mul 2 k), qnat_1; reflexivity). rewrite qn_qnat.
    rewrite (qnat_add (2 * (k + i)) 1), (qnat_mul 2 (k + i)), (qnat_add k i), qnat_1. rewrite Q in *. rewrite qnat_2 in *.
    field. split; [exact N|exact two_neq].
Qed.

(* The order for Fourier transforms: from the middle to the end, then the rest *)
Theorem C77_fft n ratio zs : 2 <= n ->
  make_axis n ratio zs false true = Ok (map (point n ratio zs) (seq (n / 2) (n - n / 2)) ++ map (point n ratio zs) (seq 0 (n / 2))).
Proof.
  intros H. assert (E := C77_axis n ratio zs H). unfold make_axis in *. replace (n <=? 1) with false in * by (symmetry; apply Nat.leb_gt; lia). cbn [andb negb] in *.
  injection E as E. rewrite E. f_equal.
  assert (R : roll_left (n / 2) (map (point n ratio zs) (seq 0 n)) = map (point n ratio zs) (seq (n / 2) (n - n / 2)) ++ map (point n ratio zs) (seq 0 (n / 2))).
  { unfold roll_left. assert (D : n / 2 <= n) by (apply Nat.div_le_upper_bound; lia). rewrite skipn_map, firstn_map.
    replace (seq 0 n) with (seq 0 (n / 2) ++ seq (0 + n / 2) (n - n / 2)) by (rewrite <- seq_app; f_equal; lia).
    rewrite skipn_app, firstn_app, seq_length, Nat.sub_diag. cbn [skipn firstn]. rewrite app_nil_r.
    rewrite skipn_all2, firstn_all2 by (rewrite seq_length; lia). reflexivity. }
  destruct (Nat.Even_or_Odd n) as [[k Q]|[k Q]].
  - replace (Nat.even n) with true by (rewrite Q; symmetry; apply even_double). exact R.
  - replace (Nat.even n) with false by (rewrite Q; symmetry; apply odd_double). rewrite <- R. f_equal. rewrite Q.
    replace (2 * k + 1 - 1) with (k * 2) by lia. rewrite Nat.div_mul by lia. rewrite (Nat.add_comm (2 * k)), Nat.mul_comm, Nat.div_add by lia. reflexivity.
Qed.

(* Equal spacing, and symmetry about zero *)
Theorem C77_spacing n ratio zs i : 2 <= n -> (point n ratio zs (S i) - point n ratio zs i = (1 + 1) * ratio / qnat n)%Qc.
Proof.
  intros H. assert (N : (qnat n <> 0)%Qc) by (apply Qc_pos_neq, qnat_pos; lia). unfold cell_point.
  replace (2 * S i) with (2 * i + 2) by lia. replace (2 * i + 2 + 1) with (2 * i + 1 + 2) by lia. rewrite (qnat_add (2 * i) 2), (qnat_add (2 * i + 1) 2), qnat_2.
  destruct (ends n zs); field; exact N.
Qed.
Theorem C77_symmetric n ratio zs i : 2 <= n -> ends n zs = false -> i < n -> point n ratio zs (n - 1 - i) = (- point n ratio zs i)%Qc.
Proof.
  intros H E Hi. assert (N : (qnat n <> 0)%Qc) by (apply Qc_pos_neq, qnat_pos; lia). unfold cell_point. rewrite E.
  replace (2 * (n - 1 - i) + 1) with (2 * n - (2 * i + 1)) by lia. rewrite qnat_sub by lia. rewrite (qnat_mul 2 n), qnat_2. field. exact N.
Qed.
Theorem C77_symmetric_ends n ratio zs i : 2 <= n -> ends n zs = true -> 0 < i -> i < n -> point n ratio zs (n - i) = (- point n ratio zs i)%Qc.
Proof.
  intros H E Hz Hi. assert (N : (qnat n <> 0)%Qc) by (apply Qc_pos_neq, qnat_pos; lia). unfold cell_point. rewrite E.
  replace (2 * (n - i)) with (2 * n - 2 * i) by lia. rewrite qnat_sub by lia. rewrite (qnat_mul 2 n), qnat_2. field. exact N.
Qed.

(* All points are in the interval; those of the second half are not negative and those of
   the first half are negative. *)
Lemma frac_range a n ratio : 0 < n -> (0 < ratio)%Qc ->
  ((- qnat n <= a)%Qc -> (- ratio <= a / qnat n * ratio)%Qc) /\ ((a < qnat n)%Qc -> (a / qnat n * ratio < ratio)%Qc) /\
  ((0 <= a)%Qc -> (0 <= a / qnat n * ratio)%Qc) /\ ((a < 0)%Qc -> (a / qnat n * ratio < 0)%Qc).
Proof.
  intros H P. assert (N := qnat_pos n H). assert (E : (this (a / qnat n)%Qc * this (qnat n) == this a)%Q).
  { rewrite this_div. field. apply Qc_pos_neq in N. now apply Qc_neq in N. }
  set (q := (a / qnat n)%Qc) in *. clearbody q. unfold Qcle, Qclt in *. rewrite ?this_opp, ?this_mul, ?this_opp. change (this 0%Qc) with 0%Q in *.
  repeat split; intros L; rewrite ?this_opp in L; nra.
Qed.
Theorem C77_inside n ratio zs i : 2 <= n -> (0 < ratio)%Qc -> i < n ->
  (- ratio <= point n ratio zs i)%Qc /\ (point n ratio zs i < ratio)%Qc /\
  (n / 2 <= i -> (0 <= point n ratio zs i)%Qc) /\ (i < n / 2 -> (point n ratio zs i < 0)%Qc).
Proof.
  intros H P Hi. set (u := if ends n zs then 2 * i else 2 * i + 1).
  assert (Ep : point n ratio zs i = ((qnat u - qnat n) / qnat n * ratio)%Qc) by (unfold cell_point, u; now destruct (ends n zs)). rewrite Ep.
  destruct (frac_range (qnat u - qnat n)%Qc n ratio ltac:(lia) P) as (F1 & F2 & F3 & F4).
  assert (Lt : forall a b, a < b -> (qnat a < qnat b)%Qc).
  { intros a b L. assert (Q := qnat_pos (b - a) ltac:(lia)). rewrite qnat_sub in Q by lia. qclra. }
  assert (Le : forall a b, a <= b -> (qnat a <= qnat b)%Qc).
  { intros a b L. assert (Q := qnat_ge (b - a)). rewrite qnat_sub in Q by lia. qclra. }
  assert (Dn : n = 2 * (n / 2) \/ n = 2 * (n / 2) + 1).
  { assert (Q := Nat.div_mod n 2 ltac:(lia)). assert (B := Nat.mod_upper_bound n 2 ltac:(lia)). lia. }
  assert (En : ends n zs = true -> n = 2 * (n / 2)).
  { intros E. unfold ends in E. apply andb_prop in E as [E _]. destruct Dn as [D|D]; [exact D|]. rewrite D, odd_double in E. discriminate. }
  split; [|split; [|split]].
  - apply F1. assert (Q := qnat_ge u). qclra.
  - apply F2. assert (L : u < 2 * n) by (unfold u; destruct (ends n zs); lia). apply Lt in L. rewrite (qnat_mul 2 n), qnat_2 in L. qclra.
  - intros L. apply F3. assert (Q : n <= u). { unfold u. destruct (ends n zs); [specialize (En eq_refl); lia|lia]. } apply Le in Q. qclra.
  - intros L. apply F4. assert (Q : u < n) by (unfold u; destruct (ends n zs); lia). apply Lt in Q. qclra.
Qed.

(* Zero is one of the points if n is odd or if it is asked for, and only then. *)
Theorem C77_zero n ratio zs : 2 <= n -> (0 < ratio)%Qc ->
  ((exists i, i < n /\ point n ratio zs i = 0%Qc) <-> (Nat.even n = false \/ zs = true)).
Proof.
  intros H P. assert (N : (0 < qnat n)%Qc) by (apply qnat_pos; lia). assert (N' := Qc_pos_neq _ N).
  assert (Inj : forall u, ((qnat u - qnat n) / qnat n * ratio = 0)%Qc -> u = n).
  { intros u E. assert (Z : (qnat u = qnat n)%Qc).
    { replace (qnat u) with ((qnat u - qnat n) / qnat n * ratio * (qnat n / ratio) + qnat n)%Qc by (field; split; [now apply Qc_pos_neq|exact N']). rewrite E. ring. }
    destruct (Nat.lt_trichotomy u n) as [L|[L|L]]; [exfalso|exact L|exfalso].
    - assert (Q := qnat_pos (n - u) ltac:(lia)). rewrite qnat_sub in Q by lia. qclra.
    - assert (Q := qnat_pos (u - n) ltac:(lia)). rewrite qnat_sub in Q by lia. qclra. }
  split.
  - intros (i & Hi & E). unfold cell_point, ends in E. destruct (Nat.even n) eqn:Ev; [|now left]. destruct zs; [now right|]. cbn [andb] in E. apply Inj in E.
    rewrite <- E, odd_double in Ev. discriminate.
  - intros Hz. exists (n / 2). split; [apply Nat.div_lt; lia|]. unfold cell_point, ends. destruct (Nat.even n) eqn:Ev.
    + destruct Hz as [Hz| ->]; [discriminate|]. cbn [andb]. apply Nat.even_spec in Ev as [k Ev]. replace (2 * (n / 2)) with n; [unfold Qcdiv; ring|].
      rewrite Ev. replace (2 * k / 2) with k by (rewrite Nat.mul_comm, Nat.div_mul; lia). reflexivity.
    + cbn [andb]. destruct (Nat.Even_or_Odd n) as [[k E]|[k E]]; [rewrite E, even_double in Ev; discriminate|].
      replace (2 * (n / 2) + 1) with n; [unfold Qcdiv; ring|]. rewrite E. rewrite (Nat.add_comm (2 * k)), Nat.mul_comm, Nat.div_add by lia. cbn. lia.
Qed.

(* The two-dimensional grid: the first array changes along its rows, the second along its
   columns. *)
Theorem C77_grid n ratio zs quarter fft v : make_axis n ratio zs quarter fft = Ok v ->
  exists x y, make_xy n ratio zs quarter fft = Ok (x, y) /\ length x = length v /\ length y = length v /\
    forall i j, i < length v -> j < length v -> nth j (nth i x []) 0%Qc = nth j v 0%Qc /\ nth j (nth i y []) 0%Qc = nth i v 0%Qc.
Proof.
  intros E. unfold make_xy. rewrite E. cbn [bind]. do 2 eexists. split; [reflexivity|]. rewrite repeat_length, map_length. split; [reflexivity|]. split; [reflexivity|].
  intros i j Hi Hj. split.
  - rewrite nth_repeat_lt by exact Hi. reflexivity.
  - rewrite (nth_indep (map (fun u => repeat u (length v)) v) [] ((fun u => repeat u (length v)) 0%Qc)) by (rewrite map_length; exact Hi).
    rewrite (map_nth (fun u => repeat u (length v))). now rewrite nth_repeat_lt.
Qed.

Theorem C77_too_small n ratio zs quarter fft : n <= 1 -> make_xy n ratio zs quarter fft = Err ValueError.
Proof. intros H. unfold make_xy, make_axis. now replace (n <=? 1) with true by (symmetry; apply Nat.leb_le; exact H). Qed.

Definition see_axis (r : res (list Qc)) : res (list Q) := v <- r ;; Ok (map this v).
Example C77_example :
  see_axis (make_axis 4 1%Qc false false false) = Ok [-3 # 4; -1 # 4; 1 # 4; 3 # 4]%Q /\
  see_axis (make_axis 4 1%Qc true false false) = Ok [-1; -1 # 2; 0; 1 # 2]%Q /\
  see_axis (make_axis 5 1%Qc false false false) = Ok [-4 # 5; -2 # 5; 0; 2 # 5; 4 # 5]%Q /\
  see_axis (make_axis 4 1%Qc false false true) = Ok [1 # 4; 3 # 4; -3 # 4; -1 # 4]%Q /\
  see_axis (make_axis 5 1%Qc true false true) = Ok [0; 2 # 5; 4 # 5; -4 # 5; -2 # 5]%Q /\
  see_axis (make_axis 5 (qi 10) false true false) = Ok [0; 4; 8]%Q.
Proof. vm_compute. repeat split. Qed.

(* Claim: the points are always symmetric about zero. *)
Theorem C77_symmetric_refuted : exists n ratio v, make_axis n ratio true false false = Ok v /\ map (fun x => (- x)%Qc) v <> rev v.
Proof. exists 4, 1%Qc. eexists. split; [reflexivity|]. vm_compute. discriminate. Qed.

Print Assumptions C77_axis.
Print Assumptions C77_quarter.
Print Assumptions C77_fft.
Print Assumptions C77_spacing.
Print Assumptions C77_symmetric.
Print Assumptions C77_symmetric_ends.
Print Assumptions C77_inside.
Print Assumptions C77_zero.
Print Assumptions C77_grid.
Print Assumptions C77_too_small.
Print Assumptions C77_symmetric_refuted.
