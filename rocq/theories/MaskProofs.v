(* Proofs about masks. *)
From Coq Require Import List Sorted ZArith Bool Arith QArith Qcanon Lqa Lia.
From Verif Require Import PyBase PyLemmas Arith OpticalModel NpModel SlopecModel InterpModel QcTac CalibProofs MaskModel.
Import ListNotations.
Local Open Scope Qc_scope.

(* the coordinate of the centre of pixel i, on a side of n pixels that goes from -1 to 1 *)
Definition coord (n i : nat) : Qc := qz (2 * Z.of_nat i + 1 - Z.of_nat n) / qz (Z.of_nat n).
Definition table (n : nat) (f : nat -> nat -> bool) : bmatrix := map (fun i => map (f i) (seq 0 n)) (seq 0 n).

Lemma this_qz z : (this (qz z) == inject_Z z)%Q. Proof. apply this_q. Qed.
Lemma qz_pos n : (0 < n)%nat -> (0 < inject_Z (Z.of_nat n))%Q.
Proof. intros H. change 0%Q with (inject_Z 0). rewrite <- Zlt_Qlt. lia. Qed.
Lemma axis_coord n : (0 < n)%nat -> axis n 1 false false = map (coord n) (seq 0 n).
Proof.
  intros H. unfold axis. rewrite andb_false_r. apply map_ext. intros i. apply Qc_iff. unfold coord. rewrite this_mul, !this_div, this_sub. unfold qn, half. rewrite !this_q, !this_qz.
  pose proof (qz_pos n H) as P. rewrite !Z.sub_opp_r || idtac. unfold Z.sub. rewrite !inject_Z_plus, inject_Z_mult, inject_Z_opp. change (inject_Z 2) with 2%Q. change (inject_Z 1) with 1%Q. change (inject_Z (-1)) with (-1)%Q.
  setoid_replace ((Z.of_nat n + -1) # 2)%Q with ((inject_Z (Z.of_nat n) - 1) / 2)%Q.
  - setoid_replace (Z.of_nat n # 2)%Q with (inject_Z (Z.of_nat n) / 2)%Q; [change (this 1) with 1%Q; field; lra|].
    unfold inject_Z, Qdiv, Qeq, Qmult, Qinv. cbn. lia.
  - unfold inject_Z, Qdiv, Qeq, Qminus, Qplus, Qopp, Qmult, Qinv. cbn. lia.
Qed.
Lemma combine_repeat_l {A B} (a : A) n (l : list B) : length l = n -> combine (repeat a n) l = map (fun b => (a, b)) l.
Proof. intros <-. induction l; cbn; congruence. Qed.
Lemma combine_repeat_r {A B} (b : B) n (l : list A) : length l = n -> combine l (repeat b n) = map (fun a => (a, b)) l.
Proof. intros <-. induction l; cbn; congruence. Qed.
Lemma grid n (c : nat -> Qc) (lit : Qc -> Qc -> bool) :
  map (fun rows => map (fun p => lit (fst p) (snd p)) (combine (fst rows) (snd rows))) (combine (repeat (map c (seq 0 n)) n) (map (fun v => repeat v n) (map c (seq 0 n)))) =
  table n (fun i j => lit (c j) (c i)).
Proof.
  assert (L : length (map c (seq 0 n)) = n) by now rewrite map_length, seq_length.
  assert (L2 : length (map (fun v => repeat v n) (map c (seq 0 n))) = n) by now rewrite map_length.
  rewrite combine_repeat_l, !map_map by exact L2. unfold table. apply map_ext. intros i. cbn [fst snd]. rewrite combine_repeat_r, !map_map by exact L. reflexivity.
Qed.
Lemma negb_table n f : map (map negb) (table n f) = table n (fun i j => negb (f i j)).
Proof. unfold table. rewrite map_map. apply map_ext. intros. apply map_map. Qed.
Lemma make_xy_ok n : (2 <= n)%nat -> make_xy n 1 false false false = Ok (repeat (map (coord n) (seq 0 n)) n, map (fun v => repeat v n) (map (coord n) (seq 0 n))).
Proof.
  intros H. unfold make_xy, make_axis. replace (n <=? 1)%nat with false by (symmetry; apply Nat.leb_gt; lia). cbn [andb bind]. rewrite axis_coord by lia. now rewrite map_length, seq_length.
Qed.
Definition litf (square : bool) := if square then lit_square else lit_round.
Definition dia (d : option Qc) : Qc := match d with Some v => v | None => 1 end.
Definition obs (d : option Qc) : Qc := match d with Some v => v | None => 0 end.
Lemma make_mask_small n o d xc yc s inv cp : (n <= 1)%nat -> make_mask n o d xc yc s inv cp = Err ValueError.
Proof. intros H. unfold make_mask, make_xy, make_axis. now replace (n <=? 1)%nat with true by (symmetry; apply Nat.leb_le; lia). Qed.
Lemma make_mask_eq n o d xc yc s inv : (2 <= n)%nat ->
  make_mask n o d xc yc s inv false = Ok (table n (fun i j => xorb inv (litf s (dia d) (obs o) xc yc (coord n j) (coord n i)))).
Proof.
  intros H. unfold make_mask. rewrite make_xy_ok by exact H. cbn [bind fst snd]. fold (dia d) (obs o). change (if s then lit_square else lit_round) with (litf s).
  rewrite (grid n (coord n) (litf s (dia d) (obs o) xc yc)). destruct inv; [rewrite negb_table|]; f_equal; unfold table; apply map_ext; intros i; apply map_ext; intros j; now destruct (litf _ _ _ _ _ _ _).
Qed.
Lemma argmin_repeat v n : argmin (repeat v (S n)) = Ok 0%nat.
Proof.
  cbn. f_equal. generalize 1%nat. induction n as [|n IH]; intros p; [reflexivity|]. cbn. replace (qlt v v) with false; [apply IH|]. symmetry. apply qlt_false. lra.
Qed.
Lemma map_repeat {A B} (f : A -> B) a n : map f (repeat a n) = repeat (f a) n. Proof. induction n; cbn; congruence. Qed.
Lemma take1_repeat {V} (v : V) n i : (- Z.of_nat n <= i < Z.of_nat n)%Z -> take1 (repeat v n) i = Ok v.
Proof.
  intros H. unfold take1, index_pos, zlen. rewrite repeat_length. cbv zeta.
  set (k := if (i <? 0)%Z then (i + Z.of_nat n)%Z else i). assert (K : (0 <= k < Z.of_nat n)%Z) by (unfold k; destruct (Z.ltb_spec i 0); lia).
  replace ((i <? - Z.of_nat n)%Z || (Z.of_nat n <=? i)%Z) with false by (symmetry; apply orb_false_iff; split; [apply Z.ltb_ge|apply Z.leb_gt]; lia).
  cbn [bind]. unfold at_pos. fold k. rewrite nth_error_repeat by lia. reflexivity.
Qed.
Lemma map_res_repeat {A B} (f : A -> res B) a b n : f a = Ok b -> map_res f (repeat a n) = Ok (repeat b n).
Proof. intros H. induction n as [|n IH]; [reflexivity|]. cbn. rewrite H. cbn. now rewrite IH. Qed.
Lemma at2_repeat x n i : (- Z.of_nat n <= i < Z.of_nat n)%Z -> at2 (repeat x n) i 0 = take1 x 0.
Proof. intros H. unfold at2. rewrite take1_repeat by exact H. reflexivity. Qed.
Lemma recentre_x_first x0 x n xc : (2 <= n)%nat -> recentre_x (repeat (x0 :: x) n) xc = Ok x0.
Proof.
  intros H. unfold recentre_x. assert (T : take1 (x0 :: x) 0 = Ok x0) by reflexivity. rewrite (map_res_repeat (fun r => take1 r 0%Z) (x0 :: x) x0 n T). cbn [bind]. unfold closest. rewrite map_repeat. destruct n as [|n]; [lia|]. rewrite argmin_repeat. cbn [bind].
  rewrite !at2_repeat by lia. rewrite T. cbn [bind]. f_equal. ring.
Qed.
Lemma recentre_y_first y0 y n yc : (2 <= n)%nat -> recentre_y (map (fun v => repeat v n) (y0 :: y)) yc = Ok y0.
Proof.
  intros H. unfold recentre_y. cbn [map]. assert (T : take1 (repeat y0 n :: map (fun v => repeat v n) y) 0 = Ok (repeat y0 n)) by reflexivity. rewrite T. cbn [bind]. unfold closest. rewrite map_repeat. destruct n as [|n]; [lia|]. rewrite argmin_repeat. cbn [bind].
  unfold at2. rewrite T. cbn [bind]. rewrite !take1_repeat by lia. cbn [bind]. f_equal. ring.
Qed.
Lemma centre_on_pixel n o d xc yc s inv : (2 <= n)%nat -> make_mask n o d xc yc s inv true = make_mask n o d (coord n 0) (coord n 0) s inv false.
Proof.
  intros H. unfold make_mask. rewrite make_xy_ok by exact H. cbn [bind fst snd]. 
  set (xs := map (coord n) (seq 0 n)).
  assert (E : xs = coord n 0 :: map (coord n) (seq 1 (n - 1))) by (unfold xs; destruct n as [|n]; [lia|]; cbn; now rewrite Nat.sub_0_r).
  assert (R1 : recentre_x (repeat xs n) xc = Ok (coord n 0)) by (rewrite E; now apply recentre_x_first).
  assert (R2 : recentre_y (map (fun v => repeat v n) xs) yc = Ok (coord n 0)) by (rewrite E; now apply recentre_y_first).
  rewrite R1. cbn [bind]. rewrite R2. reflexivity.
Qed.

(* pixel (i, j) *)
Definition px (m : bmatrix) (i j : nat) : bool := nth j (nth i m []) false.
Lemma nth_map_seq {B} (f : nat -> B) n i d : (i < n)%nat -> nth i (map f (seq 0 n)) d = f i.
Proof. intros H. rewrite (nth_indep _ d (f 0%nat)) by (rewrite map_length, seq_length; exact H). rewrite map_nth, seq_nth by exact H. reflexivity. Qed.
Lemma px_table n f i j : (i < n)%nat -> (j < n)%nat -> px (table n f) i j = f i j.
Proof. intros Hi Hj. unfold px, table. rewrite nth_map_seq by exact Hi. now rewrite nth_map_seq. Qed.
Lemma qabs_le a b : negb (qlt b (qabs a)) = true <-> (- this b <= this a <= this b)%Q.
Proof.
  rewrite negb_true_iff, qlt_false. unfold qabs. destruct (qlt a 0) eqn:E; [apply qlt_true in E|apply qlt_false in E]; change (this 0) with 0%Q in E; rewrite ?this_opp; split; intros; try split; lra.
Qed.
Lemma qge_true a b : qge a b = true <-> (this b <= this a)%Q.
Proof. unfold qge. now rewrite negb_true_iff, qlt_false. Qed.
Lemma sq_opp a b : sq (- a - b) = sq (a + b). Proof. unfold sq. ring. Qed.
Lemma coord_mirror n i : (i < n)%nat -> coord n (n - 1 - i) = - coord n i.
Proof.
  intros H. apply Qc_iff. unfold coord. rewrite this_opp, !this_div, !this_qz. pose proof (qz_pos n ltac:(lia)) as P. replace (2 * Z.of_nat (n - 1 - i) + 1 - Z.of_nat n)%Z with (- (2 * Z.of_nat i + 1 - Z.of_nat n))%Z by lia. rewrite inject_Z_opp. field. lra.
Qed.
Lemma qabs_opp a : qabs (- a) = qabs a.
Proof.
  unfold qabs. destruct (qlt (- a) 0) eqn:E1; destruct (qlt a 0) eqn:E2; try reflexivity; apply Qc_iff; rewrite ?qlt_true, ?qlt_false in *; rewrite ?this_opp in *; change (this 0) with 0%Q in *; lra.
Qed.
Lemma lit_flip_x s d o x y : litf s d o 0 0 (- x) y = litf s d o 0 0 x y.
Proof.
  unfold litf. destruct s; unfold lit_square, lit_round.
  - replace (- x - 0) with (- (x - 0)) by ring. now rewrite qabs_opp.
  - replace (sq (- x - 0)) with (sq (x - 0)) by (unfold sq; ring). reflexivity.
Qed.
Lemma lit_swap s d o x y : litf s d o 0 0 x y = litf s d o 0 0 y x.
Proof.
  unfold litf. destruct s; unfold lit_square, lit_round.
  - rewrite (andb_comm (negb (qlt d (qabs (x - 0))))), (orb_comm (qge (qabs (x - 0)) (d * o))). reflexivity.
  - now rewrite (Qcplus_comm (sq (x - 0))).
Qed.
Lemma sq_mono a b : (0 <= this a)%Q -> (this a <= this b)%Q -> (this (sq a) <= this (sq b))%Q.
Proof. intros A B. unfold sq. rewrite !this_mul. nra. Qed.
Lemma sq_nonneg a : (0 <= this (sq a))%Q. Proof. unfold sq. rewrite this_mul. nra. Qed.

(* the two ways to draw a disc agree: no pixel centre lies on the circle *)
Lemma no_pixel_on_circle n a b : (0 < n)%Z -> ((2 * a + 1 - n) * (2 * a + 1 - n) + (2 * b + 1 - n) * (2 * b + 1 - n) <> n * n)%Z.
Proof.
  intros H E. assert (M := f_equal (fun z => z mod 4)%Z E). cbv beta in M.
  destruct (Z.Even_or_Odd n) as [[k ->]|[k ->]].
  - set (p := (a - k)%Z) in *. set (q := (b - k)%Z) in *.
    replace ((2 * a + 1 - 2 * k) * (2 * a + 1 - 2 * k) + (2 * b + 1 - 2 * k) * (2 * b + 1 - 2 * k))%Z with (2 + (p * p + p + q * q + q) * 4)%Z in M by (unfold p, q; ring).
    replace (2 * k * (2 * k))%Z with (0 + (k * k) * 4)%Z in M by ring. rewrite !Z.mod_add in M by lia. discriminate.
  - set (p := (a - k)%Z) in *. set (q := (b - k)%Z) in *.
    replace ((2 * a + 1 - (2 * k + 1)) * (2 * a + 1 - (2 * k + 1)) + (2 * b + 1 - (2 * k + 1)) * (2 * b + 1 - (2 * k + 1)))%Z with (0 + (p * p + q * q) * 4)%Z in M by (unfold p, q; ring).
    replace ((2 * k + 1) * (2 * k + 1))%Z with (1 + (k * k + k) * 4)%Z in M by ring. rewrite !Z.mod_add in M by lia. discriminate.
Qed.
Lemma round_pixel n i j : (2 <= n)%nat -> lit_round 1 0 0 0 (coord n j) (coord n i) = true <->
  ((2 * Z.of_nat j + 1 - Z.of_nat n) * (2 * Z.of_nat j + 1 - Z.of_nat n) + (2 * Z.of_nat i + 1 - Z.of_nat n) * (2 * Z.of_nat i + 1 - Z.of_nat n) < Z.of_nat n * Z.of_nat n)%Z.
Proof.
  intros H. unfold lit_round. rewrite andb_true_iff, qlt_true, qge_true. pose proof (qz_pos n ltac:(lia)) as P.
  assert (E : (this (sq (coord n j - 0) + sq (coord n i - 0)) == inject_Z ((2 * Z.of_nat j + 1 - Z.of_nat n) * (2 * Z.of_nat j + 1 - Z.of_nat n) + (2 * Z.of_nat i + 1 - Z.of_nat n) * (2 * Z.of_nat i + 1 - Z.of_nat n)) / (inject_Z (Z.of_nat n) * inject_Z (Z.of_nat n)))%Q).
  { unfold sq, coord. rewrite this_add, !this_mul, !this_sub, !this_div, !this_qz. change (this 0) with 0%Q. rewrite inject_Z_plus, !inject_Z_mult. field. lra. }
  rewrite E. change (this (sq 1)) with 1%Q. replace (sq (1 * 0)) with 0 by (unfold sq; ring). change (this 0) with 0%Q.
  set (a := (2 * Z.of_nat j + 1 - Z.of_nat n)%Z) in *. set (b := (2 * Z.of_nat i + 1 - Z.of_nat n)%Z) in *. set (A := (a * a + b * b)%Z) in *. assert (N : (0 < inject_Z (Z.of_nat n) * inject_Z (Z.of_nat n))%Q) by nra.
  assert (A0 : (0 <= A)%Z) by (unfold A; clearbody a b; nia). rewrite Zle_Qle in A0. change (inject_Z 0) with 0%Q in A0.
  assert (Eq : (inject_Z A == inject_Z A / (inject_Z (Z.of_nat n) * inject_Z (Z.of_nat n)) * (inject_Z (Z.of_nat n) * inject_Z (Z.of_nat n)))%Q) by (field; lra).
  rewrite Zlt_Qlt, inject_Z_mult. set (q := (inject_Z A / _)%Q) in *. set (N2 := (inject_Z (Z.of_nat n) * inject_Z (Z.of_nat n))%Q) in *.
  assert (M : forall u v, (u <= v)%Q -> (u * N2 <= v * N2)%Q) by (intros u v L; apply Qmult_le_compat_r; lra). split.
  - intros [L _]. pose proof (proj2 (Qmult_lt_r q 1 N2 N) L). lra.
  - intros L. split.
    + apply (Qmult_lt_r q 1 N2 N). lra.
    + destruct (Qlt_le_dec q 0) as [Q|Q]; [|exact Q]. pose proof (proj2 (Qmult_lt_r q 0 N2 N) Q). lra.
Qed.
Lemma disc_pixel n i j : (2 <= n)%nat -> negb (qlt (sq (radius_of n n None)) (sq (centre_of j - snd (centre_default n n)) + sq (centre_of i - fst (centre_default n n)))) = true <->
  ((2 * Z.of_nat j + 1 - Z.of_nat n) * (2 * Z.of_nat j + 1 - Z.of_nat n) + (2 * Z.of_nat i + 1 - Z.of_nat n) * (2 * Z.of_nat i + 1 - Z.of_nat n) <= Z.of_nat n * Z.of_nat n)%Z.
Proof.
  intros H. rewrite negb_true_iff, qlt_false. unfold radius_of, centre_default. cbn [fst snd]. rewrite Nat.min_id.
  assert (E : (this (sq (centre_of j - 1 / (1 + 1) * qz (Z.of_nat n)) + sq (centre_of i - 1 / (1 + 1) * qz (Z.of_nat n))) == inject_Z ((2 * Z.of_nat j + 1 - Z.of_nat n) * (2 * Z.of_nat j + 1 - Z.of_nat n) + (2 * Z.of_nat i + 1 - Z.of_nat n) * (2 * Z.of_nat i + 1 - Z.of_nat n)) / 4)%Q).
  { unfold sq, centre_of, Z.sub. rewrite this_add, !this_mul, !this_sub, !this_add, !this_mul, !this_qz. change (this (1 / (1 + 1))) with (1 # 2)%Q. rewrite !inject_Z_plus, !inject_Z_mult, !inject_Z_plus, !inject_Z_opp, !inject_Z_mult. change (inject_Z 2) with 2%Q. change (inject_Z 1) with 1%Q. setoid_replace (1 # 2)%Q with (1 / 2)%Q by reflexivity. field. }
  rewrite E. assert (E2 : (this (sq (qz (Z.of_nat n) / qz 2)) == inject_Z (Z.of_nat n * Z.of_nat n) / 4)%Q) by (unfold sq; rewrite this_mul, !this_div, !this_qz, inject_Z_mult; change (inject_Z 2) with 2%Q; field).
  rewrite E2, Zle_Qle. generalize (inject_Z (Z.of_nat n * Z.of_nat n)). intros b. match goal with |- context [inject_Z ?z] => generalize (inject_Z z) end. intros a. clear. assert (Ea : (a == a / 4 * 4)%Q) by field. assert (Eb : (b == b / 4 * 4)%Q) by field. split; intros; lra.
Qed.
Lemma same_disc n : (2 <= n)%nat -> make_mask n None None 0 0 false false false = Ok (transmission_of (circular n n None None)).
Proof.
  intros H. rewrite make_mask_eq by exact H. f_equal. unfold transmission_of, circular, not_m. rewrite map_map. unfold disc, table. rewrite map_map. apply map_ext. intros i. rewrite !map_map. apply map_ext. intros j.
  rewrite negb_involutive. change (xorb false (litf false (dia None) (obs None) 0 0 (coord n j) (coord n i))) with (if lit_round 1 0 0 0 (coord n j) (coord n i) then true else false).
  pose proof (round_pixel n i j H) as A. pose proof (disc_pixel n i j H) as B. pose proof (no_pixel_on_circle (Z.of_nat n) (Z.of_nat j) (Z.of_nat i) ltac:(lia)) as C.
  destruct (lit_round 1 0 0 0 (coord n j) (coord n i)); destruct (negb _); try reflexivity.
  - destruct A as [A _], B as [_ B]. specialize (A eq_refl). symmetry. apply B. lia.
  - destruct A as [_ A], B as [B _]. specialize (B eq_refl). apply A. lia.
Qed.

Definition table2 (h w : nat) (f : nat -> nat -> bool) : bmatrix := map (fun i => map (f i) (seq 0 w)) (seq 0 h).
Lemma px_table2 h w f i j : (i < h)%nat -> (j < w)%nat -> px (table2 h w f) i j = f i j.
Proof. intros Hi Hj. unfold px, table2. rewrite nth_map_seq by exact Hi. now rewrite nth_map_seq. Qed.
Lemma not_table2 h w f : not_m (table2 h w f) = table2 h w (fun i j => negb (f i j)).
Proof. unfold not_m, table2. rewrite map_map. apply map_ext. intros. apply map_map. Qed.
Lemma combine_map {A B C} (f : A -> B) (g : A -> C) l : combine (map f l) (map g l) = map (fun a => (f a, g a)) l.
Proof. induction l; cbn; congruence. Qed.
Definition in_disc (r : Qc) (c : Qc * Qc) (i j : nat) : bool := negb (qlt (sq r) (sq (centre_of j - snd c) + sq (centre_of i - fst c))).
Lemma circular_eq h w r c : circular h w r c = table2 h w (fun i j => negb (in_disc (radius_of h w r) (match c with Some c => c | None => centre_default h w end) i j)).
Proof. unfold circular. apply not_table2. Qed.
Lemma annular_eq h w r c inner : annular h w r (Some c) inner = Ok (table2 h w (fun i j => negb (in_disc (radius_of h w r) c i j && (if Qc_eq_dec inner 0 then true else negb (in_disc inner c i j))))).
Proof.
  unfold annular. destruct (Qc_eq_dec inner 0).
  - f_equal. change (disc h w (radius_of h w r) c) with (table2 h w (in_disc (radius_of h w r) c)). rewrite not_table2. unfold table2. apply map_ext. intros. apply map_ext. intros. now rewrite andb_true_r.
  - f_equal. rewrite circular_eq. unfold transmission_of. rewrite not_table2. change (disc h w (radius_of h w r) c) with (table2 h w (in_disc (radius_of h w r) c)). unfold table2 at 1 2. rewrite combine_map, map_map. cbn [radius_of].
    transitivity (not_m (table2 h w (fun i j => in_disc (radius_of h w r) c i j && negb (in_disc inner c i j)))); [|apply not_table2].
    f_equal. unfold table2. apply map_ext. intros i. cbn [fst snd]. rewrite combine_map, map_map. apply map_ext. intros j. cbn [fst snd]. rewrite negb_involutive. now destruct (in_disc (radius_of h w r) c i j), (in_disc inner c i j).
Qed.
Lemma in_disc_true r c i j : in_disc r c i j = true <-> (this (sq (centre_of j - snd c) + sq (centre_of i - fst c)) <= this (sq r))%Q.
Proof. unfold in_disc. now rewrite negb_true_iff, qlt_false. Qed.

(* flat indices *)
Lemma flat_true_spec l k : In k (flat_true l) <-> (k < length l)%nat /\ nth k l false = true.
Proof.
  unfold flat_true.
  assert (G : forall l s k, In k (map fst (filter snd (combine (seq s (length l)) l))) <-> (s <= k < s + length l)%nat /\ nth (k - s) l false = true).
  { clear. induction l as [|b l IH]; intros s k; cbn [length seq combine filter map]; [split; [intros []|lia]|].
    specialize (IH (S s) k). destruct b; cbn [snd map fst In]; rewrite IH; clear IH.
    - split.
      + intros [<-|[H N]]; [split; [lia|]; now rewrite Nat.sub_diag|]. split; [lia|]. replace (k - s)%nat with (S (k - S s)) by lia. exact N.
      + intros [H N]. destruct (Nat.eq_dec s k) as [E|E]; [now left|right]. split; [lia|]. replace (k - s)%nat with (S (k - S s)) in N by lia. exact N.
    - split.
      + intros [H N]. split; [lia|]. replace (k - s)%nat with (S (k - S s)) by lia. exact N.
      + intros [H N]. destruct (Nat.eq_dec s k) as [E|E]; [subst; rewrite Nat.sub_diag in N; discriminate|]. split; [lia|]. replace (k - s)%nat with (S (k - S s)) in N by lia. exact N. }
  rewrite G. rewrite Nat.sub_0_r. split; intros [H N]; (split; [lia|exact N]).
Qed.
Lemma flat_true_sorted l : StronglySorted lt (flat_true l).
Proof.
  unfold flat_true. generalize 0%nat. induction l as [|b l IH]; intros s; cbn [length seq combine filter]; [constructor|].
  destruct b; cbn [snd map fst]; [|apply IH]. constructor; [apply IH|]. apply Forall_forall. intros k Hk. apply in_map_iff in Hk. destruct Hk as [[a c] [<- Hk]]. apply filter_In in Hk. destruct Hk as [Hk _]. apply in_combine_l in Hk. apply in_seq in Hk. cbn. lia.
Qed.
Lemma concat_table2 h w f k : (k < h * w)%nat -> nth k (concat (table2 h w f)) false = f (k / w)%nat (k mod w)%nat.
Proof.
  unfold table2. intros H. assert (W : (w <> 0)%nat) by nia.
  assert (G : forall h s k, (k < h * w)%nat -> nth k (concat (map (fun i => map (f i) (seq 0 w)) (seq s h))) false = f (s + k / w)%nat (k mod w)%nat).
  { clear H k h. induction h as [|h IH]; intros s k H; [lia|]. cbn [seq map concat]. destruct (Nat.lt_ge_cases k w) as [L|L].
    - rewrite app_nth1 by (rewrite map_length, seq_length; exact L). rewrite nth_map_seq by exact L. rewrite Nat.div_small, Nat.mod_small by exact L. now rewrite Nat.add_0_r.
    - rewrite app_nth2 by (rewrite map_length, seq_length; exact L). rewrite map_length, seq_length. rewrite IH by (cbn in H; lia).
      assert (E : k = (k - w + 1 * w)%nat) by lia. rewrite E at 3 4. rewrite Nat.div_add, Nat.mod_add by exact W. f_equal. lia. }
  exact (G h 0%nat k H).
Qed.
Lemma length_concat_table2 h w f : length (concat (table2 h w f)) = (h * w)%nat.
Proof.
  unfold table2. assert (G : forall h s, length (concat (map (fun i => map (f i) (seq 0 w)) (seq s h))) = (h * w)%nat); [|apply G].
  clear h. induction h as [|h IH]; intros s; [reflexivity|]. cbn [seq map concat]. rewrite app_length, IH, map_length, seq_length. lia.
Qed.
