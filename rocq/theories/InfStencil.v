From Coq Require Import List ZArith Bool Arith QArith Qcanon Lia.
From Verif Require Import PyBase PyLemmas Arith ArithLemmas FilterSpec SumLemmas SlopecSpec InfModel InfSpec InfProofs.
Import ListNotations.
Local Open Scope nat_scope.

Lemma pow2_pos k : 0 < 2 ^ k. Proof. pose proof (Nat.pow_nonzero 2 k). lia. Qed.

(* sizes *)
Lemma sizes m : exists k K, k <= K /\ 8 <= K /\ screen_size m = 2 ^ k + 1 /\ stencil_size m = 2 ^ K + 1 /\ (K = k \/ K = 8) /\ m <= screen_size m.
Proof.
  set (k := Nat.log2_up m). assert (E : screen_size m = 2 ^ k + 1) by reflexivity.
  assert (M : m <= screen_size m). { rewrite E. destruct (Nat.le_gt_cases m 1); [pose proof (pow2_pos k); lia|]. pose proof (Nat.log2_up_spec m). fold k in H0. lia. }
  assert (S2 : stencil_size m = Nat.max (if k =? 0 then 3 else 2 ^ k + 1) 257).
  { unfold stencil_size. rewrite E. destruct (Nat.eqb_spec k 0) as [->|Hk]; [reflexivity|]. f_equal. destruct k as [|j]; [lia|]. cbn [Nat.pow]. replace (2 * 2 ^ j + 1) with (1 + 2 ^ j * 2) at 1 by lia.
    rewrite Nat.div_add by lia. change (1 / 2) with 0. lia. }
  destruct (Nat.le_gt_cases 8 k) as [H|H].
  - exists k, k. repeat split; auto; try lia. rewrite S2. destruct (Nat.eqb_spec k 0); [lia|]. assert (256 <= 2 ^ k) by (change 256 with (2 ^ 8); apply Nat.pow_le_mono_r; lia). lia.
  - exists k, 8. repeat split; auto; try lia. rewrite S2. destruct (Nat.eqb_spec k 0); [reflexivity|]. assert (2 ^ k < 256) by (change 256 with (2 ^ 8); apply Nat.pow_lt_mono_r; lia). change (2 ^ 8 + 1) with 257. lia.
Qed.

Section K.
Variables K mx : nat.
Hypothesis HK : 0 < K.
Hypothesis Hmx : 1 <= mx <= 2 ^ K + 1.
Notation N := (2 ^ K + 1).

Lemma log2_size : Nat.log2 N = K.
Proof. apply Nat.log2_unique; [lia|]. split; [lia|]. cbn [Nat.pow]. pose proof (pow2_pos K). assert (2 ^ 1 <= 2 ^ K) by (apply Nat.pow_le_mono_r; lia). change (2 ^ 1) with 2 in *. lia. Qed.
Lemma spread_exact n i : n <= K -> spread N (2 ^ (K - n) + 1) i = i * 2 ^ n.
Proof.
  intros H. unfold spread. replace (2 ^ (K - n) + 1 - 1) with (2 ^ (K - n)) by lia. replace (N - 1) with (2 ^ K) by lia.
  assert (E : 2 ^ K = 2 ^ (K - n) * 2 ^ n) by (rewrite <- Nat.pow_add_r; f_equal; lia). rewrite E.
  pose proof (pow2_pos (K - n)). replace (2 * (i * (2 ^ (K - n) * 2 ^ n)) + 2 ^ (K - n)) with (2 ^ (K - n) + (i * 2 ^ n) * (2 * 2 ^ (K - n))) by ring.
  rewrite Nat.div_add by lia. rewrite Nat.div_small by lia. lia.
Qed.
Lemma half_size : N / 2 = 2 ^ (K - 1).
Proof. destruct K as [|j]; [lia|]. replace (S j - 1) with j by lia. cbn [Nat.pow]. replace (2 * 2 ^ j + 1) with (1 + 2 ^ j * 2) by lia. rewrite Nat.div_add by lia. reflexivity. Qed.

Definition is_point (r c : nat) : Prop := c < N /\ ((exists n, n <= K /\ r = stencil_line n /\ Nat.divide (2 ^ n) c) \/ (r = mx - 1 /\ c = 2 ^ (K - 1))).
Lemma in_stencil_iff r c : in_stencil N mx r c = true <-> is_point r c.
Proof.
  unfold in_stencil, is_point. rewrite log2_size, half_size, orb_true_iff, existsb_exists, andb_true_iff, !Nat.eqb_eq.
  assert (H2 : 2 ^ (K - 1) < N) by (assert (2 ^ (K - 1) <= 2 ^ K) by (apply Nat.pow_le_mono_r; lia); lia).
  split.
  - intros [(n & Hn & H)|[-> ->]]; [|split; [exact H2|right; auto]]. apply in_seq in Hn. apply andb_true_iff in H as [H1 H]. apply Nat.eqb_eq in H1. apply existsb_exists in H as (i & Hi & H). apply in_seq in Hi. apply Nat.eqb_eq in H.
    rewrite spread_exact in H by lia. assert (2 ^ K = 2 ^ (K - n) * 2 ^ n) by (rewrite <- Nat.pow_add_r; f_equal; lia). split.
    + subst c. assert (i * 2 ^ n <= 2 ^ (K - n) * 2 ^ n) by (apply Nat.mul_le_mono_r; lia). lia.
    + left. exists n. split; [lia|]. split; [exact H1|]. exists i. exact H.
  - intros [Hc [(n & Hn & Hr & (i & Hi))|[-> ->]]]; [left|right; auto]. exists n. split; [apply in_seq; lia|]. apply andb_true_iff. split; [now apply Nat.eqb_eq|]. apply existsb_exists. exists i.
    assert (E : 2 ^ K = 2 ^ (K - n) * 2 ^ n) by (rewrite <- Nat.pow_add_r; f_equal; lia). pose proof (pow2_pos n). split.
    + apply in_seq. assert (i <= 2 ^ (K - n)) by (apply (Nat.mul_le_mono_pos_r _ _ (2 ^ n)); lia). lia.
    + apply Nat.eqb_eq. now rewrite spread_exact.
Qed.
Lemma stencil_line_lt n : n <= K -> stencil_line n < N.
Proof. intros H. destruct n; cbn; [lia|]. assert (2 ^ n <= 2 ^ K) by (apply Nat.pow_le_mono_r; lia). lia. Qed.
Lemma in_stencil_inside r c : in_stencil N mx r c = true -> r < N /\ c < N.
Proof. rewrite in_stencil_iff. intros [Hc [(n & Hn & -> & _)|[-> ->]]]; split; auto; [now apply stencil_line_lt|lia]. Qed.
Lemma in_stencil_mirror r c : c < N -> in_stencil N mx r (N - 1 - c) = in_stencil N mx r c.
Proof.
  assert (D : forall c, c < N -> is_point r c -> is_point r (N - 1 - c)).
  { intros x Hx [_ [(n & Hn & Hr & Hd)|[Hr ->]]]; (split; [lia|]); [left|right].
    - exists n. split; [auto|]. split; [auto|]. replace (N - 1 - x) with (2 ^ K - x) by lia. apply Nat.divide_sub_r; [|exact Hd]. exists (2 ^ (K - n)). rewrite <- Nat.pow_add_r. f_equal. lia.
    - split; [auto|]. destruct K as [|j]; [lia|]. cbn [Nat.pow]. replace (S j - 1) with j by lia. lia. }
  intros H. apply Bool.eq_iff_eq_true. rewrite !in_stencil_iff. split; [|now apply D]. intros X. apply D in X; [|lia]. now replace (N - 1 - (N - 1 - c)) with c in X by lia.
Qed.

Lemma list_prod_snoc {A B} (l : list A) a (l' : list B) : list_prod (l ++ [a]) l' = list_prod l l' ++ map (fun y => (a, y)) l'.
Proof. induction l as [|x l IH]; cbn; [now rewrite app_nil_r|]. now rewrite IH, app_assoc. Qed.
Lemma rev_list_prod {A B} (l : list A) (l' : list B) : rev (list_prod l l') = list_prod (rev l) (rev l').
Proof. induction l as [|a l IH]; cbn; [reflexivity|]. rewrite rev_app_distr, IH, list_prod_snoc. f_equal. now rewrite map_rev. Qed.
Lemma list_prod_map {A B C D} (f : A -> C) (h : B -> D) l l' : list_prod (map f l) (map h l') = map (fun p => (f (fst p), h (snd p))) (list_prod l l').
Proof. induction l as [|a l IH]; cbn; [reflexivity|]. rewrite map_app, IH, !map_map. reflexivity. Qed.
Lemma rev_seq n : rev (seq 0 n) = map (fun i => n - 1 - i) (seq 0 n).
Proof.
  apply nth_ext with (d := 0) (d' := 0); [now rewrite rev_length, map_length|]. rewrite rev_length, seq_length. intros i Hi.
  rewrite rev_nth by (now rewrite seq_length). rewrite seq_length, !(nth_indep (map _ _) 0 (n - 1 - 0)) by (now rewrite map_length, seq_length). rewrite (map_nth (fun i => n - 1 - i)), !seq_nth by lia. lia.
Qed.
Lemma filter_rev {A} (p : A -> bool) l : filter p (rev l) = rev (filter p l).
Proof. induction l as [|a l IH]; cbn; [reflexivity|]. rewrite filter_app, IH. cbn. destruct (p a); cbn; [reflexivity|apply app_nil_r]. Qed.
Lemma filter_map_comm {A B} (p : B -> bool) (f : A -> B) l : filter p (map f l) = map f (filter (fun x => p (f x)) l).
Proof. induction l as [|a l IH]; cbn; [reflexivity|]. rewrite IH. now destruct (p (f a)). Qed.

Definition turn2 (p : nat * nat) : nat * nat := (N - 1 - fst p, N - 1 - snd p).
Lemma coords_turn : rev (stencil_coords N mx false) = map turn2 (stencil_coords N mx true).
Proof.
  unfold stencil_coords. rewrite <- filter_rev, rev_list_prod, !rev_seq, list_prod_map, filter_map_comm. f_equal. apply filter_ext_in. intros [r c] H. apply in_prod_iff in H as [H1 H2]. apply in_seq in H1, H2. cbn [fst snd in_stencil_of]. rewrite in_stencil_mirror by lia. reflexivity.
Qed.
Lemma coords_inside after r c : In (r, c) (stencil_coords N mx after) -> r < N /\ c < N.
Proof. intros H. apply filter_In in H as [H _]. apply in_prod_iff in H as [H1 H2]. apply in_seq in H1, H2. lia. Qed.
Lemma coords_iff after r c : In (r, c) (stencil_coords N mx after) <-> r < N /\ is_point (if after then N - 1 - r else r) c.
Proof.
  unfold stencil_coords. rewrite filter_In, in_prod_iff, !in_seq. cbn [fst snd]. unfold in_stencil_of. destruct after; rewrite in_stencil_iff; unfold is_point; intuition lia.
Qed.
Lemma coords_length : length (stencil_coords N mx true) = length (stencil_coords N mx false).
Proof. rewrite <- (rev_length (stencil_coords N mx false)), coords_turn, map_length. reflexivity. Qed.
Lemma coords_nth k : k < length (stencil_coords N mx false) ->
  let p := nth k (stencil_coords N mx false) (0, 0) in nth (length (stencil_coords N mx false) - 1 - k) (stencil_coords N mx true) (0, 0) = turn2 p.
Proof.
  set (c0 := stencil_coords N mx false). set (c1 := stencil_coords N mx true). intros H p. assert (L : length c1 = length c0) by exact coords_length.
  assert (E : turn2 (nth (length c0 - 1 - k) c1 (0, 0)) = p).
  { rewrite <- (map_nth turn2 c1 (0, 0)). unfold p. replace (map turn2 c1) with (rev c0) by exact coords_turn.
    rewrite (nth_indep _ (turn2 (0, 0)) (0, 0)) by (rewrite rev_length; lia). rewrite rev_nth by lia. f_equal. lia. }
  rewrite <- E. destruct (nth (length c0 - 1 - k) c1 (0, 0)) as [r c] eqn:F. assert (I : In (r, c) c1) by (rewrite <- F; apply nth_In; lia). destruct (coords_inside true r c I). unfold turn2. cbn [fst snd]. f_equal; lia.
Qed.
Lemma flipped_shape n A : shape (A:=qc) A N n -> shape (A:=qc) (flipped A) N n.
Proof. intros [L W]. unfold flipped. split; [now rewrite rev_length, map_length|]. intros r Hr. apply in_rev, in_map_iff in Hr as (x & <- & Hx). rewrite rev_length. auto. Qed.

(* the matrix used after the screen, seen from the other side *)
Lemma given_turn A B val a : let g := mkGeom N (stencil_coords N mx) (fun after => if after then flipped A else A) B in
  shape (A:=qc) A N (length (stencil_coords N mx false)) -> a < N ->
  given g true val a = given g false (fun r c => val (N - 1 - r) (N - 1 - c)) (N - 1 - a).
Proof.
  intros g [L W] Ha. change (@length (list Qc) A = N) in L. change (forall r : list Qc, In r A -> length r = length (stencil_coords N mx false)) in W. unfold given, g. cbn [g_at g_A]. rewrite coords_length. set (c0 := stencil_coords N mx false) in *. set (c1 := stencil_coords N mx true).
  assert (R : nth a (flipped A) [] = rev (nth (N - 1 - a) A [])).
  { unfold flipped. rewrite rev_nth by (rewrite map_length; lia). rewrite map_length, nth_map_nil by reflexivity. do 2 f_equal. lia. }
  rewrite R. assert (Lr : length (nth (N - 1 - a) A []) = length c0) by (apply W, nth_In; lia).
  unfold qsum. rewrite (sumn_rev qc qc_field). apply (sumn_ext (A:=qc)). intros k Hk. cbn [mul qc]. f_equal.
  - rewrite rev_nth by lia. f_equal. lia.
  - pose proof (coords_nth k Hk) as E. cbv zeta in E. fold c0 c1 in E. rewrite E. unfold turn2. cbn [fst snd]. reflexivity.
Qed.
End K.
