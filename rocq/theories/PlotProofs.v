From Coq Require Import String List Bool Arith ZArith Lia.
From Verif Require Import PyBase PyLemmas NpModel PlotModel PlotSpec.
Import ListNotations.

(* ---------------------------------------------------------------- the last elements *)
Section Last.
Context {A : Type}.
Lemma lastn_all : forall n (l : list A), length l <= n -> lastn n l = l.
Proof. intros n l H. unfold lastn. now replace (length l - n) with 0 by lia. Qed.
Lemma lastn_length : forall n (l : list A), length (lastn n l) = Nat.min (length l) n.
Proof. intros. unfold lastn. rewrite skipn_length. lia. Qed.
Lemma lastn_snoc : forall n (l : list A) v, 1 <= n -> lastn n (l ++ [v]) = lastn (n - 1) l ++ [v].
Proof.
  intros n l v H. unfold lastn. rewrite app_length, skipn_app. cbn [length].
  replace (length l + 1 - n) with (length l - (n - 1)) by lia.
  now replace (length l - (n - 1) - length l) with 0 by lia.
Qed.
Lemma tl_skipn : forall k (l : list A), tl (skipn k l) = skipn (S k) l.
Proof. induction k as [|k IH]; intros [|a l]; try reflexivity. apply IH. Qed.
Lemma tl_lastn : forall n (l : list A), 1 <= n <= length l -> tl (lastn n l) = lastn (n - 1) l.
Proof. intros n l H. unfold lastn. rewrite tl_skipn. f_equal. lia. Qed.
Lemma lastn_lastn : forall n (l : list A), length l <= n -> lastn n l = lastn (n + 1) l.
Proof. intros. now rewrite !lastn_all by lia. Qed.

Lemma scroll_length : forall l : list A, length (scroll l) = length l.
Proof. intros [|a l]; [reflexivity|]. cbn -[List.last]. rewrite app_length. cbn. lia. Qed.
Lemma scroll_firstn : forall l : list A, firstn (length l - 1) (scroll l) = tl l.
Proof.
  intros [|a l]; [reflexivity|]. cbn -[List.last]. rewrite Nat.sub_0_r, firstn_app, Nat.sub_diag, firstn_all. cbn. apply app_nil_r.
Qed.
Lemma set_at_length : forall k (v : A) l, length (set_at k v l) = length l.
Proof. induction k as [|k IH]; intros v [|a l]; try reflexivity. cbn. now rewrite IH. Qed.
Lemma set_at_firstn : forall k (v : A) l, k < length l -> firstn (k + 1) (set_at k v l) = firstn k l ++ [v].
Proof.
  induction k as [|k IH]; intros v [|a l] H; cbn in H; try lia; cbn.
  - reflexivity.
  - now rewrite IH by lia.
Qed.
Lemma set_at_nth : forall k (v d : A) l, k < length l -> nth k (set_at k v l) d = v.
Proof. induction k as [|k IH]; intros v d [|a l] H; cbn in H; try lia; cbn; [reflexivity|apply IH; lia]. Qed.
Lemma set_at_twice : forall k (v w : A) l, set_at k v (set_at k w l) = set_at k v l.
Proof. induction k as [|k IH]; intros v w [|a l]; try reflexivity. cbn. now rewrite IH. Qed.
Lemma set_at_nth_other : forall k i (v d : A) l, i <> k -> nth i (set_at k v l) d = nth i l d.
Proof. induction k as [|k IH]; intros [|i] v d [|a l] H; try reflexivity; try lia. cbn. apply IH. lia. Qed.
Lemma nth_error_set_at : forall k (v : A) l, k < length l -> nth_error (set_at k v l) k = Some v.
Proof. induction k as [|k IH]; intros v [|a l] H; cbn in H; try lia; cbn; [reflexivity|apply IH; lia]. Qed.
Lemma nth_error_set_at_other : forall k i (v : A) l, i <> k -> nth_error (set_at k v l) i = nth_error l i.
Proof. induction k as [|k IH]; intros [|i] v [|a l] H; try reflexivity; try lia. cbn. apply IH. lia. Qed.

(* a buffer of n places that holds the last elements of l *)
Definition holds (n : nat) (rows : list A) (count : nat) (l : list A) : Prop :=
  length rows = n /\ count = Nat.min (length l) n /\ firstn count rows = lastn n l.
Lemma holds_room : forall n rows c l, 1 <= n -> holds n rows c l ->
  let rows' := if n <=? c then scroll rows else rows in let c' := if n <=? c then n - 1 else c in
  length rows' = n /\ c' < n /\ c' = Nat.min (length l) (n - 1) /\ firstn c' rows' = lastn (n - 1) l.
Proof.
  intros n rows c l Hn (L & C & F). destruct (Nat.leb_spec n c) as [H|H]; cbn.
  - rewrite scroll_length. repeat split; try lia.
    rewrite <- L, scroll_firstn. rewrite firstn_all2 in F by lia. rewrite L, F. apply tl_lastn. lia.
  - repeat split; try lia. rewrite F. rewrite !lastn_all by lia. reflexivity.
Qed.
Lemma holds_put : forall n rows c l v, 1 <= n -> length rows = n -> c < n -> c = Nat.min (length l) (n - 1) -> firstn c rows = lastn (n - 1) l ->
  holds n (set_at c v rows) (S c) (l ++ [v]) /\ firstn (c + 1) (set_at c v rows) = lastn n (l ++ [v]).
Proof.
  intros n rows c l v Hn L C M F.
  assert (E : firstn (c + 1) (set_at c v rows) = lastn n (l ++ [v])) by (rewrite set_at_firstn, F, lastn_snoc by lia; reflexivity).
  split; [|exact E]. split; [now rewrite set_at_length|]. split.
  - rewrite app_length. cbn. lia.
  - now rewrite <- Nat.add_1_r.
Qed.
End Last.

(* stamps *)
Lemma times_room : forall n c (ts : list Z), 1 <= n -> c = Nat.min (length ts) n ->
  (if n <=? c then tl (lastn n ts) else lastn n ts) = lastn (n - 1) ts.
Proof.
  intros n c ts Hn C. destruct (Nat.leb_spec n c) as [H|H].
  - apply tl_lastn. lia.
  - now rewrite !lastn_all by lia.
Qed.
Definition stamps (by_time : bool) (ts : list Z) : list Z := if by_time then ts else map Z.of_nat (seq 1 (length ts)).
Lemma stamps_length : forall b ts, length (stamps b ts) = length ts.
Proof. intros [|] ts; cbn; [reflexivity|now rewrite map_length, seq_length]. Qed.
Lemma stamps_snoc : forall b ts t, stamps b (ts ++ [t]) = stamps b ts ++ [if b then t else Z.of_nat (S (length ts))].
Proof.
  intros [|] ts t; cbn [stamps]; [reflexivity|]. rewrite app_length. cbn [length]. rewrite Nat.add_1_r, seq_S, map_app. reflexivity.
Qed.
Lemma stamp_next : forall b n ts t, 1 <= n -> b = true \/ 2 <= n ->
  stamp b t (lastn (n - 1) (stamps b ts)) = lastn n (stamps b (ts ++ [t])).
Proof.
  intros b n ts t Hn D. rewrite stamps_snoc, lastn_snoc by lia. unfold stamp. f_equal. f_equal.
  destruct b; [reflexivity|]. destruct D as [D|D]; [discriminate|].
  destruct ts as [|t0 ts' _] using rev_ind.
  - reflexivity.
  - rewrite stamps_snoc, lastn_snoc by lia. rewrite rev_app_distr. cbn [rev app]. rewrite app_length. cbn [length]. lia.
Qed.

Section Plot.
Context {V : Type} (v0 : V).
Notation plot := (@plot V). Notation line := (@line V). Notation column := (column v0).

Lemma column_length : forall i rows, length (column i rows) = length rows.
Proof. intros. apply map_length. Qed.

(* lines on the axes with given points *)
Definition shows (ls : option (list line)) (k : nat) (x : list Z) (y : nat -> list V) : Prop :=
  exists l, ls = Some l /\ l = map (fun i => mkLine x (y i) true) (seq 0 k).

(* drawing the lines one after the other *)
Definition part (i k : nat) (x x' : list Z) (y y' : nat -> list V) : list line :=
  map (fun j => mkLine x' (y' j) true) (seq 0 i) ++ map (fun j => mkLine x (y j) true) (seq i (k - i)).
Lemma part_length : forall i k x x' y y', i <= k -> length (part i k x x' y y') = k.
Proof. intros. unfold part. rewrite app_length, !map_length, !seq_length. lia. Qed.
Lemma set_at_app : forall A (a b : list A) v, b <> [] -> set_at (length a) v (a ++ b) = a ++ v :: tl b.
Proof. induction a as [|x a IH]; intros [|y b] v H; try congruence; cbn; [reflexivity|]. now rewrite IH. Qed.
Lemma draw_old : forall i k x x' y y', i < k -> draw i x' (y' i) (part i k x x' y y') = part (S i) k x x' y y'.
Proof.
  intros i k x x' y y' H. unfold draw. rewrite part_length by lia.
  destruct (Nat.leb_spec k i); [lia|].
  assert (E : nth_error (part i k x x' y y') i = Some (mkLine x (y i) true)).
  { unfold part. rewrite nth_error_app2; rewrite map_length, seq_length; [|lia]. rewrite Nat.sub_diag.
    replace (k - i) with (S (k - S i)) by lia. reflexivity. }
  rewrite E. cbn [l_on].
  unfold part at 1.
  pose proof (set_at_app _ (map (fun j => mkLine x' (y' j) true) (seq 0 i)) (map (fun j => mkLine x (y j) true) (seq i (k - i))) (mkLine x' (y' i) true)) as S1.
  rewrite map_length, seq_length in S1. rewrite S1.
  - unfold part. rewrite (seq_S i 0), map_app, <- app_assoc. cbn [map app plus]. do 2 f_equal.
    replace (k - i) with (S (k - S i)) by lia. reflexivity.
  - replace (k - i) with (S (k - S i)) by lia. discriminate.
Qed.
Lemma draw_new : forall i x' y', draw i x' (y' i) (map (fun j => mkLine x' (y' j) true) (seq 0 i)) = map (fun j => mkLine x' (y' j) true) (seq 0 (S i)) :> list line.
Proof.
  intros. unfold draw. rewrite map_length, seq_length, Nat.leb_refl. now rewrite (seq_S i 0), map_app.
Qed.

(* lines before drawing: none, or those drawn last time *)
Definition before (k : nat) (ls : option (list line)) : Prop := ls = None \/ exists x y, ls = Some (map (fun j => mkLine x (y j) true) (seq 0 k)).
Definition during (i k : nat) (x' : list Z) (y' : nat -> list V) (l : list line) : Prop :=
  l = map (fun j => mkLine x' (y' j) true) (seq 0 i) \/ exists x y, l = part i k x x' y y'.
Lemma during_draw : forall i k x' y' l, i < k -> during i k x' y' l -> during (S i) k x' y' (draw i x' (y' i) l).
Proof.
  intros i k x' y' l H [->|[x [y ->]]].
  - left. apply draw_new.
  - right. exists x, y. now apply draw_old.
Qed.
Lemma during_end : forall k x' y' l, during k k x' y' l -> l = map (fun j => mkLine x' (y' j) true) (seq 0 k).
Proof.
  intros k x' y' l [->|[x [y ->]]]; [reflexivity|]. unfold part. rewrite Nat.sub_diag. cbn. apply app_nil_r.
Qed.
Lemma before_during : forall k x' y' ls, before k ls -> during 0 k x' y' (match ls with Some l => l | None => [] end).
Proof.
  intros k x' y' ls [->|[x [y ->]]]; [now left|]. right. exists x, y. unfold part. now rewrite Nat.sub_0_r.
Qed.

(* ---------------------------------------------------------------- PlotDisplay *)
(* one more value of the row of values vs *)
Fixpoint fill (i : nat) (vs row : list V) : list V := match vs with [] => row | v :: r => fill (S i) r (set_at i v row) end.
Lemma fill_nth : forall vs i row j, i + length vs <= length row -> nth j (fill i vs row) v0 = if (i <=? j) && (j <? i + length vs) then nth (j - i) vs v0 else nth j row v0.
Proof.
  induction vs as [|v vs IH]; intros i row j H; cbn [fill length].
  - rewrite Nat.add_0_r. destruct (Nat.leb_spec i j), (Nat.ltb_spec j i); cbn; try lia; reflexivity.
  - cbn [length] in H. rewrite IH by (rewrite set_at_length; lia).
    destruct (Nat.eq_dec j i) as [->|D].
    + destruct (Nat.leb_spec (S i) i); [lia|]. cbn [andb]. rewrite set_at_nth by lia.
      rewrite Nat.leb_refl. destruct (Nat.ltb_spec i (i + S (length vs))); [|lia]. cbn. now rewrite Nat.sub_diag.
    + rewrite set_at_nth_other by exact D.
      destruct (Nat.leb_spec (S i) j), (Nat.leb_spec i j), (Nat.ltb_spec j (S i + length vs)), (Nat.ltb_spec j (i + S (length vs))); cbn [andb]; try lia; try reflexivity.
      replace (j - i) with (S (j - S i)) by lia. reflexivity.
Qed.
Lemma fill_length : forall vs i row, length (fill i vs row) = length row.
Proof. induction vs as [|v vs IH]; intros; cbn [fill]; [reflexivity|]. now rewrite IH, set_at_length. Qed.
Lemma fill_all : forall vs row, length row = length vs -> fill 0 vs row = vs.
Proof.
  intros vs row H. apply (nth_ext _ _ v0 v0); [now rewrite fill_length|].
  intros j L. rewrite fill_length in L. rewrite fill_nth by lia. rewrite Nat.add_0_l. change (0 <=? j) with true. rewrite andb_true_l, Nat.sub_0_r.
  destruct (Nat.ltb_spec j (length vs)); [reflexivity|lia].
Qed.

(* storing the values from number i on: past rows P, the row as it is *)
Lemma store_ok : forall vs i k two w rows c times ls txt row P,
  i + length vs = k -> length row = k -> c < length rows -> firstn c rows = P -> nth c rows [] = row ->
  length times = c + 1 ->
  (forall j, j < i -> nth j row v0 = nth j (fill i vs row) v0) ->
  during i k times (fun j => column j (P ++ [fill i vs row])) (match ls with Some l => l | None => [] end) ->
  exists rows', store v0 i (map Scalar vs) (mkPlot two w rows c times ls txt) =
    (mkPlot two w rows' c times (match vs with [] => ls | _ => Some (map (fun j => mkLine times (column j (P ++ [fill i vs row])) true) (seq 0 k)) end) txt, None) /\
    rows' = set_at c (fill i vs row) rows.
Proof.
  induction vs as [|v vs IH]; intros i k two w rows c times ls txt row P Hk Hr Hc HP Hn Ht Hj D; cbn [map store fill] in *.
  - exists rows. split; [reflexivity|]. subst row. clear -Hc. revert c Hc. induction rows as [|r rows IHr]; intros [|c] H; cbn in *; try lia; [reflexivity|].
    f_equal. apply IHr. lia.
  - cbn [p_rows p_count p_lines p_times set_rows set_lines p_two p_w p_text length] in *.
    destruct (Nat.leb_spec (length rows) c); [lia|]. rewrite Hn.
    set (row1 := set_at i v row) in *.
    set (rows1 := set_at c row1 rows).
    assert (F1 : firstn (c + 1) rows1 = P ++ [row1]) by (unfold rows1; rewrite set_at_firstn, HP by lia; reflexivity).
    rewrite F1.
    assert (LY : length (column i (P ++ [row1])) = c + 1).
    { rewrite column_length, app_length, <- HP, firstn_length. cbn. lia. }
    rewrite LY, Ht, Nat.eqb_refl, andb_false_r.
    assert (EQ : column i (P ++ [row1]) = column i (P ++ [fill (S i) vs row1])).
    { unfold PlotModel.column. rewrite !map_app. f_equal. cbn [map]. f_equal.
      rewrite fill_nth by (unfold row1; rewrite set_at_length; lia).
      destruct (Nat.leb_spec (S i) i); [lia|]. reflexivity. }
    rewrite EQ.
    destruct (IH (S i) k two w rows1 c times (Some (draw i times (column i (P ++ [fill (S i) vs row1])) match ls with Some l => l | None => [] end)) txt row1 P) as [rows' [S' R']].
    + lia.
    + unfold row1. now rewrite set_at_length.
    + unfold rows1. rewrite set_at_length. lia.
    + unfold rows1. subst P. clear. revert rows. induction c as [|c IHc]; intros [|r rows]; try reflexivity. cbn. now rewrite IHc.
    + unfold rows1. rewrite set_at_nth by lia. reflexivity.
    + exact Ht.
    + intros j Lj. rewrite fill_nth by (unfold row1; rewrite set_at_length; lia).
      destruct (Nat.leb_spec (S i) j); [lia|]. reflexivity.
    + apply (during_draw i k times (fun j => column j (P ++ [fill (S i) vs row1]))); [lia|exact D].
    + exists rows'. split.
      * unfold set_rows, set_lines. cbn [p_two p_w p_rows p_count p_times p_lines p_text]. rewrite S'. f_equal. f_equal.
        destruct vs as [|v' vs]; [|reflexivity].
        cbn [fill length] in *. f_equal.
        apply (during_end k times (fun j => column j (P ++ [row1]))).
        replace k with (S i) by lia. apply during_draw; [lia|]. replace (S i) with k by lia. exact D.
      * rewrite R'. unfold rows1. apply set_at_twice.
Qed.

(* frames of k numbers *)
Definition frame (k : nat) (d : list V * Z) : Prop := length (fst d) = k.
Definition given (d : list V * Z) : list (@datum V) * Z := (map Scalar (fst d), snd d).
Definition inv (n k : nat) (b : bool) (fs : list (list V * Z)) (p : plot) : Prop :=
  (fs = [] /\ p = new_plot v0 n) \/
  (fs <> [] /\ p_two p = (1 <? k) /\ p_w p = k /\ holds n (p_rows p) (p_count p) (map fst fs) /\ Forall (fun r => length r = k) (p_rows p) /\
   p_times p = lastn n (stamps b (map snd fs)) /\ p_text p = None /\
   p_lines p = Some (map (fun i => mkLine (lastn n (stamps b (map snd fs))) (column i (lastn n (map fst fs))) true) (seq 0 k))).

Lemma Forall_set_at : forall (A : Type) (P : A -> Prop) c r (l : list A), Forall P l -> P r -> Forall P (set_at c r l).
Proof. intros A P c r l H R. revert c. induction H as [|a l Pa Pl IH]; intros [|c]; cbn; constructor; auto. Qed.
Lemma Forall_scroll : forall (A : Type) (P : A -> Prop) (l : list A), Forall P l -> Forall P (scroll l).
Proof.
  intros A P [|a l] H; [constructor|]. unfold scroll. inversion H; subst. apply Forall_app. split; [assumption|]. constructor; [|constructor].
  rewrite Forall_forall in H. apply H. clear. generalize a at 2. revert a. induction l as [|b l IH]; intros a d; [now left|]. right. apply (IH b).
Qed.
Lemma Forall_nth_lt : forall (A : Type) (P : A -> Prop) c (l : list A) d, Forall P l -> c < length l -> P (nth c l d).
Proof. intros A P c l d H L. rewrite Forall_forall in H. apply H. now apply nth_In. Qed.

Lemma trigger_inv : forall n k b fs p d, 1 <= n -> 1 <= k -> b = true \/ 2 <= n -> inv n k b fs p -> frame k d -> inv n k b (fs ++ [d]) (trigger v0 b p (given d)).
Proof.
  intros n k b fs p [vs t] Hn Hk Hb I F. unfold frame in F. cbn [fst] in F.
  (* the state after the change of size *)
  assert (R : exists two w rows c times ls, resize v0 k p = mkPlot two w rows c times ls None /\ two = (1 <? k) /\ w = k /\ holds n rows c (map fst fs) /\
     Forall (fun r => length r = k) rows /\ times = lastn n (stamps b (map snd fs)) /\ before k ls).
  { destruct I as [[-> ->]|(NE & T & W & H & FA & TT & TX & LL)].
    - unfold new_plot, resize. cbn [p_two p_w p_rows p_count p_times p_lines p_text negb andb]. rewrite orb_false_r, repeat_length.
      assert (HH : forall r : list V, holds n (repeat r n) 0 (@nil (list V))).
      { intros r. split; [apply repeat_length|]. split; [reflexivity|]. reflexivity. }
      assert (ST : @nil Z = lastn n (stamps b [])) by (rewrite lastn_all; destruct b; cbn; try reflexivity; lia).
      destruct (Nat.ltb_spec 1 k) as [K|K].
      + do 6 eexists. split; [reflexivity|]. repeat split; try apply HH; try exact ST; try (now left).
        apply Forall_forall. intros r Hr. apply repeat_spec in Hr. subst r. apply repeat_length.
      + assert (K1 : k = 1) by lia. clear F Hk K. subst k. do 6 eexists. split; [reflexivity|]. repeat split; try apply HH; try exact ST; try (now left).
        apply Forall_forall. intros r Hr. apply repeat_spec in Hr. now subst r.
    - destruct p as [two w rows c times ls txt]. cbn [p_two p_w p_rows p_count p_times p_lines p_text] in *. subst two w txt.
      exists (1 <? k), k, rows, c, times, ls. split.
      + unfold resize. cbn [p_two p_w p_rows]. rewrite Nat.eqb_refl, andb_false_r, orb_false_r. now destruct (1 <? k).
      + repeat split; try assumption; try apply H. right. eexists _, (fun i => column i (lastn n (map fst fs))). exact LL. }
  destruct R as (two & w & rows & c & times & ls & E & Etwo & Ew & H & FA & Et & B).
  unfold trigger, given, update. cbn [fst snd]. rewrite map_length, F, E.
  pose proof (holds_room n rows c (map fst fs) Hn H) as HR. cbv zeta in HR.
  assert (C0 : c = Nat.min (length (stamps b (map snd fs))) n).
  { rewrite stamps_length, map_length. destruct H as (_ & -> & _). now rewrite map_length. }
  pose proof (times_room n c _ Hn C0) as TR. rewrite <- Et in TR.
  assert (MR : make_room (mkPlot two w rows c times ls None) =
    mkPlot two w (if n <=? c then scroll rows else rows) (if n <=? c then n - 1 else c) (if n <=? c then tl times else times) ls None).
  { unfold make_room. cbn. destruct H as (-> & _). now destruct (n <=? c). }
  rewrite MR. rewrite TR. cbn [p_two p_w p_rows p_count p_times p_lines p_text].
  set (rows1 := if n <=? c then scroll rows else rows) in *. set (c1 := if n <=? c then n - 1 else c) in *.
  destruct HR as (L1 & C1 & M1 & F1).
  assert (FA1 : Forall (fun r => length r = k) rows1) by (unfold rows1; destruct (n <=? c); [now apply Forall_scroll|exact FA]).
  rewrite (stamp_next b n (map snd fs) t Hn Hb).
  assert (Lrow : length (nth c1 rows1 []) = k) by (apply (Forall_nth_lt _ (fun r => length r = k)); [exact FA1|lia]).
  assert (FF : fill 0 vs (nth c1 rows1 []) = vs) by (apply fill_all; lia).
  destruct (store_ok vs 0 k two w rows1 c1 (lastn n (stamps b (map snd fs ++ [t]))) ls None (nth c1 rows1 []) (lastn (n - 1) (map fst fs))) as [rows' [S R]]; try assumption; try lia; try reflexivity.
  { rewrite lastn_length, stamps_length, app_length, map_length. rewrite map_length in M1. cbn [length]. lia. }
  { now apply before_during. }
  rewrite S. clear S. rewrite FF in *. subst rows'. destruct vs as [|v vs']; [cbn in F; lia|]. set (vs := v :: vs') in *.
  cbn [p_two p_w p_rows p_count p_times p_lines p_text].
  right. rewrite !map_app. cbn [map fst snd p_two p_w p_rows p_count p_times p_lines p_text].
  split; [intro Z; symmetry in Z; now apply app_cons_not_nil in Z|].
  destruct (holds_put n rows1 c1 (map fst fs) vs Hn L1 C1 M1 F1) as [HP _].
  repeat split; try assumption; try apply HP.
  - now apply Forall_set_at.
  - rewrite (lastn_snoc n (map fst fs) vs Hn). reflexivity.
Qed.

Lemma run_inv : forall n k b fs, 1 <= n -> 1 <= k -> b = true \/ 2 <= n -> Forall (frame k) fs ->
  inv n k b fs (fold_left (trigger v0 b) (map given fs) (new_plot v0 n)).
Proof.
  intros n k b fs Hn Hk Hb. induction fs as [|d fs IH] using rev_ind; intros H.
  - left. split; reflexivity.
  - rewrite map_app, fold_left_app. cbn [map fold_left]. apply Forall_app in H. destruct H as [H1 H2]. inversion H2; subst.
    apply trigger_inv; auto.
Qed.

(* ---------------------------------------------------------------- after a first failure *)
Definition blank (p : plot) : Prop := (p_lines p = None \/ p_lines p = Some []) /\ p_count p < length (p_times p) /\ (exists m, p_text p = Some m) /\ 1 <= length (p_rows p).
Lemma stamp_length : forall b t l, length (stamp b t l) = S (length l).
Proof. intros. unfold stamp. rewrite app_length. cbn. lia. Qed.
Lemma resize_fields : forall k p, p_lines (resize v0 k p) = p_lines p /\ p_count (resize v0 k p) = p_count p /\ p_times (resize v0 k p) = p_times p /\ p_text (resize v0 k p) = p_text p /\ length (p_rows (resize v0 k p)) = length (p_rows p).
Proof. intros k p. unfold resize. destruct (_ || _); cbn; [rewrite repeat_length|]; auto. Qed.
Lemma store_blank : forall data p, p_lines p = None \/ p_lines p = Some [] -> p_count p + 1 < length (p_times p) -> 1 <= length (p_rows p) ->
  let q := fst (store v0 0 data p) in
  (p_lines q = None \/ p_lines q = Some []) /\ p_count q = p_count p /\ p_times q = p_times p /\ p_text q = p_text p /\ length (p_rows q) = length (p_rows p) /\
  (snd (store v0 0 data p) = None -> data = []).
Proof.
  intros data p HL HT HR. destruct data as [|[v|] r]; cbn [store]; cbv zeta.
  - cbn. auto 10.
  - destruct (Nat.leb_spec (length (p_rows p)) (p_count p)) as [H|H].
    + cbn. repeat split; auto. discriminate.
    + assert (L0 : (length match p_lines p with Some l => l | None => [] end <=? 0) = true) by (destruct HL as [-> | ->]; reflexivity).
      rewrite L0. unfold set_rows. cbn [p_times].
      match goal with |- context [negb (?a =? ?b)] => assert (Q : (a =? b) = false) end.
      { apply Nat.eqb_neq. rewrite column_length, firstn_length. lia. }
      rewrite Q. cbn [negb andb].
      cbn [fst snd set_lines set_rows p_lines p_count p_times p_text p_rows]. repeat split; auto; try discriminate; try apply set_at_length. right. destruct HL as [-> | ->]; reflexivity.
  - cbn. repeat split; auto. discriminate.
Qed.
Lemma trigger_blank : forall b p d, blank p -> blank (trigger v0 b p d).
Proof.
  intros b p [data t] (HL & HC & [m HT] & HR). unfold trigger, update. cbn [fst snd].
  destruct (resize_fields (length data) p) as (E1 & E2 & E3 & E4 & E5).
  set (q := resize v0 (length data) p) in *.
  assert (M : (p_lines (make_room q) = p_lines p) /\ p_count (make_room q) < length (p_times (make_room q)) /\ p_text (make_room q) = p_text p /\ length (p_rows (make_room q)) = length (p_rows p)).
  { unfold make_room. destruct (Nat.leb_spec (length (p_rows q)) (p_count q)); cbn.
    - rewrite scroll_length. repeat split; try congruence. assert (X : length (tl (p_times q)) = length (p_times q) - 1) by (destruct (p_times q); cbn; lia). rewrite X, E3. rewrite E2 in H. lia.
    - repeat split; congruence. }
  set (r := make_room q) in *. destruct M as (M1 & M2 & M3 & M4).
  set (s := mkPlot (p_two r) (p_w r) (p_rows r) (p_count r) (stamp b t (p_times r)) (p_lines r) (p_text r)).
  destruct (store_blank data s) as (S1 & S2 & S3 & S4 & S5 & S6).
  { cbn. now rewrite M1. } { cbn. rewrite stamp_length. lia. } { cbn. lia. }
  destruct (store v0 0 data s) as [u e]. cbn [fst snd] in *.
  assert (CL : clear (p_lines u) = None \/ clear (p_lines u) = Some []) by (destruct S1 as [-> | ->]; cbn; auto).
  assert (CT : p_count u + 1 < length (p_times u)) by (rewrite S2, S3; cbn; rewrite stamp_length; lia).
  assert (S7 : 1 <= length (p_rows u)) by (rewrite S5; cbn; lia).
  assert (S8 : p_text u = Some m) by (rewrite S4; cbn; congruence).
  destruct e as [e|].
  - split; [exact CL|]. cbn. split; [lia|]. split; [now eexists|lia].
  - destruct (p_lines u) as [l|] eqn:EU.
    + split; [|cbn; split; [lia|]; split; [exists m; congruence|lia]]. cbn. exact S1.
    + split; [cbn; rewrite EU; now left|]. cbn. split; [lia|]. split; [now eexists|lia].
Qed.
Lemma first_blank : forall n b t data, 1 <= n -> data = [] \/ (exists r, data = Array :: r) -> blank (trigger v0 b (new_plot v0 n) (data, t)).
Proof.
  intros n b t data Hn D. unfold trigger, update. cbn [fst snd].
  destruct (resize_fields (length data) (new_plot v0 n)) as (E1 & E2 & E3 & E4 & E5).
  set (q := resize v0 (length data) (new_plot v0 n)) in *. cbn in E1, E2, E3, E4. cbn [new_plot p_rows] in E5; rewrite repeat_length in E5.
  assert (M : make_room q = q) by (unfold make_room; rewrite E2, E5; destruct (Nat.leb_spec n 0); [lia|reflexivity]).
  rewrite M. destruct D as [-> | [r ->]]; cbn [store p_lines p_text p_count p_times p_rows p_two p_w].
  - rewrite E1. unfold blank. cbn [p_lines p_count p_times p_text p_rows clear]. rewrite stamp_length, E2. repeat split; auto; try lia. now eexists.
  - rewrite E1. unfold blank. cbn [p_lines p_count p_times p_text p_rows clear]. rewrite stamp_length, E2. repeat split; auto; try lia. now eexists.
Qed.
Lemma run_blank : forall b ds p, blank p -> blank (fold_left (trigger v0 b) ds p).
Proof. intros b ds. induction ds as [|d ds IH]; intros p H; [exact H|]. apply IH. now apply trigger_blank. Qed.

(* ---------------------------------------------------------------- PlotVectorDisplay *)
Lemma draw_all_during : forall ix i k x rows yy l, i + length ix = k -> (forall j, j < length ix -> yy (i + j) = column (nth j ix 0) rows) -> during i k x yy l ->
  during k k x yy (draw_all v0 i ix x rows l).
Proof.
  induction ix as [|a ix IH]; intros i k x rows yy l K Y D; cbn [draw_all length] in *.
  - assert (i = k) by lia. subst i. exact D.
  - apply IH.
    + lia.
    + intros j H. replace (S i + j) with (i + S j) by lia. rewrite Y by lia. reflexivity.
    + pose proof (Y 0 ltac:(lia)) as Y0; rewrite Nat.add_0_r in Y0; cbn [nth] in Y0; rewrite <- Y0. apply during_draw; [lia|exact D].
Qed.

Definition vgiven (d : list V * Z) : option (list V) * Z := (Some (fst d), snd d).
Definition vinv (n k : nat) (ix : list nat) (b : bool) (fs : list (list V * Z)) (p : vplot) : Prop :=
  (fs = [] /\ p = new_vplot) \/
  (fs <> [] /\ (exists rows, v_rows p = Some (k, rows) /\ holds n rows (v_count p) (map fst fs)) /\
   v_times p = lastn n (stamps b (map snd fs)) /\ v_text p = None /\
   v_lines p = Some (map (fun i => mkLine (lastn n (stamps b (map snd fs))) (column (nth i ix 0) (lastn n (map fst fs))) true) (seq 0 (length ix)))).
Lemma vtrigger_inv : forall n kk most ix k b fs p d, 1 <= n -> b = true \/ 2 <= n -> plot_indices kk most k = Ok ix -> ix <> [] ->
  vinv n k ix b fs p -> frame k d -> vinv n k ix b (fs ++ [d]) (vtrigger v0 n kk most b p (vgiven d)).
Proof.
  intros n kk most ix k b fs p [vec t] Hn Hb PI NE I F. unfold frame in F. cbn [fst] in F.
  assert (R : exists rows c times ls txt, match v_rows p with Some r => r | None => (k, repeat (repeat v0 k) n) end = (k, rows) /\ p = mkVP (v_rows p) c times ls txt /\ txt = None /\
     holds n rows c (map fst fs) /\ times = lastn n (stamps b (map snd fs)) /\ before (length ix) ls).
  { destruct I as [[-> ->]|(NF & [rows [V1 H]] & T & X & L)].
    - do 5 eexists. split; [reflexivity|]. split; [reflexivity|]. split; [reflexivity|]. split; [|split].
      + split; [apply repeat_length|]. split; reflexivity.
      + rewrite lastn_all; destruct b; cbn; try reflexivity; lia.
      + now left.
    - exists rows, (v_count p), (v_times p), (v_lines p), (v_text p). rewrite V1. split; [reflexivity|]. split; [destruct p; cbn in *; congruence|].
      repeat split; try assumption; try apply H. right. eexists _, (fun i => column (nth i ix 0) (lastn n (map fst fs))). exact L. }
  destruct R as (rows & c & times & ls & txt & E & EP & ET & H & Et & B). subst txt.
  unfold vtrigger, vgiven. cbn [fst snd]. rewrite F, E, Nat.eqb_refl. cbn [negb]. rewrite PI.
  destruct ix as [|i0 ix'] eqn:EI; [congruence|]. rewrite <- EI in *.
  rewrite EP. cbn [v_count v_times v_lines v_text].
  pose proof (holds_room n rows c (map fst fs) Hn H) as HR. cbv zeta in HR.
  assert (C0 : c = Nat.min (length (stamps b (map snd fs))) n).
  { rewrite stamps_length, map_length. destruct H as (_ & -> & _). now rewrite map_length. }
  pose proof (times_room n c _ Hn C0) as TR. rewrite <- Et in TR. rewrite TR.
  set (rows1 := if n <=? c then scroll rows else rows) in *. set (c1 := if n <=? c then n - 1 else c) in *.
  destruct HR as (L1 & C1 & M1 & F1). rewrite L1. destruct (Nat.leb_spec n c1); [lia|].
  destruct (holds_put n rows1 c1 (map fst fs) vec Hn L1 C1 M1 F1) as [HP HF].
  rewrite (stamp_next b n (map snd fs) t Hn Hb), HF.
  right. rewrite !map_app. cbn [map fst snd v_rows v_count v_times v_text v_lines].
  split; [intro Z; symmetry in Z; now apply app_cons_not_nil in Z|].
  split; [now exists (set_at c1 vec rows1)|]. split; [reflexivity|]. split; [reflexivity|].
  f_equal. apply (during_end (length ix) _ (fun i => column (nth i ix 0) (lastn n (map fst fs ++ [vec])))).
  apply draw_all_during; [reflexivity|reflexivity|]. now apply before_during.
Qed.
Lemma vrun_inv : forall n kk most ix k b fs, 1 <= n -> b = true \/ 2 <= n -> plot_indices kk most k = Ok ix -> ix <> [] -> Forall (frame k) fs ->
  vinv n k ix b fs (fold_left (vtrigger v0 n kk most b) (map vgiven fs) new_vplot).
Proof.
  intros n kk most ix k b fs Hn Hb PI NE. induction fs as [|d fs IH] using rev_ind; intros H.
  - left. split; reflexivity.
  - rewrite map_app, fold_left_app. cbn [map fold_left]. apply Forall_app in H. destruct H as [H1 H2]. inversion H2; subst.
    apply vtrigger_inv; auto.
Qed.

(* ---------------------------------------------------------------- DataPlotter *)
Lemma history_inv : forall n (vs : list V) st v, 1 <= n -> holds n (fst st) (snd st) vs ->
  exists st', plot_history st v = Ok (st', (seq 0 (Nat.min (S (length vs)) n), lastn n (vs ++ [v]))) /\ holds n (fst st') (snd st') (vs ++ [v]).
Proof.
  intros n vs [h c] v Hn H. cbn [fst snd] in H. pose proof H as (L & _). unfold plot_history. rewrite L.
  pose proof (holds_room n h c vs Hn H) as HR. cbv zeta in HR.
  destruct (n <=? c) eqn:Q; destruct HR as (L1 & C1 & M1 & F1).
  - destruct (Nat.leb_spec n (n - 1)); [lia|].
    destruct (holds_put n _ _ vs v Hn L1 C1 M1 F1) as [HP HF].
    exists (set_at (n - 1) v (scroll h), S (n - 1)). split; [|exact HP]. rewrite Nat.add_1_r in HF. rewrite HF. do 4 f_equal. lia.
  - rewrite Q. destruct (holds_put n _ _ vs v Hn L1 C1 M1 F1) as [HP HF].
    exists (set_at c v h, S c). split; [|exact HP]. rewrite Nat.add_1_r in HF. rewrite HF. do 4 f_equal. lia.
Qed.
End Plot.

(* ---------------------------------------------------------------- DataPrint *)
Local Open Scope Z_scope.
Lemma printed_in : forall dt ts last t, In t (printed dt last ts) -> In t ts.
Proof.
  induction ts as [|a ts IH]; intros last t H; cbn in H; [destruct H|]. unfold print_step in H.
  destruct (dt <=? a - last); [destruct H as [->|H]; [now left|]|]; right; eapply IH; exact H.
Qed.
Lemma printed_app : forall dt a last b, exists last', printed dt last (a ++ b) = printed dt last a ++ printed dt last' b /\
  (last' = last /\ printed dt last a = [] \/ exists l, printed dt last a = l ++ [last']).
Proof.
  induction a as [|t a IH]; intros last b; cbn [app printed].
  - exists last. split; [reflexivity|]. now left.
  - unfold print_step. destruct (dt <=? t - last).
    + destruct (IH t b) as [last' [E D]]. exists last'. split; [now rewrite E|]. right.
      destruct D as [[-> ->]|[l ->]]; [now exists []|now exists (t :: l)].
    + apply IH.
Qed.
(* spacing *)
Lemma printed_spaced : forall dt ts last a b u v, printed dt last ts = a ++ u :: v :: b -> dt <= v - u.
Proof.
  induction ts as [|t ts IH]; intros last a b u v H; cbn in H; [destruct a; discriminate|]. unfold print_step in H.
  destruct (Z.leb_spec dt (t - last)) as [L|L]; [|eapply IH; exact H].
  destruct a as [|x a]; cbn in H; injection H as -> H.
  - clear IH L last. revert H. induction ts as [|t' ts IH]; intros H; cbn in H; [discriminate|]. unfold print_step in H.
    destruct (Z.leb_spec dt (t' - u)) as [L'|L']; [|now apply IH]. injection H as -> H. exact L'.
  - eapply IH. exact H.
Qed.
(* a time not printed comes less than dt after one that is, or at a negative time before all *)
Lemma printed_skipped : forall dt a b t, printed dt (print_start dt) (a ++ t :: b) = printed dt (print_start dt) a ++ printed dt (List.last (printed dt (print_start dt) a) (- dt)) (t :: b).
Proof.
  intros. destruct (printed_app dt a (print_start dt) (t :: b)) as [last' [E D]]. rewrite E. f_equal.
  destruct D as [[-> ->]|[l ->]]; [reflexivity|]. now rewrite last_last.
Qed.
(* regular triggers *)
Lemma printed_early : forall dt last a rest, Forall (fun t => t - last < dt) a -> printed dt last (a ++ rest) = printed dt last rest.
Proof. induction 1 as [|x a Hx _ IH]; [reflexivity|]. cbn [app printed]. unfold print_step. destruct (Z.leb_spec dt (x - last)); [lia|exact IH]. Qed.
Lemma printed_block : forall (m : nat) p last s, (1 <= m)%nat -> 0 < p -> last = s - Z.of_nat m * p -> forall rest,
  printed (Z.of_nat m * p) last (map (fun i => s + Z.of_nat i * p) (seq 0 m) ++ rest) = s :: printed (Z.of_nat m * p) s rest.
Proof.
  intros m p last s Hm Hp E rest. destruct m as [|m]; [lia|]. cbn [seq map app printed]. unfold print_step.
  destruct (Z.leb_spec (Z.of_nat (S m) * p) (s + Z.of_nat 0 * p - last)) as [H|H]; [|lia].
  cbn [Z.of_nat]. rewrite Z.mul_0_l, Z.add_0_r. f_equal. apply printed_early.
  apply Forall_forall. intros t Ht. apply in_map_iff in Ht. destruct Ht as [i [<- Hi]]. apply in_seq in Hi.
  replace (s + Z.of_nat i * p - s) with (Z.of_nat i * p) by lia. apply Z.mul_lt_mono_pos_r; lia.
Qed.
Lemma printed_regular : forall (m : nat) p q s last, (1 <= m)%nat -> 0 < p -> last = s - Z.of_nat m * p ->
  printed (Z.of_nat m * p) last (map (fun i => s + Z.of_nat i * p) (seq 0 (q * m))) = map (fun j => s + Z.of_nat j * (Z.of_nat m * p)) (seq 0 q).
Proof.
  intros m p q. induction q as [|q IH]; intros s last Hm Hp E; [reflexivity|].
  replace (S q * m)%nat with (m + q * m)%nat by lia. rewrite seq_app, map_app, Nat.add_0_l.
  rewrite (printed_block m p last s Hm Hp E). cbn [seq map Z.of_nat]. rewrite Z.mul_0_l, Z.add_0_r. f_equal.
  rewrite <- seq_shift, map_map.
  replace (map (fun i => s + Z.of_nat i * p) (seq m (q * m))) with (map (fun i => (s + Z.of_nat m * p) + Z.of_nat i * p) (seq 0 (q * m))).
  - rewrite (IH (s + Z.of_nat m * p) s Hm Hp) by lia. apply map_ext. intros j. lia.
  - assert (G : forall len a, map (fun i => s + Z.of_nat m * p + Z.of_nat i * p) (seq a len) = map (fun i => s + Z.of_nat i * p) (seq (m + a) len)).
    { induction len as [|len IHl]; intros a; [reflexivity|]. cbn [seq map]. rewrite IHl. f_equal; [lia|]. do 2 f_equal. lia. }
    rewrite G, Nat.add_0_r. reflexivity.
Qed.
