From Coq Require Import List ZArith Bool Arith QArith Qcanon Lia.
From Verif Require Import PyBase PyLemmas Arith ArithLemmas FilterSpec SumLemmas OpticalModel ExtModel InterpModel AtmoModel SlopecSpec InfModel InfSpec.
Import ListNotations.
Local Open Scope nat_scope.

Lemma square_ext n f h a : square_of n f a -> (forall i j, i < n -> j < n -> f i j = h i j) -> square_of n h a.
Proof. intros (L & W & V) E. repeat split; auto. intros i j Hi Hj. rewrite V by auto. auto. Qed.

Lemma firstn_nth {X} k (l : list X) i d : i < k -> nth i (firstn k l) d = nth i l d.
Proof. revert l i. induction k; intros l i H; [lia|]. destruct l, i; cbn; auto. apply IHk. lia. Qed.
Lemma tl_nth {X} (l : list X) i d : nth i (tl l) d = nth (S i) l d.
Proof. destruct l; cbn; auto. now destruct i. Qed.
Lemma tl_length {X} (l : list X) : length (tl l) = length l - 1.
Proof. destruct l; cbn; lia. Qed.
Lemma nth_map_nil {X Y} (h : list X -> list Y) l i : h [] = [] -> nth i (map h l) [] = h (nth i l []).
Proof. intros E. rewrite <- E at 1. apply map_nth. Qed.
Lemma nth_snoc {X} (l : list X) x i d : nth i (l ++ [x]) d = if i <? length l then nth i l d else if i =? length l then x else d.
Proof.
  destruct (Nat.ltb_spec i (length l)); [now rewrite app_nth1|]. rewrite app_nth2 by auto. destruct (Nat.eqb_spec i (length l)); [subst; now rewrite Nat.sub_diag|].
  destruct (i - length l) as [|[|k]] eqn:E; try lia; reflexivity.
Qed.

Section G.
Variable g : geom.
Hypothesis Hg : geom_ok g.
Notation N := (g_n g).

Lemma new_line_length a row after v : length (new_line g a row after v) = N.
Proof.
  unfold new_line, vadd, mv. rewrite map2_length, !map_length. destruct Hg as (_ & (LB & _) & HA). destruct (HA after) as [(LA & _) _]. lia.
Qed.

Lemma new_line_nth f a row after v x : square_of N f a -> length v = N -> x < N ->
  nth x (new_line g a row after v) 0%Qc = (given g after (fun r c => if row then f c r else f r c) x + chance g v x)%Qc.
Proof.
  intros (L & W & V) Lv Hx. destruct Hg as (_ & (LB & WB) & HA). destruct (HA after) as [(LA & WA) HP].
  unfold new_line, vadd.
  assert (LA' : @length (list Qc) (g_A g after) = N) by exact LA. assert (LB' : @length (list Qc) (g_B g) = N) by exact LB.
  rewrite (map2_nth (add (a:=qc)) _ _ x (0%Qc : qc) (0%Qc : qc)); [|unfold mv; rewrite map_length; eapply Nat.lt_le_trans; [exact Hx|]; now rewrite ?LA, ?LB..].
  assert (M : forall (m : list (list Qc)) u k, length m = N -> (forall r, In r m -> length r = k) -> length u = k ->
    nth x (mv (A:=qc) m u) 0%Qc = qsum k (fun j => nth j (nth x m []) 0 * nth j u 0)%Qc).
  { intros m u k Lm Wm Lu. unfold mv. rewrite (nth_indep _ 0%Qc (dot (A:=qc) [] u)) by (rewrite map_length; change (x < @length (list Qc) m); rewrite Lm; exact Hx).
    rewrite (map_nth (fun r => dot (A:=qc) r u)). apply (dot_sumn qc (nth x m []) u k); [|exact Lu]. apply Wm, nth_In. rewrite Lm. exact Hx. }
  rewrite (M _ _ (length (g_at g after))); [|exact LA|exact WA|now rewrite map_length].
  rewrite (M _ _ N); [|exact LB|exact WB|exact Lv].
  cbn [add qc]. f_equal. unfold given. apply (sumn_ext (A:=qc)). intros k Hk. cbn [mul qc]. f_equal.
  match goal with |- nth k (map ?h _) _ = _ => rewrite (nth_indep _ 0%Qc (h (0, 0))) by (rewrite map_length; lia); rewrite (map_nth h) end. cbv beta.
  destruct (nth k (g_at g after) (0, 0)) as [r c] eqn:E. assert (I : In (r, c) (g_at g after)) by (rewrite <- E; apply nth_In; lia).
  destruct (HP _ _ I). cbn [fst snd]. unfold pix. destruct row; apply V; auto.
Qed.

(* the screen after a line *)
Definition moved (row after : bool) (f : nat -> nat -> Qc) (l : nat -> Qc) (i j : nat) : Qc :=
  match row, after with
  | true, true => if j + 1 <? N then f i (j + 1) else l i
  | true, false => if j =? 0 then l i else f i (j - 1)
  | false, true => if i + 1 <? N then f (i + 1) j else l j
  | false, false => if i =? 0 then l j else f (i - 1) j
  end.
Lemma shifted_square f a row after l : square_of N f a -> length l = N -> square_of N (moved row after f (fun k => nth k l 0%Qc)) (shifted g a row after l).
Proof.
  intros (L & W & V) Ll. destruct Hg as (HN & _). unfold shifted. destruct row, after.
  - assert (R : forall i, i < N -> nth i (map (@tl Qc) (firstn N (map2 (fun r x => r ++ [x]) a l))) [] = tl (nth i a [] ++ [nth i l 0%Qc])).
    { intros i Hi. rewrite nth_map_nil by reflexivity. rewrite firstn_nth by auto. f_equal. rewrite (map2_nth _ _ _ i [] 0%Qc) by lia. reflexivity. }
    split; [|split].
    + rewrite map_length, firstn_length, map2_length. lia.
    + intros i Hi. rewrite R by auto. rewrite tl_length, app_length, W by auto. cbn. lia.
    + intros i j Hi Hj. unfold moved. rewrite R by auto. rewrite tl_nth, nth_snoc, W by auto.
      replace (S j) with (j + 1) by lia. destruct (Nat.ltb_spec (j + 1) N); [apply V; lia|]. destruct (Nat.eqb_spec (j + 1) N); [reflexivity|lia].
  - assert (R : forall i, i < N -> nth i (map (firstn N) (firstn N (map2 (fun r x => x :: r) a l))) [] = firstn N (nth i l 0%Qc :: nth i a [])).
    { intros i Hi. rewrite nth_map_nil by (now destruct N). rewrite firstn_nth by auto. f_equal. rewrite (map2_nth _ _ _ i [] 0%Qc) by lia. reflexivity. }
    split; [|split].
    + rewrite map_length, firstn_length, map2_length. lia.
    + intros i Hi. rewrite R by auto. rewrite firstn_length. cbn [length]. rewrite W by auto. lia.
    + intros i j Hi Hj. unfold moved. rewrite R by auto. rewrite firstn_nth by auto. destruct (Nat.eqb_spec j 0); [now subst|]. destruct j; [lia|]. cbn [nth]. replace (S j - 1) with j by lia. apply V; lia.
  - assert (R : forall i, i < N -> nth i (map (firstn N) (tl (a ++ [l]))) [] = firstn N (if i + 1 <? N then nth (i + 1) a [] else l)).
    { intros i Hi. rewrite nth_map_nil by (now destruct N). f_equal. rewrite tl_nth, nth_snoc, L. replace (S i) with (i + 1) by lia.
      destruct (Nat.ltb_spec (i + 1) N); [reflexivity|]. destruct (Nat.eqb_spec (i + 1) N); [reflexivity|lia]. }
    split; [|split].
    + rewrite map_length, tl_length, app_length. cbn. lia.
    + intros i Hi. rewrite R by auto. rewrite firstn_length. destruct (Nat.ltb_spec (i + 1) N); [rewrite W by lia|]; lia.
    + intros i j Hi Hj. unfold moved. rewrite R by auto. rewrite firstn_nth by auto. destruct (Nat.ltb_spec (i + 1) N); [apply V; lia|reflexivity].
  - assert (R : forall i, i < N -> nth i (map (firstn N) (firstn N (l :: a))) [] = firstn N (if i =? 0 then l else nth (i - 1) a [])).
    { intros i Hi. rewrite nth_map_nil by (now destruct N). rewrite firstn_nth by auto. f_equal. destruct i; [reflexivity|]. cbn [nth Nat.eqb]. now replace (S i - 1) with i by lia. }
    split; [|split].
    + rewrite map_length, firstn_length. cbn [length]. lia.
    + intros i Hi. rewrite R by auto. rewrite firstn_length. destruct (Nat.eqb_spec i 0); [|rewrite W by lia]; lia.
    + intros i j Hi Hj. unfold moved. rewrite R by auto. rewrite firstn_nth by auto. destruct (Nat.eqb_spec i 0); [reflexivity|apply V; lia].
Qed.

Section S.
Variable noise : nat -> list Qc.
Hypothesis Hn : forall k, length (noise k) = N.
Notation add := (add_line g noise).

(* the random numbers of the next line along an axis, and the others *)
Definition pending (s : inf) (row : bool) : option (list Qc) := if row then i_row s else i_col s.
Definition upcoming (s : inf) (row : bool) : list Qc := match pending s row with Some v => v | None => noise (i_drawn s) end.
Definition after_draw (s : inf) (row : bool) : nat := match pending s row with Some _ => i_drawn s | None => S (i_drawn s) end.

Lemma add_line_eq s row after flush : add s row after flush =
  mkInf (shifted g (i_full s) row after (new_line g (i_full s) row after (upcoming s row)))
        (if flush then None else if row then i_col s else Some (upcoming s row))
        (if flush then None else if row then Some (upcoming s row) else i_row s)
        (after_draw s row).
Proof.
  unfold add_line, prepared, upcoming, after_draw, pending. destruct s as [a c r d]; destruct row, flush; cbn; try destruct r; try destruct c; cbn; reflexivity.
Qed.

Lemma add_line_square s row after flush f : square_of N f (i_full s) -> length (upcoming s row) = N ->
  square_of N (moved row after f (fun x => given g after (fun r c => if row then f c r else f r c) x + chance g (upcoming s row) x)%Qc) (i_full (add s row after flush)).
Proof.
  intros Sq Lu. rewrite add_line_eq. cbn [i_full]. eapply square_ext; [apply shifted_square; [exact Sq|apply new_line_length]|].
  intros i j Hi Hj. unfold moved.
  destruct row, after; try (destruct (Nat.ltb_spec (j + 1) N)); try (destruct (Nat.ltb_spec (i + 1) N)); try (destruct (Nat.eqb_spec j 0)); try (destruct (Nat.eqb_spec i 0)); try reflexivity;
    first [exact (new_line_nth f _ true true _ _ Sq Lu Hi) | exact (new_line_nth f _ true false _ _ Sq Lu Hi) | exact (new_line_nth f _ false true _ _ Sq Lu Hj) | exact (new_line_nth f _ false false _ _ Sq Lu Hj)].
Qed.

(* ---------------------------------------------------------------------------- strips *)
Variables row after : bool.
Notation dep := (depth row after N).
Definition at_step (P : nat -> nat -> Qc) (n : nat) (a : list (list Qc)) : Prop := square_of N (fun i j => P (across row i j) (n + dep i j)) a.
(* random numbers of the n-th line are ready or about to be drawn *)
Definition ready (n : nat) (s : inf) : Prop := pending s (negb row) = None /\ ((pending s row = None /\ i_drawn s = n) \/ (pending s row = Some (noise n) /\ i_drawn s = S n)).
Lemma ready_upcoming n s : ready n s -> upcoming s row = noise n /\ after_draw s row = S n.
Proof. intros (_ & [[E F]|[E F]]); unfold upcoming, after_draw; rewrite E, ?F; auto. Qed.

Lemma depth_lt i j : i < N -> j < N -> dep i j < N.
Proof. unfold depth. destruct row, after; lia. Qed.

Definition grows (P : nat -> nat -> Qc) (n : nat) : Prop := forall a, a < N ->
  P a (N + n) = (given g after (fun r c => P c (n + if after then r else N - 1 - r)%nat) a + chance g (noise n) a)%Qc.

Lemma add_line_strip P n s flush : at_step P n (i_full s) -> ready n s -> grows P n ->
  at_step P (S n) (i_full (add s row after flush)) /\
  (if flush then ready (S n) (add s row after flush)
   else pending (add s row after flush) row = Some (noise n) /\ pending (add s row after flush) (negb row) = None /\ i_drawn (add s row after flush) = S n).
Proof.
  intros A R Gr. destruct (ready_upcoming n s R) as [U D]. split.
  - eapply square_ext; [apply add_line_square; [exact A|now rewrite U]|]. intros i j Hi Hj. rewrite U.
    assert (X : forall x, x < N -> (given g after (fun r c => if row then P (across row c r) (n + dep c r)%nat else P (across row r c) (n + dep r c)%nat) x + chance g (noise n) x)%Qc = P x (N + n)).
    { intros x Hx. rewrite Gr by auto. f_equal. unfold given. apply (sumn_ext (A:=qc)). intros k _. f_equal. unfold across, depth. now destruct row, after. }
    destruct Hg as (HN & _). unfold moved, across, depth in *. destruct row, after; cbv zeta in *.
    + destruct (Nat.ltb_spec (j + 1) N); [f_equal; lia|]. rewrite X by auto. f_equal; lia.
    + destruct (Nat.eqb_spec j 0); [rewrite X by auto|]; f_equal; lia.
    + destruct (Nat.ltb_spec (i + 1) N); [f_equal; lia|]. rewrite X by auto. f_equal; lia.
    + destruct (Nat.eqb_spec i 0); [rewrite X by auto|]; f_equal; lia.
  - rewrite add_line_eq, D, U. destruct R as [R _]. unfold ready, pending in *. destruct flush, row; cbn in *; auto.
Qed.

Lemma add_lines_strip P k : forall n s, at_step P n (i_full s) -> ready n s -> (forall m, grows P m) ->
  at_step P (n + k) (i_full (add_lines g noise k s row after)) /\ ready (n + k) (add_lines g noise k s row after).
Proof.
  intros n s A R Gr. induction k as [|k IH].
  - rewrite Nat.add_0_r. now split.
  - destruct IH as [A1 R1]. unfold add_lines in *. cbn [Nat.iter nat_rect]. rewrite Nat.add_succ_r. exact (add_line_strip P (n + k) _ true A1 R1 (Gr _)).
Qed.

(* Every screen is the beginning of a strip. *)
Definition pixel_of (a d : nat) : nat * nat := let e := if after then d else N - 1 - d in if row then (a, e) else (e, a).
Lemma pixel_of_spec a d : a < N -> d < N -> let p := pixel_of a d in fst p < N /\ snd p < N /\ across row (fst p) (snd p) = a /\ dep (fst p) (snd p) = d.
Proof. unfold pixel_of, across, depth. destruct row, after; cbn; lia. Qed.
Lemma of_pixel i j : i < N -> j < N -> across row i j < N /\ pixel_of (across row i j) (dep i j) = (i, j).
Proof. unfold pixel_of, across, depth. destruct row, after; cbn; intros; split; auto; f_equal; lia. Qed.

Lemma strip_exists (f : nat -> nat -> Qc) a0 : square_of N f a0 -> exists P, strip g noise row after f P.
Proof.
  intros Sq.
  set (sc := fun n => Nat.iter n (fun x => add x row after true) (fresh a0)).
  set (P := fun a q => let k := q + 1 - N in let p := pixel_of a (q - k) in pix (i_full (sc k)) (fst p) (snd p)).
  assert (HN : 0 < N) by apply Hg.
  assert (Key : forall n, at_step P n (i_full (sc n)) /\ ready n (sc n) /\ forall m, m < n -> grows P m).
  { induction n as [|n (A & R & Gr)].
    - split; [|split].
      + eapply square_ext; [exact Sq|]. intros i j Hi Hj. unfold P. cbv zeta. pose proof (depth_lt i j Hi Hj). replace (0 + dep i j + 1 - N) with 0 by lia.
        replace (0 + dep i j - 0) with (dep i j) by lia. destruct (of_pixel i j Hi Hj) as [_ E]. rewrite E. cbn [fst snd sc Nat.iter nat_rect]. unfold pix. symmetry. apply Sq; auto.
      + split; [unfold pending; destruct row; reflexivity|]. left. split; [unfold pending; destruct row|]; reflexivity.
      + lia.
    - assert (G1 : grows P n).
      { intros a Ha. destruct (ready_upcoming n _ R) as [U D].
        pose proof (add_line_square (sc n) row after true _ A ltac:(now rewrite U)) as Sq1. rewrite U in Sq1.
        unfold P at 1. cbv zeta. replace (N + n + 1 - N) with (S n) by lia. replace (N + n - S n) with (N - 1) by lia.
        destruct (pixel_of_spec a (N - 1) Ha ltac:(lia)) as (H1 & H2 & H3 & H4). destruct (pixel_of a (N - 1)) as [i j]. cbn [fst snd] in *.
        change (sc (S n)) with (add (sc n) row after true). unfold pix. destruct Sq1 as (_ & _ & V). rewrite V by auto.
        assert (E : (given g after (fun r c => if row then P (across row c r) (n + dep c r)%nat else P (across row r c) (n + dep r c)%nat) a = given g after (fun r c => P c (n + if after then r else N - 1 - r)%nat) a)%Qc).
        { unfold given. apply (sumn_ext (A:=qc)). intros k _. f_equal. unfold across, depth. now destruct row, after. }
        rewrite <- E. clear E. unfold moved, across, depth in *. destruct row, after; cbv zeta in *; subst.
        - destruct (Nat.ltb_spec (N - 1 + 1) N); [lia|reflexivity].
        - replace j with 0 by lia. reflexivity.
        - destruct (Nat.ltb_spec (N - 1 + 1) N); [lia|reflexivity].
        - replace i with 0 by lia. reflexivity. }
      destruct (add_line_strip P n (sc n) true A R G1) as [A1 R1]. split; [exact A1|]. split; [exact R1|]. intros m Hm. destruct (Nat.eq_dec m n); [now subst|apply Gr; lia]. }
  exists P. split.
  - intros i j Hi Hj. destruct (Key 0) as ((_ & _ & V) & _). pose proof (V i j Hi Hj) as E. cbv beta in E. cbn [Nat.add] in E. rewrite <- E. cbn [sc Nat.iter nat_rect fresh i_full]. apply Sq; auto.
  - intros n a Ha. destruct (Key (S n)) as (_ & _ & Gr). apply Gr; auto.
Qed.

Lemma strip_unique f P Q : strip g noise row after f P -> strip g noise row after f Q -> forall q a, a < N -> P a q = Q a q.
Proof.
  intros [P0 P1] [Q0 Q1] q. induction q as [q IH] using lt_wf_ind. intros a Ha. destruct (Nat.lt_ge_cases q N) as [H|H].
  - destruct (pixel_of_spec a q Ha H) as (H1 & H2 & H3 & H4). destruct (pixel_of a q) as [i j]. cbn [fst snd] in *. rewrite <- H3, <- H4. now rewrite P0, Q0.
  - replace q with (N + (q - N)) by lia. rewrite P1, Q1 by auto. f_equal. unfold given. apply (sumn_ext (A:=qc)). intros k Hk. f_equal.
    destruct (nth k (g_at g after) (0, 0)) as [r c] eqn:E. assert (I : In (r, c) (g_at g after)) by (rewrite <- E; apply nth_In; lia).
    destruct Hg as (_ & _ & HA). destruct (HA after) as [_ HP]. destruct (HP _ _ I). cbn [fst snd]. apply IH; [destruct after; lia|auto].
Qed.
End S.
End G.
