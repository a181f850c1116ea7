(* Lemmas on selections of rows and columns. *)
From Coq Require Import List ZArith Bool Arith Lia.
From Verif Require Import PyBase PyLemmas ArithLemmas NpModel NpSpec NpProofs NpSegments FitsModel FitsSpec FitsProofs CutModel CutSpec.
Import ListNotations.

Section P.
Context {V : Type} (zero : V).

Lemma nth_skipn {X} (l : list X) a i d : nth i (skipn a l) d = nth (a + i) l d.
Proof. revert l. induction a as [|a IH]; intros [|x l]; cbn; auto. now destruct i. Qed.
Lemma nth_firstn {X} (l : list X) a i d : i < a -> nth i (firstn a l) d = nth i l d.
Proof. revert l i. induction a as [|a IH]; intros [|x l] [|i] H; cbn; auto; try lia. apply IH. lia. Qed.

Lemma take_head {X} (l : list X) k : (0 <= k)%Z -> take_slice l (head k) = Ok (firstn (Z.to_nat k) l).
Proof.
  intros H. unfold head. rewrite take_segment; [|discriminate|intros v E; injection E as <-; exact H].
  cbn [obound skipn]. now rewrite Nat.sub_0_r.
Qed.
Lemma take_from {X} (l : list X) k : (0 <= k)%Z -> take_slice l (from k) = Ok (skipn (Z.to_nat k) l).
Proof.
  intros H. unfold from. rewrite take_segment; [|intros v E; injection E as <-; exact H|discriminate].
  cbn [obound]. f_equal. apply firstn_all2. rewrite skipn_length. lia.
Qed.

Lemma map_res_pure {X Y} (f : X -> res Y) g l : (forall x, In x l -> f x = Ok (g x)) -> map_res f l = Ok (map g l).
Proof.
  induction l as [|x l IH]; intros H; [reflexivity|]. cbn [map_res map]. rewrite (H x (or_introl eq_refl)). cbn [bind].
  rewrite IH by (intros; apply H; now right). reflexivity.
Qed.

Lemma sel_rows_head m k : rect m -> (0 <= k)%Z -> exists out, sel_rows V m (head k) = Ok out /\
  entries zero (Nat.min (Z.to_nat k) (a_r m)) (a_c m) (entry zero m) out.
Proof.
  intros R H. unfold sel_rows. rewrite take_head by exact H. cbn [bind]. eexists. split; [reflexivity|]. unfold entries, a_r. cbn [a_rows a_c].
  split; [apply firstn_length|]. split; [reflexivity|]. split.
  - intros x Hx. apply (proj2 R). rewrite <- (firstn_skipn (Z.to_nat k) (a_rows m)). apply in_or_app. now left.
  - intros i j Hi Hj. unfold entry. rewrite nth_firstn by lia. reflexivity.
Qed.
Lemma sel_cols_head m k : rect m -> (0 <= k)%Z -> exists out, sel_cols V m (head k) = Ok out /\
  entries zero (a_r m) (Nat.min (Z.to_nat k) (a_c m)) (entry zero m) out.
Proof.
  intros R H. unfold sel_cols. rewrite take_head by exact H. cbn [bind].
  rewrite (map_res_pure _ (firstn (Z.to_nat k))) by (intros; now apply take_head). cbn [bind]. eexists. split; [reflexivity|]. unfold entries, a_r. cbn [a_rows a_c].
  split; [apply map_length|]. split; [now rewrite firstn_length, seq_length|]. split.
  - intros x Hx. apply in_map_iff in Hx as (y & <- & Hy). rewrite firstn_length, (proj2 R y Hy). reflexivity.
  - intros i j Hi Hj. unfold entry. rewrite (nth_indep _ [] (firstn (Z.to_nat k) [])) by (rewrite map_length; exact Hi).
    rewrite (map_nth (firstn (Z.to_nat k))). rewrite nth_firstn by lia. reflexivity.
Qed.
Lemma sel_cols_from m k : rect m -> (0 <= k)%Z -> exists out, sel_cols V m (from k) = Ok out /\
  entries zero (a_r m) (a_c m - Z.to_nat k) (fun i j => entry zero m i (Z.to_nat k + j)) out.
Proof.
  intros R H. unfold sel_cols. rewrite take_from by exact H. cbn [bind].
  rewrite (map_res_pure _ (skipn (Z.to_nat k))) by (intros; now apply take_from). cbn [bind]. eexists. split; [reflexivity|]. unfold entries, a_r. cbn [a_rows a_c].
  split; [apply map_length|]. split; [now rewrite skipn_length, seq_length|]. split.
  - intros x Hx. apply in_map_iff in Hx as (y & <- & Hy). rewrite skipn_length, (proj2 R y Hy). reflexivity.
  - intros i j Hi Hj. unfold entry. rewrite (nth_indep _ [] (skipn (Z.to_nat k) [])) by (rewrite map_length; exact Hi).
    rewrite (map_nth (skipn (Z.to_nat k))). apply nth_skipn.
Qed.

(* the same entries: the same array *)
Lemma entries_eq r c f a b : entries zero r c f a -> entries zero r c f b -> a = b.
Proof.
  destruct a as [ca ra], b as [cb rb]. unfold entries, a_r. cbn [a_rows a_c]. intros (E1 & E2 & E3 & E4) (F1 & F2 & F3 & F4).
  f_equal; [congruence|]. apply nth_ext with [] []; [congruence|]. intros i Hi.
  assert (Hi' : i < length rb) by congruence. assert (I1 := E3 _ (nth_In ra [] Hi)). assert (I2 := F3 _ (nth_In rb [] Hi')).
  apply nth_ext with zero zero; [congruence|]. intros j Hj. rewrite E4, F4 by congruence. reflexivity.
Qed.

(* ---- cut_modes ---- *)

Lemma cut_positions st nm idx n : (exists e, forall X (l : list X), length l = n -> cut_list l st nm idx = Err e) \/
  exists ps, (forall p, In p ps -> (0 <= p < Z.of_nat n)%Z) /\
    forall X (l : list X) (d : X), length l = n -> cut_list l st nm idx = Ok (map (fun p => nth (Z.to_nat p) l d) ps).
Proof.
  assert (G : forall X (l : list X) (d : X) ps, (forall p, In p ps -> (0 <= p < Z.of_nat (length l))%Z) -> gather l ps = Ok (map (fun p => nth (Z.to_nat p) l d) ps)).
  { intros X l d ps H. unfold gather. apply map_res_pure. intros p Hp. specialize (H p Hp). unfold at_pos.
    rewrite (nth_error_nth' l d) by lia. reflexivity. }
  destruct idx as [is|]; cbn [cut_list].
  - destruct (map_res (index_pos (Z.of_nat n)) is) as [ps|e] eqn:E.
    + right. exists ps. assert (Rg : forall p, In p ps -> (0 <= p < Z.of_nat n)%Z).
      { apply index_list_ok in E; [|lia]. exact (denotes_range _ _ _ E). }
      split; [exact Rg|]. intros X l d <-. unfold take_list, zlen. rewrite E. cbn [bind]. now apply G.
    + left. exists e. intros X l <-. unfold take_list, zlen. rewrite E. reflexivity.
  - destruct (slice_pos (mode_slice st nm n) (Z.of_nat n)) as [ps|e] eqn:E.
    + right. exists ps. assert (Rg := proj2 (slice_pos_ok _ _ _ (Nat2Z.is_nonneg n) E)).
      split; [exact Rg|]. intros X l d <-. unfold take_slice, zlen. rewrite E. cbn [bind]. now apply G.
    + left. exists e. intros X l <-. unfold take_slice, zlen. rewrite E. reflexivity.
Qed.
End P.
