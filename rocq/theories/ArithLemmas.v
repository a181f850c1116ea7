From Coq Require Import List Field_theory Ring_theory Lia PeanoNat Field.
From Verif Require Import Arith.
Import ListNotations.
Local Open Scope ar_scope.

Lemma map2_length {A B C} (f : A -> B -> C) l1 l2 : length (map2 f l1 l2) = Nat.min (length l1) (length l2).
Proof. revert l2; induction l1; intros [|]; simpl; auto. Qed.

Lemma map2_map {A B C D} (f : A -> B -> C) (g : D -> A) (h : D -> B) l :
  map2 f (map g l) (map h l) = map (fun x => f (g x) (h x)) l.
Proof. induction l; simpl; f_equal; auto. Qed.

Lemma map2_nth {A B C} (f : A -> B -> C) l1 l2 i a b c :
  (i < length l1)%nat -> (i < length l2)%nat -> nth i (map2 f l1 l2) c = f (nth i l1 a) (nth i l2 b).
Proof. revert l2 i; induction l1; intros [|] [|i]; simpl; intros; try lia; auto. apply IHl1; lia. Qed.

Lemma map_seq_nth {A} (l : list A) d : l = map (fun i => nth i l d) (seq 0 (length l)).
Proof.
  induction l as [|a l IH]; simpl; auto. f_equal. rewrite <- seq_shift, map_map. auto.
Qed.

Lemma map_seq_nth' {A} (l : list A) d n : length l = n -> l = map (fun i => nth i l d) (seq 0 n).
Proof. intros <-. apply map_seq_nth. Qed.

Lemma nth_map_seq {A} (f : nat -> A) n i d : (i < n)%nat -> nth i (map f (seq 0 n)) d = f i.
Proof.
  intros H. rewrite nth_indep with (d' := f 0%nat) by (rewrite map_length, seq_length; auto).
  rewrite map_nth, seq_nth; auto.
Qed.

Lemma repeat_map_seq {A} (x : A) n : repeat x n = map (fun _ => x) (seq 0 n).
Proof. induction n; simpl; auto. f_equal. rewrite <- seq_shift, map_map. auto. Qed.

Lemma nth_repeat_same {A} (x : A) n i : nth i (repeat x n) x = x.
Proof. revert i; induction n; intros [|i]; simpl; auto. Qed.

Lemma Forall2_len {A B} (R : A -> B -> Prop) l1 l2 : Forall2 R l1 l2 -> length l1 = length l2.
Proof. induction 1; simpl; auto. Qed.

Lemma Forall2_nth {A B} (R : A -> B -> Prop) l1 l2 a b : Forall2 R l1 l2 ->
  forall i, (i < length l1)%nat -> R (nth i l1 a) (nth i l2 b).
Proof. induction 1; intros [|i]; simpl; intros; try lia; auto. apply IHForall2. lia. Qed.

Lemma tl_map {A B} (f : A -> B) l : tl (map f l) = map f (tl l).
Proof. destruct l; auto. Qed.

Lemma removelast_map {A B} (f : A -> B) l : removelast (map f l) = map f (removelast l).
Proof. induction l as [|a l IH]; auto. destruct l; auto. simpl in *. f_equal; auto. Qed.

Lemma removelast_snoc {A} (l : list A) x : removelast (l ++ [x]) = l.
Proof. rewrite removelast_app by discriminate. simpl. apply app_nil_r. Qed.

Section W.
Variable A : arith.

(* the [n] latest elements of a history given latest first, padded with zeros *)
Definition win (n : nat) (h : list A) : list A := map (fun j => nth j h 0) (seq 0 n).

Lemma win_length n h : length (win n h) = n.
Proof. unfold win. rewrite map_length, seq_length; auto. Qed.

Lemma win_nil n : win n [] = zeros n.
Proof. unfold win, zeros. rewrite repeat_map_seq. apply map_ext. intros [|]; auto. Qed.

Lemma win_S n h : win (S n) h = win n h ++ [nth n h 0].
Proof. unfold win. rewrite seq_S, map_app. auto. Qed.

Lemma win_cons n x h : win (S n) (x :: h) = x :: win n h.
Proof. unfold win. simpl. f_equal. rewrite <- seq_shift, map_map. auto. Qed.

Lemma win_shift n x h : win (S n) (x :: h) = x :: removelast (win (S n) h).
Proof. rewrite win_cons, win_S, removelast_snoc. auto. Qed.

Lemma win_nth n h j : (j < n)%nat -> nth j (win n h) 0 = nth j h 0.
Proof. intros. unfold win. rewrite nth_map_seq; auto. Qed.
End W.
Arguments win {A}.
