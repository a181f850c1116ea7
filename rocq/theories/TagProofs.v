From Coq Require Import String List Ascii ZArith Bool Lia.
From Verif Require Import PyBase PyLemmas NamesModel TagModel.
Import ListNotations.

Lemma append_cancel_char c a : forall a' b b',
  has_char c a = false -> has_char c a' = false ->
  (a ++ String c b = a' ++ String c b')%string -> a = a' /\ b = b'.
Proof.
  induction a as [|x a IH]; intros [|x' a'] b b' H H' E; cbn in *.
  - injection E as ->. auto.
  - injection E as -> _. now rewrite Ascii.eqb_refl in H'.
  - injection E as -> _. now rewrite Ascii.eqb_refl in H.
  - injection E as -> E. apply orb_false_iff in H as [_ H]. apply orb_false_iff in H' as [_ H'].
    destruct (IH a' b b' H H' E) as [-> ->]. auto.
Qed.

Definition no_percent (s : string) : Prop := has_char "%" s = false.
Definition plain_key (o : option string) : Prop :=
  match o with Some k => no_percent k /\ k <> "None"%string | None => True end.

Lemma tag_string_inj s d o i s' d' o' i' :
  no_percent s -> no_percent d -> plain_key o -> no_percent s' -> no_percent d' -> plain_key o' ->
  tag_string s d o i = tag_string s' d' o' i' -> s = s' /\ d = d' /\ o = o' /\ i = i'.
Proof.
  unfold tag_string. intros Hs Hd Ho Hs' Hd' Ho' E.
  apply append_cancel_char in E as [-> E]; auto.
  apply append_cancel_char in E as [-> E]; auto.
  assert (Np : forall q, plain_key q -> has_char "%" (str_opt q) = false) by (intros [q|] H; [apply H|reflexivity]).
  apply append_cancel_char in E as [E ->]; [|now apply Np..].
  split; [reflexivity|]. split; [reflexivity|]. split; [|reflexivity].
  destruct o as [k|], o' as [k'|]; cbn in *; try congruence.
  - elim (proj2 Ho E).
  - elim (proj2 Ho' (eq_sym E)).
Qed.

Lemma duplicate (l : list Z) : NoDup l \/ exists a l1 l2 l3, l = l1 ++ a :: l2 ++ a :: l3.
Proof.
  induction l as [|x l [IH|(a & l1 & l2 & l3 & ->)]].
  - left. constructor.
  - destruct (in_dec Z.eq_dec x l) as [H|H]; [|left; now constructor].
    right. apply in_split in H as (u & v & ->). now exists x, [], u, v.
  - right. now exists a, (x :: l1), l2, l3.
Qed.

Lemma pigeonhole (f : nat -> Z) (M : Z) : (0 < M)%Z -> (forall n, (0 <= f n < M)%Z) ->
  exists i j, (i < j)%nat /\ (j <= Z.to_nat M)%nat /\ f i = f j.
Proof.
  intros HM Hf. set (N := Z.to_nat M). set (l := map f (seq 0 (S N))).
  destruct (duplicate l) as [ND|(a & l1 & l2 & l3 & E)].
  - exfalso. assert (I : incl l (map Z.of_nat (seq 0 N))).
    { intros z Hz. apply in_map_iff in Hz as (n & <- & _). specialize (Hf n).
      apply in_map_iff. exists (Z.to_nat (f n)). split; [lia|]. apply in_seq. lia. }
    apply (NoDup_incl_length ND) in I. unfold l in I. rewrite !map_length, !seq_length in I. lia.
  - assert (L : length l = S N) by (unfold l; now rewrite map_length, seq_length).
    assert (G : forall n z, nth_error l n = Some z -> z = f n /\ (n < S N)%nat).
    { intros n z H. assert (Hn : (n < S N)%nat) by (rewrite <- L; apply nth_error_Some; congruence).
      split; [|exact Hn]. unfold l in H. rewrite nth_error_map in H.
      rewrite (nth_error_nth' _ 0%nat) in H by (now rewrite seq_length).
      rewrite seq_nth in H by exact Hn. cbn in H. congruence. }
    exists (length l1), (length l1 + S (length l2))%nat.
    assert (E1 : nth_error l (length l1) = Some a).
    { rewrite E, nth_error_app2, Nat.sub_diag by lia. reflexivity. }
    assert (E2 : nth_error l (length l1 + S (length l2)) = Some a).
    { rewrite E, nth_error_app2 by lia. replace (_ - _)%nat with (S (length l2)) by lia.
      cbn. rewrite nth_error_app2, Nat.sub_diag by lia. reflexivity. }
    apply G in E1 as [E1 _]. apply G in E2 as [E2 H2]. split; [lia|]. split; [lia|congruence].
Qed.

(* names "o", "oa", "oaa", ... *)
Fixpoint as_ (n : nat) : string := match n with O => EmptyString | S n => String "a" (as_ n) end.
Definition name (n : nat) : string := String "o" (as_ n).
Lemma as_inj n : forall m, as_ n = as_ m -> n = m.
Proof. induction n as [|n IH]; intros [|m] H; try easy. injection H as H. f_equal. auto. Qed.
Lemma name_no_percent n : no_percent (name n).
Proof. unfold no_percent, name. cbn. induction n; [reflexivity|exact IHn]. Qed.
