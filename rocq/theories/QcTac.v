(* Linear arithmetic on the canonical rationals. *)
From Coq Require Import List QArith Qcanon Bool Lqa Lia.
From Verif Require Import Arith OpticalModel ExtModel.
Import ListNotations.

Lemma Qc_iff (a b : Qc) : a = b <-> (this a == this b)%Q.
Proof. split; [intros ->; reflexivity | apply Qc_is_canon]. Qed.
Lemma this_add a b : (this (a + b)%Qc == this a + this b)%Q. Proof. apply Qred_correct. Qed.
Lemma this_mul a b : (this (a * b)%Qc == this a * this b)%Q. Proof. apply Qred_correct. Qed.
Lemma this_opp a : (this (- a)%Qc == - this a)%Q. Proof. apply Qred_correct. Qed.
Lemma this_sub a b : (this (a - b)%Qc == this a - this b)%Q.
Proof. unfold Qcminus. rewrite this_add, this_opp. reflexivity. Qed.
Lemma this_inv a : (this (/ a)%Qc == / this a)%Q. Proof. apply Qred_correct. Qed.
Lemma this_div a b : (this (a / b)%Qc == this a / this b)%Q.
Proof. unfold Qcdiv. rewrite this_mul, this_inv. reflexivity. Qed.
Lemma this_q q : (this (Q2Qc q) == q)%Q. Proof. apply Qred_correct. Qed.

Lemma qlt_true a b : qlt a b = true <-> (this a < this b)%Q.
Proof. unfold qlt. destruct (Qclt_le_dec a b) as [H|H]; unfold Qclt, Qcle in H; split; intros; auto; try discriminate; exfalso; lra. Qed.
Lemma qlt_false a b : qlt a b = false <-> (this b <= this a)%Q.
Proof. unfold qlt. destruct (Qclt_le_dec a b) as [H|H]; unfold Qclt, Qcle in H; split; intros; auto; try discriminate; exfalso; lra. Qed.
Lemma is0_true a : is0 a = true <-> a = 0%Qc.
Proof. unfold is0. destruct (Qc_eq_dec a 0%Qc); split; intros; auto; try discriminate; contradiction. Qed.
Lemma is0_false a : is0 a = false <-> a <> 0%Qc.
Proof. unfold is0. destruct (Qc_eq_dec a 0%Qc); split; intros; auto; try discriminate; contradiction. Qed.

Lemma Qc_neq (a b : Qc) : a <> b <-> ~ (this a == this b)%Q.
Proof. rewrite Qc_iff. tauto. Qed.

Ltac qc_prep :=
  cbn [add mul sub opp dvd inv zer one car qc] in *;
  repeat match goal with
  | H : context [qlt _ _ = true] |- _ => rewrite qlt_true in H
  | H : context [qlt _ _ = false] |- _ => rewrite qlt_false in H
  | H : @eq Qc _ _ |- _ => apply Qc_iff in H
  | H : @eq (car qc) _ _ |- _ => apply Qc_iff in H
  | H : Qclt _ _ |- _ => unfold Qclt in H
  | H : Qcle _ _ |- _ => unfold Qcle in H
  | H : context [is0 _ = true] |- _ => rewrite is0_true in H
  | |- qlt _ _ = true => apply qlt_true
  | |- qlt _ _ = false => apply qlt_false
  | |- @eq Qc _ _ => apply Qc_iff
  | |- @eq (car qc) _ _ => apply Qc_iff
  | |- Qclt _ _ => unfold Qclt
  | |- Qcle _ _ => unfold Qcle
  end;
  repeat (progress rewrite ?this_add, ?this_sub, ?this_mul, ?this_opp, ?this_q in * ).
Ltac qclra := intros; qc_prep; lra.
(* equations whose type is written as the carrier of [qc] *)
Ltac qceq := match goal with |- ?a = ?b => change (@eq Qc a b) end; cbn [add mul sub opp dvd inv zer one qc].
