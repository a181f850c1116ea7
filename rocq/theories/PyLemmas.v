(* Facts about the helpers of PyBase.v. *)
From Coq Require Import String List ZArith Bool Arith Lia.
From Verif Require Import PyBase.
Import ListNotations.
Local Open Scope string_scope.

Lemma bind_ok {A B} (m : res A) (f : A -> res B) b :
  bind m f = Ok b -> exists a, m = Ok a /\ f a = Ok b.
Proof. destruct m; simpl; [eauto|discriminate]. Qed.

Ltac inv_bind H :=
  let a := fresh "a" in let E := fresh "E" in
  apply bind_ok in H; destruct H as (a & E & H).

Lemma map_res_ok {A B} (f : A -> res B) l ys :
  map_res f l = Ok ys -> forall x, In x l -> exists y, f x = Ok y /\ In y ys.
Proof.
  revert ys; induction l as [|a l IH]; simpl; intros ys H x Hx; [tauto|].
  inv_bind H. inv_bind H. injection H as <-.
  destruct Hx as [<-|Hx]; [exists a0; simpl; auto|].
  destruct (IH _ E0 x Hx) as (y & ? & ?); exists y; simpl; auto.
Qed.

Lemma map_res_ok_inv {A B} (f : A -> res B) l ys :
  map_res f l = Ok ys -> forall y, In y ys -> exists x, f x = Ok y /\ In x l.
Proof.
  revert ys; induction l as [|a l IH]; simpl; intros ys H y Hy.
  - injection H as <-. destruct Hy.
  - inv_bind H. inv_bind H. injection H as <-.
    destruct Hy as [<-|Hy]; [exists a; simpl; auto|].
    destruct (IH _ E0 y Hy) as (x & ? & ?); exists x; simpl; auto.
Qed.

Lemma filter_res_ok {A} (p : A -> res bool) l l' :
  filter_res p l = Ok l' -> forall x, In x l' <-> In x l /\ p x = Ok true.
Proof.
  revert l'; induction l as [|a l IH]; simpl; intros l' H x.
  - injection H as <-; simpl; tauto.
  - inv_bind H. inv_bind H. injection H as <-.
    specialize (IH _ E0 x). destruct a0; simpl; rewrite IH.
    + split; [intros [<-|?]; tauto|]. intros [[<-|?] ?]; tauto.
    + split; [tauto|]. intros [[<-|?] ?]; [congruence|tauto].
Qed.

Lemma dget_In {A} k (v : A) d : dget k d = Some v -> In (k, v) d.
Proof.
  induction d as [|[k' v'] d IH]; simpl; [discriminate|].
  destruct (String.eqb_spec k k') as [->|Hne]; intros H; [injection H as ->; auto|auto].
Qed.

Lemma dget_None {A} k (d : dict A) : dget k d = None <-> ~ In k (map fst d).
Proof.
  induction d as [|[k' v'] d IH]; simpl; [tauto|].
  destruct (String.eqb_spec k k') as [->|Hne]; split; intros H; try discriminate; try tauto.
  - intros [->|?]; [congruence|tauto].
Qed.

Lemma In_dget {A} k (v : A) d : NoDup (map fst d) -> In (k, v) d -> dget k d = Some v.
Proof.
  induction d as [|[k' v'] d IH]; simpl; [tauto|].
  intros Hnd [H|H]; inversion Hnd; subst.
  - injection H as -> ->. rewrite String.eqb_refl; auto.
  - destruct (String.eqb_spec k k') as [->|Hne]; auto.
    exfalso; apply H2. change k' with (fst (k', v)). apply in_map; auto.
Qed.

Lemma In_dset {A} k (v : A) d k' v' : NoDup (map fst d) ->
  In (k', v') (dset k v d) <-> (k' = k /\ v' = v) \/ (k' <> k /\ In (k', v') d).
Proof.
  induction d as [|[k1 v1] d IH]; simpl; intros Hnd.
  - split; [intros [H|[]]; injection H as <- <-; auto|]. intros [[-> ->]|[_ []]]; auto.
  - inversion Hnd; subst.
    destruct (String.eqb_spec k k1) as [->|Hne]; simpl.
    + split.
      * intros [H|H]; [injection H as <- <-; auto|].
        right; split; auto. intros ->. apply H1. change k1 with (fst (k1, v')). apply in_map; auto.
      * intros [[-> ->]|[Hk [H|H]]]; auto. injection H as <- <-; congruence.
    + rewrite IH by auto. split.
      * intros [H|[H|H]]; auto; [|tauto]. injection H as <- <-. right; split; auto.
      * intros [H|[Hk [H|H]]]; auto.
Qed.

Lemma keys_dset {A} k (v : A) d : In k (map fst d) -> map fst (dset k v d) = map fst d.
Proof.
  induction d as [|[k1 v1] d IH]; simpl; [tauto|].
  destruct (String.eqb_spec k k1) as [->|Hne]; simpl; auto.
  intros [->|H]; [congruence|]. rewrite IH; auto.
Qed.

Lemma In_ddel {A} k (d : dict A) k' v : In (k', v) (ddel k d) <-> In (k', v) d /\ k' <> k.
Proof.
  unfold ddel. rewrite filter_In; simpl. rewrite negb_true_iff, String.eqb_neq.
  intuition congruence.
Qed.

Lemma keys_ddel {A} k (d : dict A) k' : In k' (map fst (ddel k d)) <-> In k' (map fst d) /\ k' <> k.
Proof.
  rewrite !in_map_iff. split.
  - intros ([a b] & <- & H); apply In_ddel in H as [H ?]; simpl; split; auto. exists (a, b); auto.
  - intros (([a b] & <- & H) & Hne). exists (a, b); split; auto. apply In_ddel; auto.
Qed.

Lemma NoDup_ddel {A} k (d : dict A) : NoDup (map fst d) -> NoDup (map fst (ddel k d)).
Proof.
  induction d as [|[a b] d IH]; simpl; auto.
  intros H; inversion H; subst. destruct (String.eqb_spec k a) as [->|Hne]; simpl; auto.
  constructor; auto. rewrite keys_ddel; tauto.
Qed.

Lemma length_ddel_le {A} k (d : dict A) : length (ddel k d) <= length d.
Proof.
  unfold ddel. induction d as [|a d IH]; simpl; auto.
  destruct (negb (k =? fst a)); simpl; lia.
Qed.

Lemma length_ddel {A} k (d : dict A) : In k (map fst d) -> length (ddel k d) < length d.
Proof.
  unfold ddel. induction d as [|[a b] d IH]; simpl; [tauto|].
  destruct (String.eqb_spec k a) as [->|Hne]; simpl.
  - intros _. pose proof (length_ddel_le a d) as H; unfold ddel in H; lia.
  - intros [->|H]; [congruence|]. apply IH in H; lia.
Qed.


Lemma NoDup_app_r {A} (l1 l2 : list A) : NoDup (l1 ++ l2) -> NoDup l2.
Proof. induction l1; simpl; auto. intros H; inversion H; auto. Qed.
Lemma NoDup_app_l {A} (l1 l2 : list A) : NoDup (l1 ++ l2) -> NoDup l1.
Proof.
  induction l1; simpl; intros H; constructor; inversion H; subst; auto.
  intros Hi; apply H2, in_app_iff; auto.
Qed.
