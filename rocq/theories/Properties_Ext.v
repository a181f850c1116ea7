(* C73 (numbers): the rules of infinities and NaN used by the slope computers. *)
From Coq Require Import List QArith Qcanon Bool Lqa.
From Verif Require Import Arith OpticalModel ExtModel QcTac.
Import ListNotations.

Lemma is_neg_inv q : q <> 0%Qc -> is_neg (1 / q)%Qc = is_neg q.
Proof.
  intros N. unfold is_neg. apply eq_true_iff_eq. rewrite !qlt_true. rewrite this_div. change (this 0%Qc) with 0%Q. change (this 1%Qc) with 1%Q. unfold Qdiv. rewrite Qmult_1_l.
  assert (Z : ~ (this q == 0)%Q) by (intros Z; apply N, Qc_iff; exact Z). split; intros H.
  - destruct (Qlt_le_dec (this q) 0) as [L|L]; [exact L|]. exfalso. assert (P : (0 < this q)%Q) by lra. apply Qinv_lt_0_compat in P. lra.
  - assert (P : (0 < - this q)%Q) by lra. apply Qinv_lt_0_compat in P. assert (E : (/ - this q == - / this q)%Q) by (field; exact Z). lra.
Qed.
Lemma inv_not_0 q : q <> 0%Qc -> is0 (1 / q)%Qc = false.
Proof. intros N. apply is0_false. intros H. assert (E : (q * (1 / q))%Qc = 1%Qc) by (field; exact N). rewrite H, Qcmult_0_r in E. exact (Q_apart_0_1 (eq_sym E)). Qed.

(* one is neutral, the inverse is one divided by the number, dividing is multiplying by the inverse, subtracting is
   adding the opposite *)
Theorem C73_numbers (x y : extar) :
  mul one x = x /\ inv x = dvd one x /\ dvd x y = mul x (dvd one y) /\ sub x y = add x (opp y) /\
  add zer x = x /\ add x y = add y x /\ mul x y = mul y x /\ opp (opp x) = x /\ opp x = mul (opp one) x.
Proof.
  cbn [extar mul one inv dvd sub add opp zer car].
  split. { destruct x as [a|n|]; cbn; try reflexivity; [f_equal; ring|]. now rewrite xorb_false_r. }
  split; [reflexivity|].
  split. { destruct x as [a|n|], y as [b|m|]; cbn [ediv emul]; try reflexivity.
    - destruct (is0 b) eqn:B.
      + cbn. destruct (is0 a); [reflexivity|]. now destruct (is_neg a).
      + apply is0_false in B. f_equal. field. exact B.
    - f_equal. ring.
    - destruct (is0 b) eqn:B.
      + apply is0_true in B. subst b. reflexivity.
      + apply is0_false in B. cbn [emul]. now rewrite inv_not_0, is_neg_inv. }
  split. { destruct x as [a|n|], y as [b|m|]; reflexivity. }
  split. { destruct x as [a|n|]; cbn; try reflexivity. f_equal. ring. }
  split. { destruct x as [a|n|], y as [b|m|]; cbn; try reflexivity; [f_equal; ring|]. destruct n, m; reflexivity. }
  split. { destruct x as [a|n|], y as [b|m|]; cbn; try reflexivity; [f_equal; ring|]. f_equal. apply xorb_comm. }
  split. { destruct x as [a|n|]; cbn; try reflexivity; [f_equal; ring|now rewrite negb_involutive]. }
  destruct x as [a|n|]; cbn; try reflexivity; f_equal; ring.
Qed.
(* the order: minus infinity, the numbers, infinity; NaN is not comparable *)
Theorem C73_order :
  (forall a b, eltb (Fin a) (Fin b) = true <-> (a < b)%Qc) /\
  (forall a, eltb (Inf true) (Fin a) = true /\ eltb (Fin a) (Inf false) = true) /\ eltb (Inf true) (Inf false) = true /\
  (forall x y z, eltb x y = true -> eltb y z = true -> eltb x z = true) /\ (forall x, eltb x x = false) /\
  (forall x y, x <> NaN -> y <> NaN -> eltb x y = false -> eltb y x = false -> x = y) /\
  (forall x, eltb x NaN = false /\ eltb NaN x = false) /\
  (forall x y, eltb (eopp y) (eopp x) = eltb x y).
Proof.
  split; [intros a b; cbn; rewrite qlt_true; reflexivity|]. split; [intros a; split; reflexivity|]. split; [reflexivity|].
  split. { intros [a|[]|] [b|[]|] [c|[]|]; cbn; try congruence. rewrite !qlt_true. intros; lra. }
  split. { intros [a|[]|]; cbn; try reflexivity. apply qlt_false. lra. }
  split. { intros [a|[]|] [b|[]|] X Y; cbn; try congruence. rewrite !qlt_false. intros H1 H2. f_equal. apply Qc_iff. lra. }
  split. { intros [a|[]|]; split; reflexivity. }
  intros [a|[]|] [b|[]|]; cbn; try reflexivity. apply eq_true_iff_eq. rewrite !qlt_true, !this_opp. split; intros; lra.
Qed.
Print Assumptions C73_numbers.
Print Assumptions C73_order.

Example C73_numbers_example : let h := Fin (Q2Qc (1 # 2)) in
  (ediv h (Fin 0%Qc), ediv (eopp h) (Fin 0%Qc), ediv (Fin 0%Qc) (Fin 0%Qc), emul (Inf false) (eopp h), esub (Inf true) (Inf true), emul (Fin 0%Qc) (Inf true)) =
  (Inf false, Inf true, NaN, Inf true, NaN, NaN).
Proof. vm_compute. reflexivity. Qed.
