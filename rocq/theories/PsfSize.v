(* The size of the image of a pupil. *)
From Coq Require Import List ZArith Bool Arith QArith Qcanon Qround Lqa Lia.
From Verif Require Import OpticalModel QcTac InterpModel InterpProofs AtmoProofs ScreenModel ScreenProofs Fourier PsfModel.
Local Open Scope Qc_scope.

Lemma qround_half z : qround (qz z + 1 / (1 + 1)) = (if Z.even z then z else z + 1)%Z.
Proof.
  unfold qround. assert (E : qfloor (qz z + 1 / (1 + 1)) = z).
  { apply qfloor_unique; [|]; unfold Qcle, Qclt; rewrite ?this_add, ?this_div; change (this 1 / this (1 + 1))%Q with (1 # 2)%Q; change (this 1) with 1%Q; lra. }
  rewrite E. replace (qz z + 1 / (1 + 1) - qz z) with (1 / (1 + 1)) by ring.
  replace (qlt (1 / (1 + 1)) (1 / (1 + 1))) with false by reflexivity. reflexivity.
Qed.
Lemma out_size_even k q : out_size (qz (Z.of_nat q)) (2 * k) = (2 * k * q)%nat.
Proof.
  unfold out_size. replace (qz (Z.of_nat (2 * k)) * qz (Z.of_nat q) / qz 2) with (qz (Z.of_nat (k * q))); [rewrite qround_qz; lia|].
  apply Qc_iff. rewrite this_div, this_mul. unfold qz. rewrite !this_q. rewrite !Nat2Z.inj_mul, !inject_Z_mult. change (inject_Z (Z.of_nat 2)) with 2%Q. change (inject_Z 2) with 2%Q. field.
Qed.
Lemma out_size_even_nd n q : out_size (qz (2 * Z.of_nat q)) n = (n * (2 * q))%nat.
Proof.
  unfold out_size. replace (qz (Z.of_nat n) * qz (2 * Z.of_nat q) / qz 2) with (qz (Z.of_nat (n * q))); [rewrite qround_qz; lia|].
  apply Qc_iff. rewrite this_div, this_mul. unfold qz. rewrite !this_q. rewrite !Nat2Z.inj_mul, !inject_Z_mult. change (inject_Z 2) with 2%Q. field.
Qed.
Lemma out_size_odd n : out_size 1 (2 * n + 1) = (if Nat.even n then 2 * n else 2 * n + 2)%nat.
Proof.
  unfold out_size. replace (qz (Z.of_nat (2 * n + 1)) * 1 / qz 2) with (qz (Z.of_nat n) + 1 / (1 + 1)).
  - rewrite qround_half. destruct (Nat.even n) eqn:E.
    + replace (Z.even (Z.of_nat n)) with true; [lia|]. symmetry. apply Z.even_spec. apply Nat.even_spec in E. destruct E as [k ->]. exists (Z.of_nat k). lia.
    + replace (Z.even (Z.of_nat n)) with false; [lia|]. symmetry. rewrite <- Z.negb_odd. apply negb_false_iff, Z.odd_spec. rewrite <- Nat.negb_odd in E. apply negb_false_iff, Nat.odd_spec in E. destruct E as [k ->]. exists (Z.of_nat k). lia.
  - apply Qc_iff. rewrite this_add, !this_div, this_mul. unfold qz. rewrite !this_q. rewrite Nat2Z.inj_add, Nat2Z.inj_mul, inject_Z_plus, inject_Z_mult.
    change (this 1 / this (1 + 1))%Q with (1 # 2)%Q. change (inject_Z (Z.of_nat 2)) with 2%Q. change (inject_Z (Z.of_nat 1)) with 1%Q. change (inject_Z 2) with 2%Q. change (this 1) with 1%Q. setoid_replace (1 # 2)%Q with (1 / 2)%Q by reflexivity. field.
Qed.
