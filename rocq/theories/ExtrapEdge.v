(* The value given to one pixel beside the pupil. *)
From Coq Require Import List ZArith Bool Arith Lia QArith Qcanon.
From Verif Require Import PyBase PyLemmas Arith FilterSpec OpticalModel ExtModel NpModel FitsModel RebinModel RebinProofs CutModel CutSpec CutProofs VecModel SlopecModel SlopecSpec SumLemmas QcTac
  FieldModel FieldSpec FieldProofs InterpModel InterpSpec InterpProofs ExtrapModel ExtrapSpec.
Import ListNotations.
Local Open Scope Qc_scope.

Definition pupil_of (thr : Qc) (a : arr2 Qc) (p : Z * Z) : bool := lit thr a (fst p) (snd p).
Definition value_of (a : arr2 Qc) (p : Z * Z) : Qc := ent qc a (Z.to_nat (fst p)) (Z.to_nat (snd p)).

Lemma nz2 : is0 (qz 2) = false. Proof. reflexivity. Qed.
Lemma nz1 : is0 (qz 1) = false. Proof. reflexivity. Qed.
Lemma nzm : is0 (qz (-1)) = false. Proof. reflexivity. Qed.
Lemma nz0 : is0 (qz 0) = true. Proof. reflexivity. Qed.
Lemma qz_2 : qz 2 = 1 + 1. Proof. apply Qc_is_canon. reflexivity. Qed.
Lemma qz_1 : qz 1 = 1. Proof. apply Qc_is_canon. reflexivity. Qed.
Lemma qz_m : qz (-1) = - (1). Proof. apply Qc_is_canon. reflexivity. Qed.
Lemma qz_0 : qz 0 = 0. Proof. apply Qc_is_canon. reflexivity. Qed.
Lemma qn_1 : qnat 1 = 1. Proof. apply Qc_is_canon. reflexivity. Qed.
Lemma qn_2 : qnat 2 = 1 + 1. Proof. apply Qc_is_canon. reflexivity. Qed.
Lemma qn_3 : qnat 3 = 1 + 1 + 1. Proof. apply Qc_is_canon. reflexivity. Qed.
Lemma qn_4 : qnat 4 = 1 + 1 + 1 + 1. Proof. apply Qc_is_canon. reflexivity. Qed.

Lemma steps thr a y x (P := pupil_of thr a) :
  lit thr a (y + 1) (x + 0) = P (step Down 1 (y, x)) /\ lit thr a (y + 2 * 1) (x + 2 * 0) = P (step Down 2 (y, x)) /\
  lit thr a (y + -1) (x + 0) = P (step Up 1 (y, x)) /\ lit thr a (y + 2 * -1) (x + 2 * 0) = P (step Up 2 (y, x)) /\
  lit thr a (y + 0) (x + 1) = P (step Right 1 (y, x)) /\ lit thr a (y + 2 * 0) (x + 2 * 1) = P (step Right 2 (y, x)) /\
  lit thr a (y + 0) (x + -1) = P (step Left 1 (y, x)) /\ lit thr a (y + 2 * 0) (x + 2 * -1) = P (step Left 2 (y, x)).
Proof. unfold P, pupil_of. cbn [step fst snd]. repeat split; f_equal; lia. Qed.
Definition spot (w : way) (k : Z) (y x : Z) : option (nat * nat) := let p := step w k (y, x) in ref (fst p) (snd p).
Lemma spots y x :
  ref (y + 1) (x + 0) = spot Down 1 y x /\ ref (y + 2 * 1) (x + 2 * 0) = spot Down 2 y x /\
  ref (y + -1) (x + 0) = spot Up 1 y x /\ ref (y + 2 * -1) (x + 2 * 0) = spot Up 2 y x /\
  ref (y + 0) (x + 1) = spot Right 1 y x /\ ref (y + 2 * 0) (x + 2 * 1) = spot Right 2 y x /\
  ref (y + 0) (x + -1) = spot Left 1 y x /\ ref (y + 2 * 0) (x + 2 * -1) = spot Left 2 y x.
Proof. unfold spot, ref. cbn [step fst snd]. repeat split; do 2 f_equal; lia. Qed.
Definition seen_way (b1 b2 : bool) (s1 s2 : option (nat * nat)) (st : nat * list (slot * slot)) : nat * list (slot * slot) :=
  let '(n, s) := st in
  if b1 then if b2 then (S n, s ++ [((s1, Some (qz 2)), (s2, Some (qz (-1))))])
    else if Nat.eqb n 0 then (S n, s ++ [((s1, Some (qz 1)), (None, None))])
    else (n, s ++ [((s1, Some (qz 0)), (None, Some (qz 0)))])
  else (n, s ++ [((None, Some (qz 0)), (None, Some (qz 0)))]).
Definition dir_of (w : way) : Z * Z := match w with Down => (1, 0) | Up => (-1, 0) | Right => (0, 1) | Left => (0, -1) end%Z.
Lemma look_way thr a y x st w : look thr a y x st (dir_of w) =
  seen_way (pupil_of thr a (step w 1 (y, x))) (pupil_of thr a (step w 2 (y, x))) (spot w 1 y x) (spot w 2 y x) st.
Proof.
  destruct st as [n s]. unfold look, seen_way. destruct (steps thr a y x) as (A1 & A2 & A3 & A4 & A5 & A6 & A7 & A8). destruct (spots y x) as (B1 & B2 & B3 & B4 & B5 & B6 & B7 & B8).
  destruct w; cbn [dir_of fst snd]; rewrite ?A1, ?A2, ?A3, ?A4, ?A5, ?A6, ?A7, ?A8, ?B1, ?B2, ?B3, ?B4, ?B5, ?B6, ?B7, ?B8; reflexivity.
Qed.
Lemma worth_spot data w k y x c : worth data (spot w k y x, Some c) = c * value_of data (step w k (y, x)).
Proof. reflexivity. Qed.
Lemma worth_none data c : worth data (None, c) = 0. Proof. reflexivity. Qed.

Lemma edge_value thr a ph y x : existsb (next_to (pupil_of thr a) (y, x)) ways = true ->
  row_value ph (edge_row thr a y x) = average (guesses (pupil_of thr a) (value_of ph) (y, x)).
Proof.
  unfold edge_row, guesses, shallow_first, first_way. change directions with (map dir_of ways). unfold ways. cbn [map fold_left]. rewrite !look_way.
  unfold next_to, two_deep. cbn [existsb find filter].
  set (P := pupil_of thr a). set (V := value_of ph).
  destruct (P (step Down 1 (y, x))) eqn:D1, (P (step Down 2 (y, x))) eqn:D2, (P (step Up 1 (y, x))) eqn:U1, (P (step Up 2 (y, x))) eqn:U2, (P (step Right 1 (y, x))) eqn:R1, (P (step Right 2 (y, x))) eqn:R2, (P (step Left 1 (y, x))) eqn:L1, (P (step Left 2 (y, x))) eqn:L2;
    cbn [orb andb]; intros E; try discriminate E; clear E;
    cbn [seen_way Nat.eqb Nat.ltb Nat.leb app map rescale nonzero fst snd times option_map negb find];
    unfold rescale, nonzero, times; cbn [fst snd option_map]; rewrite ?nz2, ?nz1, ?nzm, ?nz0; cbn [negb fst snd option_map];
    unfold row_value; cbn [fold_left fst snd]; rewrite ?worth_spot, ?worth_none; fold V;
    rewrite ?D1, ?D2, ?U1, ?U2, ?R1, ?R2, ?L1, ?L2; cbn [andb app];
    unfold average, total, line; cbn [fold_right length]; rewrite ?qz_2, ?qz_1, ?qz_m, ?qz_0; change qn with qnat; rewrite ?qn_1, ?qn_2, ?qn_3, ?qn_4; field; discriminate.
Qed.
