(* Proofs about cubes. *)
From Coq Require Import String List ZArith Bool Arith Lia QArith Qcanon.
From Verif Require Import PyBase PyLemmas Arith FilterSpec OpticalModel ExtModel NpModel FitsModel RebinModel RebinProofs CutModel CutSpec CutProofs SlopecModel SlopecSpec SumLemmas QcTac GenModel GenProofs CalibProofs
  FieldModel FieldSpec FieldProofs InterpModel InterpSpec InterpProofs ExtrapModel ExtrapSpec ExtrapProofs CubeModel CubeSpec.
Import ListNotations.
Local Open Scope nat_scope.

(* ------------------------------------------------------------------------------ layout *)
Lemma volume_size s : size_of s = volume s. Proof. induction s as [|n s IH]; cbn; [reflexivity|]. unfold size_of in IH. now rewrite IH. Qed.
Lemma volume_app s T : volume (s ++ [T]) = volume s * T. Proof. induction s as [|n s IH]; cbn [app volume]; [lia|]. rewrite IH. lia. Qed.
Lemma place_lt s i : index_in s i -> place s i < volume s.
Proof. induction 1 as [|n s i r H1 H2 IH]; cbn [place volume]; [lia|]. nia. Qed.
Lemma place_app s i T t : index_in s i -> place (s ++ [T]) (i ++ [t]) = place s i * T + t.
Proof. induction 1 as [|n s k r H1 H2 IH]; cbn [app place volume]; [lia|]. rewrite IH, volume_app. nia. Qed.
Lemma index_app s i T t : index_in s i -> t < T -> index_in (s ++ [T]) (i ++ [t]).
Proof. induction 1; intros H'; cbn [app]; repeat constructor; auto. Qed.
Section L.
Context {V : Type}.
Variable d : V.
Definition at_index (a : nd V) (i : list nat) : V := nth (place (nd_shape a) i) (nd_data a) d.
Definition well_formed (a : nd V) : Prop := length (nd_data a) = volume (nd_shape a).
Lemma moved (a : nd V) s T i t : nd_shape a = s ++ [T] -> index_in s i -> t < T ->
  nd_shape (last_to_first V d a) = T :: s /\ at_index (last_to_first V d a) (t :: i) = at_index a (i ++ [t]).
Proof.
  intros Hs Hi Ht. unfold last_to_first, at_index. cbn [nd_shape nd_data]. rewrite Hs, last_last, removelast_last. split; [reflexivity|]. rewrite volume_size. cbn [place].
  pose proof (place_lt s i Hi) as P. rewrite place_app by assumption. set (K := volume s) in *. set (q := place s i) in *.
  match goal with |- nth ?n (map ?f (seq 0 ?m)) _ = _ => rewrite (nth_indep _ d (f 0)) by (rewrite map_length, seq_length; nia); rewrite (map_nth f (seq 0 m) 0 n) end.
  rewrite seq_nth by nia. cbn [Nat.add]. f_equal.
  replace (t * K + q) with (q + t * K) by lia. rewrite Nat.mod_add, Nat.mod_small, Nat.div_add, Nat.div_small by lia. lia.
Qed.
Lemma moved_formed (a : nd V) : nd_shape a <> [] -> well_formed (last_to_first V d a).
Proof. intros H. unfold well_formed, last_to_first. cbn [nd_data nd_shape volume]. now rewrite map_length, seq_length, volume_size. Qed.
Lemma same_shape_eq a : forall b, same_shape a b = true <-> a = b.
Proof.
  induction a as [|x a IH]; intros [|y b]; cbn; split; try congruence; try discriminate; auto.
  - rewrite andb_true_iff, Nat.eqb_eq, IH. intros [-> ->]. reflexivity.
  - intros E. injection E as -> ->. rewrite Nat.eqb_refl. now apply IH.
Qed.
End L.

(* ------------------------------------------------------------------------------ time *)
Local Open Scope Qc_scope.
Lemma qle_true a b : qle a b = true <-> a <= b.
Proof. unfold qle. rewrite negb_true_iff, qlt_false. reflexivity. Qed.
Lemma qle_false a b : qle a b = false <-> b < a.
Proof. unfold qle. rewrite negb_false_iff, qlt_true. reflexivity. Qed.
Lemma qle_trans x y z : qle x y = true -> qle y z = true -> qle x z = true.
Proof. rewrite !qle_true. apply Qcle_trans. Qed.

Lemma count_times tau now f : increasing tau -> (0 < f)%nat -> (f <= length tau)%nat -> nth (f - 1) tau 0 <= now -> ((f < length tau)%nat -> now < nth f tau 0) ->
  searchsorted_right qle (map (fun u => u - now) tau) 0 = f.
Proof.
  intros Hi Hf Hl H1 H2. unfold searchsorted_right. set (dt := map _ tau). assert (Ld : length dt = length tau) by (unfold dt; apply map_length).
  assert (Nd : forall i x, nth_error dt i = Some x -> (i < length tau)%nat /\ x = nth i tau 0 - now).
  { intros i x E. unfold dt in E. rewrite nth_error_map in E. destruct (nth_error tau i) as [u|] eqn:Eu; [|discriminate E]. cbn in E. injection E as <-. split; [apply nth_error_Some; congruence|]. now rewrite (nth_error_nth tau i 0 Eu). }
  destruct (search_spec Qc qle qle_trans dt 0 (length dt) 0 (length dt)) as (R1 & R2 & R3).
  - lia.
  - lia.
  - lia.
  - intros i x Hx. lia.
  - intros i x Hx E. apply Nd in E as [E _]. lia.
  - intros i j x y Hij Ex Ey. apply Nd in Ex as [Ex ->]. apply Nd in Ey as [Ey ->]. apply qle_true. destruct (Nat.eq_dec i j) as [->|N]; [apply Qcle_refl|]. pose proof (Hi i j ltac:(lia) Ey) as L. qclra.
  - set (r := search qle (length dt) dt 0 0 (length dt)) in *. rewrite Ld in R1.
    assert (Ex : forall i, (i < length tau)%nat -> nth_error dt i = Some (nth i tau 0 - now)).
    { intros i Hi'. unfold dt. rewrite nth_error_map. rewrite (nth_error_nth' tau 0 Hi'). reflexivity. }
    destruct (Nat.lt_trichotomy r f) as [L|[L|L]]; [|exact L|].
    + exfalso. pose proof (R3 (f - 1)%nat _ ltac:(lia) (Ex (f - 1)%nat ltac:(lia))) as Q. apply qle_false in Q. qclra.
    + exfalso. pose proof (R2 f _ L (Ex f ltac:(lia))) as Q. apply qle_true in Q. specialize (H2 ltac:(lia)). qclra.
Qed.

Definition blend_at (p : psc) (now : Qc) (f : nat) (i j : nat) : Qc :=
  let t1 := nth f (pc_times p) 0 in let t0 := nth (f - 1) (pc_times p) 0 in
  pc_factor p / (t1 - t0) * ((t1 - now) * ent qc (nth (f - 1) (pc_screens p) (mkA2 0 [])) i j + (now - t0) * ent qc (nth f (pc_screens p) (mkA2 0 [])) i j).
Lemma cur_at p t f : (length (pc_screens p) = length (pc_times p)) -> increasing (pc_times p) -> (0 < f)%nat -> (f < length (pc_times p))%nat ->
  nth (f - 1) (pc_times p) 0 <= seconds t -> seconds t <= nth f (pc_times p) 0 -> (seconds t < nth f (pc_times p) 0 \/ f = (length (pc_times p) - 1)%nat) ->
  cur_screen p t = Ok (Some (tab qc (a_r (nth (f - 1) (pc_screens p) (mkA2 0 []))) (a_c (nth (f - 1) (pc_screens p) (mkA2 0 []))) (blend_at p (seconds t) f))).
Proof.
  intros Hl Hi Hf Hn H0 H1 H2. unfold cur_screen. destruct (pc_times p) as [|u0 us] eqn:Et; [cbn in Hn; lia|]. rewrite <- Et in *.
  assert (Fa : forallb (fun u => qlt u (seconds t)) (pc_times p) = false).
  { destruct (forallb _ _) eqn:F; [|reflexivity]. rewrite forallb_forall in F. specialize (F _ (nth_In _ 0 Hn)). apply qlt_true in F. exfalso. qclra. }
  rewrite Fa. set (now := seconds t) in *. set (dt := map (fun u => u - now) (pc_times p)).
  assert (Ef : Z.min (Z.of_nat (searchsorted_right qle dt 0)) (zlen (pc_times p) - 1) = Z.of_nat f).
  { unfold dt, zlen. destruct (Qclt_le_dec now (nth f (pc_times p) 0)) as [L|L].
    - rewrite (count_times (pc_times p) now f) by (auto; lia). lia.
    - destruct H2 as [H2|H2]; [exfalso; qclra|]. rewrite (count_times (pc_times p) now (length (pc_times p))); [lia|exact Hi|lia|lia| |lia].
      replace (length (pc_times p) - 1)%nat with f by lia. exact L. }
  rewrite Ef. replace (Z.of_nat f - 1)%Z with (Z.of_nat (f - 1)) by lia.
  rewrite (take1_nat (pc_times p) f 0) by lia. cbn [bind]. rewrite (take1_nat (pc_times p) (f - 1) 0) by lia. cbn [bind].
  assert (Ld : length dt = length (pc_times p)) by (unfold dt; apply map_length). assert (Nd : forall i, (i < length (pc_times p))%nat -> nth i dt 0 = nth i (pc_times p) 0 - now).
  { intros i Hi'. unfold dt. rewrite (nth_indep _ 0 (0 - now)) by (rewrite map_length; exact Hi'). exact (map_nth (fun u => u - now) (pc_times p) 0 i). }
  rewrite (take1_nat dt f 0) by lia. cbn [bind]. rewrite (take1_nat dt (f - 1) 0) by lia. cbn [bind].
  rewrite (take1_nat (pc_screens p) (f - 1) (mkA2 0 [])) by lia. cbn [bind]. rewrite (take1_nat (pc_screens p) f (mkA2 0 [])) by lia. cbn [bind].
  pose proof (Hi (f - 1)%nat f ltac:(lia) Hn) as Hs. replace (is0 _) with false; [|symmetry; apply is0_false; intros Z; qclra]. rewrite !Nd by lia.
  do 2 f_equal. eapply (image_eq (A:=qc)); [apply tab_image|]. eapply (image_ext (A:=qc)); [apply tab_image|]. intros i j _ _. cbn beta. unfold blend_at.
  assert (Ab : (if qlt (nth (f - 1) (pc_times p) 0 - now) 0 then - (nth (f - 1) (pc_times p) 0 - now) else nth (f - 1) (pc_times p) 0 - now) = now - nth (f - 1) (pc_times p) 0).
  { destruct (qlt _ 0) eqn:Q; [qclra|]. apply qlt_false in Q. apply Qc_iff. rewrite !this_sub. change (this 0) with 0%Q in Q. rewrite this_sub in Q. unfold Qcle in H0. Lqa.lra. }
  rewrite Ab. reflexivity.
Qed.
