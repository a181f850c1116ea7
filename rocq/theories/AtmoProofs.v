From Coq Require Import List ZArith Bool Arith QArith Qcanon Qround Lqa Lia.
From Verif Require Import PyBase PyLemmas Arith FilterSpec OpticalModel ExtModel NpModel FitsModel RebinModel RebinProofs CutModel CutSpec CutProofs VecModel SlopecModel SlopecSpec SumLemmas QcTac
  FieldModel FieldSpec FieldProofs InterpModel InterpSpec InterpProofs PropModel AtmoModel AtmoSpec.
Import ListNotations.
Local Open Scope Qc_scope.

Lemma qfloor_unique x z : qz z <= x -> x < qz z + 1 -> qfloor x = z.
Proof.
  intros H1 H2. destruct (floor_bounds x) as [F1 F2]. unfold Qcle, Qclt in *. rewrite this_add, !this_qz in *.
  assert (A : (inject_Z z < inject_Z (qfloor x) + 1)%Q) by lra. assert (B : (inject_Z (qfloor x) < inject_Z z + 1)%Q) by (change (this 1) with 1%Q in H2; lra).
  change 1%Q with (inject_Z 1) in A, B. rewrite <- inject_Z_plus, <- Zlt_Qlt in A, B. lia.
Qed.
Lemma qz_add a b : qz (a + b) = qz a + qz b.
Proof. apply Qc_iff. rewrite this_add, !this_qz, inject_Z_plus. reflexivity. Qed.
Lemma qz_sub a b : qz (a - b) = qz a - qz b.
Proof. apply Qc_iff. rewrite this_sub, !this_qz. unfold Z.sub. rewrite inject_Z_plus, inject_Z_opp. reflexivity. Qed.
Lemma qz_le a b : (a <= b)%Z <-> qz a <= qz b.
Proof. unfold Qcle. rewrite !this_qz, <- Zle_Qle. reflexivity. Qed.
Lemma qz_lt a b : (a < b)%Z <-> qz a < qz b.
Proof. unfold Qclt. rewrite !this_qz, <- Zlt_Qlt. reflexivity. Qed.

(* the broken line inside a cell *)
Lemma along_cell c f k x : (S k < c)%nat -> qnat k <= x -> x < qnat k + 1 -> along c f x = (1 - (x - qnat k)) * f k + (x - qnat k) * f (S k).
Proof.
  intros Hk H1 H2. unfold along. assert (W : within c x).
  { split; [assert (0 <= qnat k) by (change 0 with (qnat 0); apply qnat_le; lia); qclra|]. assert (Q := qnat_le (S k) (c - 1) ltac:(lia)). rewrite qnat_S in Q. qclra. }
  rewrite (linear_tents c x f ltac:(lia) W). assert (E : cell c x = k).
  { unfold cell. rewrite (qfloor_unique x (Z.of_nat k) H1 H2). lia. }
  rewrite E. qceq. ring.
Qed.

Lemma bin2_image f r c u v a b : image (A:=qc) r c u a -> image (A:=qc) r c v b -> bin2 f a b = Ok (tab qc r c (fun i j => f (u i j) (v i j))).
Proof.
  intros Ia Ib. unfold bin2. destruct a as [ca ra], b as [cb rb]. pose proof (image_r (A:=qc) _ _ _ _ Ia) as R1. pose proof (image_r (A:=qc) _ _ _ _ Ib) as R2.
  pose proof (image_c (A:=qc) _ _ _ _ Ia) as C1. pose proof (image_c (A:=qc) _ _ _ _ Ib) as C2. cbn [a_c] in *. subst ca cb.
  assert (D : forall k, (if Nat.eqb k 1 then Ok k else if Nat.eqb k k || Nat.eqb k 1 then Ok k else Err ValueError) = Ok k).
  { intros k. destruct (Nat.eqb k 1); [reflexivity|]. now rewrite Nat.eqb_refl. }
  change (@a_r (car qc)) with (@a_r Qc) in *. rewrite R1, R2, !D. cbn [bind]. f_equal. unfold tab. f_equal. apply map_ext_in. intros i Hi. apply in_seq in Hi.
  apply map_ext_in. intros j Hj. apply in_seq in Hj. rewrite !src_id by lia. f_equal; [exact (image_ent (A:=qc) r c u _ i j Ia ltac:(lia) ltac:(lia))|exact (image_ent (A:=qc) r c v _ i j Ib ltac:(lia) ltac:(lia))].
Qed.

Lemma floor_room eff L C : 0 <= eff -> eff + qnat L < qnat C -> exists k, qfloor eff = Z.of_nat k /\ qnat k <= eff /\ eff < qnat k + 1 /\ (k + L < C)%nat.
Proof.
  intros H0 H1. pose proof (floor_nonneg eff H0) as F. exists (Z.to_nat (qfloor eff)). rewrite Z2Nat.id by exact F. destruct (floor_bounds eff) as [B1 B2].
  assert (E : this (qnat (Z.to_nat (qfloor eff))) == inject_Z (qfloor eff)) by (rewrite this_nat, Z2Nat.id by exact F; reflexivity).
  split; [reflexivity|]. split; [unfold Qcle; rewrite E; exact B1|]. split; [unfold Qclt; rewrite this_add, E; exact B2|].
  unfold Qclt in H1. rewrite this_add, !this_nat in H1. assert (X : (inject_Z (qfloor eff) + inject_Z (Z.of_nat L) < inject_Z (Z.of_nat C))%Q) by lra.
  rewrite <- inject_Z_plus, <- Zlt_Qlt in X. lia.
Qed.

Lemma window_image R C f p L eff : image (A:=qc) R C f p -> (L <= R)%nat -> 0 <= eff -> eff + qnat L < qnat C ->
  exists a, window L p eff = Ok a /\ image (A:=qc) L L (fun i j => along C (f i) (eff + qnat j)) a.
Proof.
  intros Ip HL H0 H1. destruct (floor_room eff L C H0 H1) as (k & Ek & K1 & K2 & K3). unfold window. rewrite Ek.
  pose proof (sub2_image (A:=qc) R C f p 0 L k L Ip ltac:(lia) ltac:(lia)) as S1. pose proof (sub2_image (A:=qc) R C f p 0 L (S k) L Ip ltac:(lia) ltac:(lia)) as S2.
  cbn [Z.of_nat Nat.add] in S1. rewrite Z.add_0_l in S1. rewrite S1. cbn [bind].
  replace (Z.of_nat k + 1)%Z with (Z.of_nat (S k)) by lia. replace (Z.of_nat k + Z.of_nat L + 1)%Z with (Z.of_nat (S k) + Z.of_nat L)%Z by lia.
  cbn [Nat.add] in S2. change (Z.of_nat 0) with 0%Z in S2. rewrite Z.add_0_l in S2. rewrite S2. cbn [bind].
  pose proof (each_image (A:=qc) (fun x => (1 - (eff - qz (Z.of_nat k))) * x) _ _ _ _ (tab_image (A:=qc) L L (fun i j => f i (k + j)%nat))) as I1.
  pose proof (each_image (A:=qc) (fun x => (eff - qz (Z.of_nat k)) * x) _ _ _ _ (tab_image (A:=qc) L L (fun i j => f i (S k + j)%nat))) as I2.
  pose proof (bin2_image Qcplus L L _ _ _ _ I1 I2) as B. cbv beta in B. eexists. split; [exact B|].
  apply (image_ext (A:=qc) L L _ _ _ (tab_image (A:=qc) L L _)). intros i j Hi Hj. cbv beta. rewrite qz_nat.
  rewrite (along_cell C (f i) (k + j) (eff + qnat j) ltac:(lia)); [|rewrite qnat_add; qclra|rewrite qnat_add; qclra].
  rewrite qnat_add. replace (eff + qnat j - (qnat k + qnat j)) with (eff - qnat k) by ring. reflexivity.
Qed.

Lemma rot90_image n f a k : image (A:=qc) n n f a -> image (A:=qc) n n (quarters n k f) (rot90 a k).
Proof.
  intros I. pose proof (image_r (A:=qc) _ _ _ _ I) as R. pose proof (image_c (A:=qc) _ _ _ _ I) as C. unfold rot90, quarters.
  assert (M := Z.mod_pos_bound k 4 eq_refl). change (@a_r (car qc)) with (@a_r Qc) in R. change (@a_c (car qc)) with (@a_c Qc) in C.
  assert (D : (k mod 4 = 0 \/ k mod 4 = 1 \/ k mod 4 = 2 \/ k mod 4 = 3)%Z) by lia. destruct D as [-> | [-> | [-> | ->]]].
  - exact I.
  - rewrite R, C. apply (image_ext (A:=qc) n n _ _ _ (tab_image (A:=qc) n n _)). intros i j Hi Hj. exact (image_ent (A:=qc) n n f a j (n - 1 - i) I Hj ltac:(lia)).
  - rewrite R, C. apply (image_ext (A:=qc) n n _ _ _ (tab_image (A:=qc) n n _)). intros i j Hi Hj. exact (image_ent (A:=qc) n n f a (n - 1 - i) (n - 1 - j) I ltac:(lia) ltac:(lia)).
  - rewrite R, C. apply (image_ext (A:=qc) n n _ _ _ (tab_image (A:=qc) n n _)). intros i j Hi Hj. change (Z.to_nat 3) with 3%nat. cbn [Nat.iter]. unfold quarter.
    cbn. replace (n - 1 - (n - 1 - i))%nat with i by lia. exact (image_ent (A:=qc) n n f a (n - 1 - j) i I ltac:(lia) Hi).
Qed.

Lemma q90 : 0 < qz 90. Proof. vm_compute. reflexivity. Qed.
Lemma angle_trunc dir k rest : angle_is dir k rest -> qtrunc (dir / qz 90) = k /\ (dir / qz 90 - qz k) * qz 90 = rest.
Proof.
  intros (E & Hp & Hn). pose proof q90 as N. assert (N' : qz 90 <> 0) by discriminate. assert (D : dir / qz 90 = qz k + rest / qz 90) by (rewrite E; field; exact N').
  assert (Q : (dir / qz 90 - qz k) * qz 90 = rest) by (rewrite E; field; exact N'). split; [|exact Q].
  assert (S : forall x, x / qz 90 * qz 90 = x) by (intros; field; exact N').
  assert (M : forall x y, x * qz 90 < y * qz 90 -> x < y).
  { intros x y H. destruct (Qclt_le_dec x y) as [|G]; [assumption|]. exfalso. pose proof (Qcmult_le_compat_r y x (qz 90) G ltac:(qclra)). qclra. }
  assert (M' : forall x y, x * qz 90 <= y * qz 90 -> x <= y).
  { intros x y H. destruct (Qclt_le_dec y x) as [G|]; [|assumption]. exfalso. apply (Qcmult_lt_compat_r y x (qz 90) N) in G. qclra. }
  unfold qtrunc. destruct (qlt (dir / qz 90) 0) eqn:T.
  - assert (Neg : dir < 0). { destruct (Qclt_le_dec dir 0) as [|G]; [assumption|]. exfalso. assert (0 <= dir / qz 90) by (apply M'; rewrite S; qclra). qclra. }
    destruct (Hn Neg) as [R1 R2]. rewrite (qfloor_unique _ (- k)); [lia| |].
    + replace (qz (- k)) with (- qz k) by (apply Qc_iff; rewrite this_opp, !this_qz, inject_Z_opp; reflexivity). rewrite D. assert (rest / qz 90 <= 0) by (apply M'; rewrite S; qclra). qclra.
    + replace (qz (- k)) with (- qz k) by (apply Qc_iff; rewrite this_opp, !this_qz, inject_Z_opp; reflexivity). rewrite D. assert (-(1) < rest / qz 90) by (apply M; rewrite S; replace (-(1) * qz 90) with (- qz 90) by ring; exact R1). qclra.
  - assert (Pos : 0 <= dir). { destruct (Qclt_le_dec dir 0) as [G|]; [|assumption]. exfalso. assert (dir / qz 90 < 0) by (apply M; rewrite S; qclra). qclra. }
    destruct (Hp Pos) as [R1 R2]. apply qfloor_unique; rewrite D.
    + assert (0 <= rest / qz 90) by (apply M'; rewrite S; qclra). qclra.
    + assert (rest / qz 90 < 1) by (apply M; rewrite S; qclra). qclra.
Qed.

Section E.
Variable pitch : Qc.
Variable strength : Qc -> Qc.
Variable rotate : Qc -> arr2 Qc -> arr2 Qc.
Notation blow := (blow pitch rotate). Notation blow_all := (blow_all pitch rotate). Notation evolution := (evolution pitch strength rotate).
Notation seeing_scale := (seeing_scale strength).

Lemma blow_all_nth ss : forall ds ws dt sc r, blow_all ss ds ws dt sc = Ok r ->
  length ds = length ss /\ length ws = length ss /\ length r = length ss /\
  forall k s0 d0 w0 r0, (k < length ss)%nat -> blow (nth k ss s0) (nth k ds d0) (nth k ws w0) dt sc = Ok (nth k r r0).
Proof.
  induction ss as [|s ss IH]; intros [|d ds] [|w ws] dt sc r H; try discriminate H.
  - injection H as <-. repeat split. intros k s0 d0 w0 r0 Hk. cbn in Hk. lia.
  - cbn [AtmoModel.blow_all] in H. inv_bind H. inv_bind H. injection H as <-. destruct (IH _ _ _ _ _ E0) as (A & B & C & D). cbn [length]. repeat split; try lia.
    intros [|k] s0 d0 w0 r0 Hk; cbn [nth]; [exact E|]. apply D. cbn in Hk. lia.
Qed.
Lemma blow_all_make s0 d0 w0 ss : forall ds ws dt sc, length ds = length ss -> length ws = length ss ->
  (forall k, (k < length ss)%nat -> exists x, blow (nth k ss s0) (nth k ds d0) (nth k ws w0) dt sc = Ok x) -> exists r, blow_all ss ds ws dt sc = Ok r.
Proof.
  induction ss as [|s ss IH]; intros [|d ds] [|w ws] dt sc A B H; try discriminate A; try discriminate B; [now exists []|].
  destruct (H 0%nat ltac:(cbn; lia)) as [x E]. cbn in E. destruct (IH ds ws dt sc ltac:(cbn in A; lia) ltac:(cbn in B; lia)) as [r F].
  { intros k Hk. exact (H (S k) ltac:(cbn; lia)). }
  exists (x :: r). cbn [AtmoModel.blow_all]. rewrite E. cbn [bind]. rewrite F. reflexivity.
Qed.

Definition moments (k : nat) (hist : list weather) : list (Z * Qc) := map (fun w => (we_t w, fst (nth k (we_wind w) (0, 0)))) hist.
Lemma path_app t0 a b : path pitch t0 (a ++ b) = path pitch t0 a + path pitch (end_time t0 a) b.
Proof.
  revert t0. induction a as [|[t v] a IH]; intros t0; cbn [app path]; [unfold end_time; cbn; ring|]. rewrite IH. unfold end_time. cbn [map fst]. rewrite last_cons || idtac.
  replace (last (t :: map fst a) t0) with (last (map fst a) t); [ring|]. destruct a as [|[t' v'] a]; [reflexivity|]. cbn [map fst]. change (last (t :: t' :: map fst a) t0) with (last (t' :: map fst a) t0).
  clear. generalize t'. induction (map fst a) as [|x l IHl]; intros y; [reflexivity|]. change (last (x :: l) t = last (x :: l) t0). apply IHl.
Qed.
Lemma end_app t0 a t v : end_time t0 (a ++ [(t, v)]) = t.
Proof. unfold end_time. rewrite map_app. cbn. apply last_last. Qed.

Lemma evolution_snoc ss hist w : evolution ss (hist ++ [w]) = bind (evolution ss hist) (fun st => evolve pitch strength rotate ss st w).
Proof.
  unfold AtmoModel.evolution. generalize (calm ss). induction hist as [|x l IH]; intros st; cbn [app fold_res bind].
  - destruct (evolve _ _ _ ss st w); reflexivity.
  - destruct (evolve _ _ _ ss st x); cbn [bind]; [apply IH|reflexivity].
Qed.
(* what is known after a run *)
Lemma evolution_state ss hist ds t : evolution ss hist = Ok (ds, t) -> length ds = length ss /\ t = end_time 0 (moments 0 hist).
Proof.
  revert ds t. induction hist as [|w h IH] using rev_ind; intros ds t H.
  - injection H as <- <-. unfold calm. cbn. now rewrite map_length.
  - rewrite evolution_snoc in H. inv_bind H. destruct a as [d0 t0]. unfold evolve in H. inv_bind H. injection H as <- <-. split; [apply (blow_all_nth _ _ _ _ _ _ E0)|].
    unfold moments. rewrite map_app. symmetry. apply end_app.
Qed.
Lemma end_moments k hist : end_time 0 (moments k hist) = end_time 0 (moments 0 hist).
Proof. unfold end_time, moments. now rewrite !map_map. Qed.

(* one step of one layer *)
Definition has (s : sheet) R C f := image (A:=qc) R C f (sh_screen s) /\ (sh_size s <= R)%nat.
Definition square (d : drift) L := exists g, image (A:=qc) L L g (dr_phase d).
Hypothesis Hrot : forall r n f a, image (A:=qc) n n f a -> exists g, image (A:=qc) n n g (rotate r a).
Definition looks (dir scale : Qc) (L : nat) (F : nat -> nat -> Qc) (ph : arr2 Qc) : Prop :=
  forall k rest, angle_is dir k rest -> exists a, image (A:=qc) L L (quarters L k F) a /\ ph = each qc (fun x => x * scale) (if Qc_eq_dec rest 0 then a else rotate rest a).
Lemma angle_ex dir : exists k rest, angle_is dir k rest.
Proof.
  pose proof q90 as N. assert (N' : qz 90 <> 0) by discriminate.
  assert (M : forall x y, x < y -> x * qz 90 < y * qz 90) by (intros x y H; now apply Qcmult_lt_compat_r).
  assert (M' : forall x y, x <= y -> x * qz 90 <= y * qz 90) by (intros x y H; apply Qcmult_le_compat_r; [exact H|qclra]).
  assert (S : forall x, x / qz 90 * qz 90 = x) by (intros; field; exact N').
  destruct (Qclt_le_dec dir 0) as [G|G].
  - exists (- qfloor (- (dir / qz 90)))%Z. set (z := qfloor _). exists (dir - qz 90 * qz (- z)). split; [ring|]. split; [intros; exfalso; qclra|]. intros _.
    assert (Z' : qz (- z) = - qz z) by (apply Qc_iff; rewrite this_opp, !this_qz, inject_Z_opp; reflexivity). rewrite Z'.
    destruct (floor_bounds (- (dir / qz 90))) as [B1 B2]. fold z in B1, B2. rewrite <- this_qz in B1, B2.
    assert (C1 : qz z <= - (dir / qz 90)) by exact B1. assert (C2 : - (dir / qz 90) < qz z + 1) by (unfold Qclt; rewrite this_add; exact B2).
    apply M' in C1. apply M in C2. replace (- (dir / qz 90) * qz 90) with (- dir) in C1, C2 by (field; exact N'). split; qclra.
  - exists (qfloor (dir / qz 90))%Z. set (z := qfloor _). exists (dir - qz 90 * qz z). split; [ring|]. split; [|intros; exfalso; qclra]. intros _.
    destruct (floor_bounds (dir / qz 90)) as [B1 B2]. fold z in B1, B2. rewrite <- this_qz in B1, B2.
    assert (C1 : qz z <= dir / qz 90) by exact B1. assert (C2 : dir / qz 90 < qz z + 1) by (unfold Qclt; rewrite this_add; exact B2).
    apply M' in C1. apply M in C2. rewrite S in C1, C2. split; qclra.
Qed.

Lemma blow_step s d w dt sc R C f : has s R C f -> square d (sh_size s) ->
  let pe := advance pitch (sh_size s) C (sh_extra s) (dr_pos d) (fst w) dt in 0 <= snd pe -> snd pe + qnat (sh_size s) < qnat C ->
  exists d', blow s d w dt sc = Ok d' /\ dr_pos d' = fst pe /\ square d' (sh_size s) /\
    looks (snd w) sc (sh_size s) (fun i j => along C (f i) (snd pe + qnat j)) (dr_phase d').
Proof.
  intros [Is HL] [g Ig] pe H0 H1. unfold AtmoModel.blow. pose proof (image_c (A:=qc) _ _ _ _ Is) as EC. change (@a_c (car qc)) with (@a_c Qc) in EC. rewrite EC. fold pe.
  destruct (window_image R C f (sh_screen s) (sh_size s) (snd pe) Is HL H0 H1) as (a & Ea & Ia). rewrite Ea. cbn [bind].
  assert (T : exists h, image (A:=qc) (sh_size s) (sh_size s) h (turned rotate (snd w) a)).
  { unfold turned. match goal with |- context [rot90 a ?k] => pose proof (rot90_image _ _ _ k Ia) as J end. destruct (is0 _); [eauto|]. exact (Hrot _ _ _ _ J). }
  destruct T as [h Ih]. pose proof (each_image (A:=qc) (fun x => x * sc) _ _ _ _ Ih) as Ie. pose proof (assign2_image (A:=qc) _ _ g _ _ _ Ig Ie) as As. rewrite As. cbn [bind].
  eexists. split; [reflexivity|]. cbn [dr_pos dr_phase]. split; [reflexivity|]. split; [exists (fun i j => h i j * sc); exact (tab_image (A:=qc) _ _ _)|].
  intros k rest Ha. destruct (angle_trunc _ _ _ Ha) as [E1 E2]. exists (rot90 a k). split; [now apply rot90_image|].
  transitivity (each qc (fun x => x * sc) (turned rotate (snd w) a)); [symmetry; exact (image_tab (A:=qc) _ _ _ _ Ie)|].
  unfold turned. rewrite E1, E2. unfold is0. destruct (Qc_eq_dec rest 0); reflexivity.
Qed.

(* mild conditions for one layer *)
Hypothesis Hpitch : 0 < pitch.
Definition offset (s : sheet) (v : Qc) : Qc := v * sh_extra s / pitch.
Definition fits (s : sheet) C (v : Qc) : Prop := 0 <= v /\ offset s v + qnat (sh_size s) < qnat C.
Lemma offset_nonneg s v : 0 <= sh_extra s -> 0 <= v -> 0 <= offset s v.
Proof.
  intros H1 H2. unfold offset. unfold Qcdiv. assert (P : 0 <= v * sh_extra s) by (replace 0 with (0 * sh_extra s) by ring; now apply Qcmult_le_compat_r).
  assert (I : 0 <= / pitch). { unfold Qcle. rewrite this_inv. change (this 0) with 0%Q. apply Qinv_le_0_compat. unfold Qclt in Hpitch. change (this 0) with 0%Q in Hpitch. apply Qlt_le_weak. exact Hpitch. }
  replace 0 with (0 * / pitch) by ring. now apply Qcmult_le_compat_r.
Qed.
Lemma seconds_nonneg t0 t : (t0 <= t)%Z -> 0 <= seconds (t - t0).
Proof.
  intros H. unfold seconds, Qcdiv. replace 0 with (0 * / qz 1000000000) by ring. apply Qcmult_le_compat_r; [apply (proj1 (qz_le 0 (t - t0))); lia|]. vm_compute. discriminate.
Qed.
Lemma advance_ok s C x v dt : 0 <= sh_extra s -> fits s C v -> 0 <= x -> 0 <= dt ->
  let pe := advance pitch (sh_size s) C (sh_extra s) x v dt in 0 <= fst pe /\ snd pe = fst pe + offset s v /\ snd pe + qnat (sh_size s) < qnat C /\
  ((fst pe = x + v * dt / pitch /\ fst pe + offset s v + qnat (sh_size s) < qnat C) \/ (fst pe = 0 /\ qnat C <= x + v * dt / pitch + offset s v + qnat (sh_size s))).
Proof.
  intros He [Hv Hf] Hx Hd. unfold advance. cbn zeta. cbn [fst snd]. fold (offset s v). change qn with qnat.
  assert (P : 0 <= v * dt / pitch). { pose proof (offset_nonneg (mkSheet 0 (sh_screen s) dt) v Hd Hv) as O. exact O. }
  destruct (qlt (x + v * dt / pitch + offset s v + qnat (sh_size s)) (qnat C)) eqn:T.
  - split; [qclra|]. split; [reflexivity|]. split; [qclra|]. left. split; [reflexivity|qclra].
  - split; [qclra|]. split; [reflexivity|]. split; [qclra|]. right. split; [reflexivity|qclra].
Qed.
End E.
