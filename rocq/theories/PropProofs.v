From Coq Require Import List ZArith Bool Arith Lia Lqa QArith Qcanon Permutation.
From Verif Require Import PyBase PyLemmas Arith ArithLemmas FilterSpec SumLemmas OpticalModel ExtModel QcTac NpModel NpProofs FitsModel FitsSpec RebinModel RebinSpec RebinProofs CutSpec CutProofs VecModel SlopecModel SlopecSpec SlopecProofs ShProofs FieldModel FieldSpec FieldProofs InterpModel InterpSpec InterpProofs PropModel PropSpec Properties_Filter Properties_Field Properties_Interp.
Import ListNotations.
Local Open Scope Qc_scope.

Lemma repeat_seq {V} (x : V) m : repeat x m = map (fun _ => x) (seq 0 m).
Proof. rewrite <- (seq_length m 0) at 1. generalize (seq 0 m). induction l; cbn; congruence. Qed.
Lemma div2 x : x / (1 + 1) = x * Q2Qc (1 # 2).
Proof. unfold Qcdiv. now f_equal. Qed.
Lemma qnat_nz m : (0 < m)%nat -> qnat m <> 0.
Proof. intros H. now apply Qc_pos_neq, qnat_pos. Qed.
Lemma grid_images n ratio : (2 <= n)%nat -> exists g, make_xy n ratio false false false = Ok g /\
  (forall k, shifted n (fst g) k = tab qc n n (fun _ b => (qnat b - middle n) * ((1 + 1) * ratio / qnat n) + k)) /\
  (forall k, shifted n (snd g) k = tab qc n n (fun a _ => (qnat a - middle n) * ((1 + 1) * ratio / qnat n) + k)).
Proof.
  intros Hn. assert (N0 : qnat n <> 0) by (apply qnat_nz; lia).
  unfold make_xy, make_axis. replace (n <=? 1)%nat with false by (symmetry; apply Nat.leb_gt; lia). cbn [bind andb]. eexists. split; [reflexivity|]. cbn [fst snd].
  unfold axis. cbn [andb]. rewrite andb_false_r. assert (P : forall i, (qn i - half (Z.of_nat n - 1)) / half (Z.of_nat n) * ratio = (qnat i - middle n) * ((1 + 1) * ratio / qnat n)).
  { intros i. rewrite half_nat, half_pred by lia. rewrite qn_qnat. unfold middle. field. split; [exact N0|]. discriminate. }
  split; intros k; unfold shifted, tab; apply (f_equal (mkA2 (X:=Qc) n)); rewrite !map_length, seq_length.
  - rewrite repeat_seq, map_map. apply map_ext. intros _. rewrite map_map. apply map_ext. intros i. cbv beta. now rewrite P.
  - rewrite !map_map. apply map_ext. intros i. rewrite repeat_seq, map_map. apply map_ext. intros _. now rewrite P.
Qed.

Section P.
Variables (n : nat) (airmass : Qc) (pos : option (Qc * Qc)) (chrom : layer -> Qc).
Local Notation arrives := (arrives n airmass pos chrom).
Local Notation inside := (inside n airmass pos chrom).
Local Notation seen_by := (seen_by n airmass pos chrom).
Local Notation place := (place n pos).

Lemma magnif_zoom l : magnif l = zoom (l_mag l).
Proof. unfold magnif, zoom, qlt. destruct (Qclt_le_dec (l_mag l) 1); reflexivity. Qed.
Lemma magnif_ge l : 1 <= magnif l.
Proof. unfold magnif. destruct (qlt (l_mag l) 1) eqn:E; qclra. Qed.
Lemma magnif_nz l : magnif l <> 0.
Proof. assert (H := magnif_ge l). intros E. rewrite E in H. revert H. vm_compute. tauto. Qed.
Lemma at_most_test x y : qlt y (qabs x) = false <-> at_most x y.
Proof.
  unfold at_most, qabs. destruct (qlt x 0) eqn:E; (split; [intros H; split; qclra|intros [H1 H2]; qclra]).
Qed.
Lemma at_most_not x y : qlt y (qabs x) = true <-> ~ at_most x y.
Proof. rewrite <- at_most_test. destruct (qlt y (qabs x)); split; congruence || tauto. Qed.
Lemma position_x s l : good s l -> pixel_position n airmass s l (fst (s_dir s)) (option_map fst pos) = fst (arrives s l).
Proof.
  intros (_ & Pz & H0 & HH & _). unfold pixel_position, PropSpec.arrives, arrival, PropSpec.place, crossing. cbn [fst]. unfold side.
  destruct pos as [[px py]|]; cbn [option_map fst]; [destruct (n <? ef_rows qc (l_ef l))%nat|]; destruct (s_height s) as [H|]; cbn [fst]; field; try exact Pz.
  all: repeat split; try exact Pz; apply Qc_pos_neq; qclra.
Qed.
Lemma position_y s l : good s l -> let p := pixel_position n airmass s l (snd (s_dir s)) (option_map snd pos) in
  (if is0 (chrom l / ef_pitch qc (l_ef l)) then p else p + chrom l / ef_pitch qc (l_ef l) * 1) = snd (arrives s l).
Proof.
  intros (_ & Pz & H0 & HH & _) p. transitivity (p + chrom l / ef_pitch qc (l_ef l)).
  { destruct (is0 _) eqn:E; [apply is0_true in E; rewrite E|]; ring. }
  unfold p, pixel_position, PropSpec.arrives, arrival, PropSpec.place, crossing. cbn [snd]. unfold side.
  destruct pos as [[px py]|]; cbn [option_map snd]; [destruct (n <? ef_rows qc (l_ef l))%nat|]; destruct (s_height s) as [H|]; cbn [snd]; field; try exact Pz.
  all: repeat split; try exact Pz; apply Qc_pos_neq; qclra.
Qed.
Lemma pupmeta_cone s l : good s l -> (1 + 1) * (pupmeta n s l / (1 + 1)) = qnat n * (cone (s_height s) (l_height l) / magnif l).
Proof.
  intros (_ & _ & H0 & HH & _). unfold pupmeta. rewrite qn_qnat.
  assert (M : forall x, (if is1 (magnif l) then x else x / magnif l) = x / magnif l).
  { intros x. destruct (is1 (magnif l)) eqn:E; [|reflexivity]. apply is1_true in E. rewrite E. field. discriminate. }
  rewrite M. unfold cone. destruct (s_height s) as [H|].
  - assert (Hp : 0 < H) by qclra. assert (A1 : qabs (l_height l) = l_height l) by (unfold qabs; destruct (qlt (l_height l) 0) eqn:E; [exfalso; qclra|reflexivity]).
    rewrite A1. assert (A2 : qabs (H - l_height l) = H - l_height l) by (unfold qabs; destruct (qlt (H - l_height l) 0) eqn:E; [exfalso; qclra|reflexivity]).
    rewrite A2. field. repeat split; try apply magnif_nz; try (now apply Qc_pos_neq); discriminate.
  - field. repeat split; try apply magnif_nz; discriminate.
Qed.

Lemma interp_ok s l : (2 <= n)%nat -> good s l ->
  (inside s l -> exists ip, layer_interp n airmass pos chrom s l = Ok (Some ip) /\
     forall v f, image (A:=qc) (side l) (side l) f v -> exists w, interpolate ip v = Ok w /\ image (A:=qc) n n (seen_by s l f) w) /\
  (~ inside s l -> layer_interp n airmass pos chrom s l = Ok None).
Proof.
  intros Hn G. assert (G' := G). destruct G' as ([Sa Sp] & Pz & _). assert (N0 : qnat n <> 0) by (apply qnat_nz; lia).
  assert (Ec : ef_cols qc (l_ef l) = side l) by exact (image_c _ _ _ _ Sa). unfold layer_interp. rewrite Ec. cbv zeta. rewrite (position_x s l G), (position_y s l G). fold (side l).
  destruct (grid_images n (pupmeta n s l / (1 + 1)) Hn) as (g & Eg & Gx & Gy). rewrite Eg. cbn [bind]. rewrite Gx, Gy.
  change qn with qnat. split.
  - intros [Ix Iy]. apply at_most_test in Ix, Iy. rewrite Ix, Iy. cbn [orb].
    set (yy := tab qc n n (fun a _ => _)). set (xx := tab qc n n (fun _ b => _)).
    assert (S : (n <= side l)%nat).
    { apply at_most_test in Ix. destruct Ix as [I1 I2]. destruct (Nat.le_gt_cases n (side l)) as [L|L]; [exact L|]. exfalso. apply qnat_lt in L.
      assert ((qnat (side l) - qnat n) / (1 + 1) < 0). { rewrite div2. qclra. } qclra. }
    assert (R : forall v f, image (A:=qc) (side l) (side l) f v -> exists w, resample n n (l_rot l) 0 0 1 (Some yy) (Some xx) v = Ok w /\ image (A:=qc) n n (seen_by s l f) w).
    { intros v f Iv. destruct (C81_value (side l) (side l) n n (l_rot l) 0 0 1 (Some yy) (Some xx)
          (Some (fun a _ => (qnat a - middle n) * ((1 + 1) * (pupmeta n s l / (1 + 1)) / qnat n) + ((qnat (side l) - 1) / (1 + 1) - snd (l_shift l) + snd (arrives s l)),
                 fun _ b => (qnat b - middle n) * ((1 + 1) * (pupmeta n s l / (1 + 1)) / qnat n) + ((qnat (side l) - 1) / (1 + 1) - fst (l_shift l) + fst (arrives s l)))) v f) as (w & E & I); try lia; try assumption.
      - discriminate.
      - exists yy, xx. split; [reflexivity|]. split; [reflexivity|]. split; apply (tab_image (A:=qc)).
      - intros (_ & _ & _ & _ & _ & _ & H & _). discriminate.
      - exists w. split; [exact E|]. eapply (image_ext (A:=qc)); [exact I|]. intros a b _ _. unfold PropSpec.seen_by, through. cbv beta zeta. rewrite <- !magnif_zoom. cbn [grid_of fst snd].
        rewrite !(pupmeta_cone s l G). unfold spot. fold (middle (side l)).
        replace (qnat n * (cone (s_height s) (l_height l) / magnif l) / qnat n) with (cone (s_height s) (l_height l) / magnif l) by (field; split; [apply magnif_nz|exact N0]).
        rewrite !Qcplus_assoc. reflexivity. }
    destruct (R (tab qc (side l) (side l) (fun _ _ => 0)) (fun _ _ => 0) (tab_image (A:=qc) _ _ _)) as (w0 & E0 & _).
    unfold resample in E0. change (@a_r Qc) with (@a_r (car qc)) in E0. rewrite (image_r _ _ _ _ (tab_image (A:=qc) (side l) (side l) (fun _ _ => 0))) in E0. cbn [tab a_c] in E0. apply bind_ok in E0 as (ip & Eip & _).
    exists ip. split; [exact (f_equal (fun z => bind z (fun ip0 => Ok (Some ip0))) Eip)|]. intros v f Iv. destruct (R v f Iv) as (w & E & I). exists w. split; [|exact I].
    unfold resample in E. assert (E1 : @a_r Qc v = side l) by exact (image_r _ _ _ _ Iv). assert (E2 : @a_c Qc v = side l) by exact (image_c _ _ _ _ Iv). rewrite E1, E2 in E. apply bind_ok in E as (ip' & E' & E). assert (X : Ok ip' = Ok ip) by (transitivity (interp_init (side l) (side l) n n (l_rot l) 0 0 1 (Some yy) (Some xx)); [symmetry; exact E'|exact Eip]). injection X as <-. exact E.
  - intros NI. assert (T : qlt ((qnat (side l) - qnat n) / (1 + 1)) (qabs (fst (arrives s l))) || qlt ((qnat (side l) - qnat n) / (1 + 1)) (qabs (snd (arrives s l))) = true); [|now rewrite T].
    destruct (qlt _ (qabs (fst (arrives s l)))) eqn:E1; [reflexivity|]. destruct (qlt _ (qabs (snd (arrives s l)))) eqn:E2; [reflexivity|]. exfalso. apply NI. split; now apply at_most_test.
Qed.
End P.
Lemma Qc_div_nonneg x y : 0 <= x -> 0 < y -> 0 <= x / y.
Proof.
  intros Hx Hy. unfold Qcle in *. rewrite this_div. change (this 0) with 0%Q in *. apply Qle_shift_div_l; [exact Hy|]. rewrite Qmult_0_l. exact Hx.
Qed.
Lemma Qc_div_le1 x y : x <= y -> 0 < y -> x / y <= 1.
Proof.
  intros Hx Hy. unfold Qcle in *. rewrite this_div. change (this 1) with 1%Q in *. apply Qle_shift_div_r; [exact Hy|]. rewrite Qmult_1_l. exact Hx.
Qed.
