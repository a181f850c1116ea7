(* Proofs about the PSF object over a run. *)
From Coq Require Import Reals List ZArith Bool Arith Lia Lra QArith Qcanon.
From Verif Require Import PyBase PyLemmas Fourier PsfModel PsfSpec PsfProofs.
Import ListNotations.
Local Open Scope R_scope.

Lemma rlist_app a b : rlist (a ++ b) = rlist a + rlist b.
Proof. induction a as [|x a IH]; unfold rlist in *; cbn [map app fold_right] in *; [ring|]. rewrite IH. ring. Qed.
Lemma rlist_mul {X} c (f : X -> R) l : rlist (map (fun x => c * f x) l) = c * rlist (map f l).
Proof. induction l as [|x l IH]; unfold rlist in *; cbn [map app fold_right] in *; [ring|]. rewrite IH. ring. Qed.
Lemma rlist_add {X} (f g : X -> R) l : rlist (map (fun x => f x + g x) l) = rlist (map f l) + rlist (map g l).
Proof. induction l as [|x l IH]; unfold rlist in *; cbn [map app fold_right] in *; [ring|]. rewrite IH. ring. Qed.
Lemma rlist_const {X} c (l : list X) : rlist (map (fun _ => c) l) = INR (length l) * c.
Proof. induction l as [|x l IH]; cbn [map rlist fold_right]; [change (INR (length (@nil X))) with 0; ring|]. fold (rlist (map (fun _ : X => c) l)). rewrite IH. cbn [length]. rewrite S_INR. ring. Qed.
Lemma rlist_nonneg l : (forall x, In x l -> 0 <= x) -> 0 <= rlist l.
Proof. induction l as [|x l IH]; unfold rlist in *; cbn [fold_right In]; intros H; [lra|]. pose proof (H x (or_introl eq_refl)). pose proof (IH (fun y Hy => H y (or_intror Hy))). unfold rlist in *. lra. Qed.
Lemma rsum_rlist {X} n (f : X -> nat -> R) l : rsum n (fun i => rlist (map (fun x => f x i) l)) = rlist (map (fun x => rsum n (f x)) l).
Proof. induction l as [|x l IH]; cbn [map rlist fold_right]; [apply rsum_0|]. rewrite rsum_add. fold (rlist (map (fun x => rsum n (f x)) l)). now rewrite <- IH. Qed.
Lemma rsum2_rlist {X} n m (f : X -> nat -> nat -> R) l : rsum2 n m (fun i j => rlist (map (fun x => f x i j) l)) = rlist (map (fun x => rsum2 n m (f x)) l).
Proof.
  unfold rsum2. rewrite <- (rsum_rlist n (fun x i => rsum m (f x i))). apply rsum_ext. intros i _. apply (rsum_rlist m (fun x j => f x i j)).
Qed.

Lemma fold_res_snoc {A S} (f : S -> A -> res S) s l x : fold_res f s (l ++ [x]) = bind (fold_res f s l) (fun s' => f s' x).
Proof. revert s. induction l as [|y l IH]; intros s; cbn; [destruct (f s x); reflexivity|]. destruct (f s y) as [s'|e]; cbn; [apply IH|reflexivity]. Qed.

Section P.
Variables (n m : nat) (nd : Qc) (lambda start : R).
Let w := out_size nd n.
Notation run := (psf_run n m nd lambda start).

(* image and Strehl ratio of one field *)
Definition image_of (e : frame) (k l : nat) : R :=
  abs2 (focal n m w w (f_amp e) (phi_at lambda e) (Z.of_nat k - Z.of_nat (w / 2)) (Z.of_nat l - Z.of_nat (w / 2))) / (INR w * INR w * energy n m (f_amp e)).
Definition ratio_of (e0 e : frame) : R :=
  abs2 (csum2 n m (fun i j => cmul (creal (f_amp e i j)) (cis (phi_at lambda e i j)))) / energy n m (f_amp e) /
  (area n m (f_amp e0) * area n m (f_amp e0) / energy n m (f_amp e0)).
Definition sized : Prop := (n <= w)%nat /\ (m <= w)%nat /\ out_size nd n = out_size nd m.

Lemma calc_some phase amp nz nc : (n <= w)%nat -> (m <= w)%nat -> exists r, calc_psf n m phase amp (Some w) nz nc = Ok r.
Proof. intros H H'. apply calc_psf_defined. cbn. auto. Qed.
Lemma calc_none phase amp nz nc : ~ ((n <= w)%nat /\ (m <= w)%nat) -> calc_psf n m phase amp (Some w) nz nc = Err ValueError.
Proof.
  intros H. cbn [calc_psf]. destruct ((n <=? w)%nat && (m <=? w)%nat) eqn:E; [|reflexivity]. exfalso. apply H. apply andb_true_iff in E. destruct E. split; now apply Nat.leb_le.
Qed.
Lemma w_pos : (0 < n)%nat -> (n <= w)%nat -> (0 < w)%nat. Proof. lia. Qed.
Lemma centre_pixel amp phase r : (0 < n)%nat -> (n <= w)%nat -> calc_psf n m phase amp (Some w) true false = Ok r ->
  p_val r (w / 2)%nat (w / 2)%nat = abs2 (csum2 n m (fun i j => cmul (creal (amp i j)) (cis (phase i j)))) / (INR w * INR w * energy n m amp).
Proof.
  intros Hn Hw H. destruct (calc_psf_value _ _ _ _ _ _ _ _ H) as (_ & _ & _ & V); cbn [rows_of]; try lia. cbn [rows_of] in V. rewrite V. cbn [centre_of].
  rewrite !Z.sub_diag, focal_axis. reflexivity.
Qed.
Lemma ref_pixel amp r : (0 < n)%nat -> (n <= w)%nat -> calc_psf n m (fun i j => amp i j * 0) amp (Some w) true false = Ok r ->
  p_val r (w / 2)%nat (w / 2)%nat = area n m amp * area n m amp / (INR w * INR w * energy n m amp).
Proof.
  intros Hn Hw H. rewrite (centre_pixel _ _ _ Hn Hw H). f_equal. rewrite (csum2_ext _ _ _ (fun i j => creal (amp i j))).
  - rewrite csum2_real, abs2_real. reflexivity.
  - intros i j _ _. rewrite Rmult_0_r, cis_0. apply cmul_1_r.
Qed.

(* what is known of the state after a run that started with [e0] *)
Record known (e0 : frame) (es : list frame) (s : psfo) : Prop := {
  k_ref : exists ref, o_ref s = Some ref /\ ref (w / 2)%nat (w / 2)%nat = area n m (f_amp e0) * area n m (f_amp e0) / (INR w * INR w * energy n m (f_amp e0));
  k_count : o_count s = length (filter (fun e => in_time start (f_t e)) es);
  k_int_sr : o_int_sr s = rlist (map (ratio_of e0) (filter (fun e => in_time start (f_t e)) es));
  k_int_psf : forall i j, o_int_psf s i j = rlist (map (fun e => image_of e i j) (filter (fun e => in_time start (f_t e)) es));
  k_sq : forall i j, o_sq s i j = rlist (map (fun e => image_of e i j * image_of e i j) (filter (fun e => in_time start (f_t e)) es));
  k_std : forall i j, o_std s i j = 0;
  k_last : forall l e, es = l ++ [e] -> o_sr s = ratio_of e0 e /\ (forall i j, o_psf s i j = image_of e i j) /\ o_total s = INR w * INR w * energy n m (f_amp e) }.

Lemma step_known e0 es s e : (0 < n)%nat -> sized -> energy n m (f_amp e0) <> 0 -> 
  (es = [] /\ s = psf_setup /\ e = e0 \/ known e0 es s) -> exists s', psf_step n m nd lambda start s e = Ok s' /\ known e0 (es ++ [e]) s'.
Proof.
  intros Hn [H1 [H2 H3]] He0 Hk. assert (Hw : (0 < w)%nat) by lia. assert (W : INR w <> 0) by (apply not_0_INR; lia).
  assert (Prep : exists s1, psf_prepare n m nd s e = Ok s1 /\ (exists ref, o_ref s1 = Some ref /\ ref (w / 2)%nat (w / 2)%nat = area n m (f_amp e0) * area n m (f_amp e0) / (INR w * INR w * energy n m (f_amp e0))) /\
    o_count s1 = o_count s /\ o_int_sr s1 = o_int_sr s /\ o_int_psf s1 = o_int_psf s /\ o_sq s1 = o_sq s /\ o_std s1 = o_std s).
  { unfold psf_prepare. destruct Hk as [(-> & -> & ->)|K].
    - cbn [psf_setup o_ref]. destruct (calc_some (fun i j => f_amp e0 i j * 0) (f_amp e0) true false H1 H2) as [r Hr]. fold w. rewrite Hr. cbn [bind]. replace (out_size nd m) with w by (unfold w; exact H3). rewrite Nat.eqb_refl.
      eexists. split; [reflexivity|]. cbn. split; [eexists; split; [reflexivity|]; now apply ref_pixel|]. auto.
    - destruct (k_ref _ _ _ K) as [ref [E1 E2]]. rewrite E1. exists s. split; [reflexivity|]. split; eauto. }
  destruct Prep as [s1 [P1 [[ref [R1 R2]] (C1 & C2 & C3 & C4 & C5)]]]. unfold psf_step. rewrite P1. cbn [bind].
  unfold psf_trigger. destruct (calc_some (phi_at lambda e) (f_amp e) true false H1 H2) as [r Hr]. fold w. rewrite Hr. cbn [bind]. rewrite R1.
  replace (out_size nd m) with w by (unfold w; exact H3).
  assert (V : p_val r (w / 2)%nat (w / 2)%nat / ref (w / 2)%nat (w / 2)%nat = ratio_of e0 e).
  { rewrite R2, (centre_pixel _ _ _ Hn H1 Hr). unfold ratio_of.
    set (a := abs2 _). set (A := area n m (f_amp e0)). set (E0 := energy n m (f_amp e0)) in *. set (E := energy n m (f_amp e)).
    unfold Rdiv. rewrite !Rinv_mult. rewrite !Rinv_inv. 
    transitivity (a * / E * (/ A * / A * E0) * (/ INR w * INR w) * (/ INR w * INR w)); [ring|]. rewrite Rinv_l by auto. ring. }
  assert (I : forall i j, p_val r i j = image_of e i j).
  { intros i j. destruct (calc_psf_value _ _ _ _ _ _ _ _ Hr) as (_ & _ & _ & X); cbn [rows_of]; try lia. exact (X i j). }
  assert (Z : p_total r = INR w * INR w * energy n m (f_amp e)).
  { destruct (calc_psf_value _ _ _ _ _ _ _ _ Hr) as (_ & _ & X & _); cbn [rows_of]; try lia. exact X. }
  assert (Old : o_count s = length (filter (fun e => in_time start (f_t e)) es) /\ o_int_sr s = rlist (map (ratio_of e0) (filter (fun e => in_time start (f_t e)) es)) /\
    (forall i j, o_int_psf s i j = rlist (map (fun e => image_of e i j) (filter (fun e => in_time start (f_t e)) es))) /\
    (forall i j, o_sq s i j = rlist (map (fun e => image_of e i j * image_of e i j) (filter (fun e => in_time start (f_t e)) es))) /\ (forall i j, o_std s i j = 0)).
  { destruct Hk as [(-> & -> & ->)|[K1 K2 K3 K4 K5 K6 K7]]; [|auto]. cbn. repeat split. }
  destruct Old as (O1 & O2 & O3 & O4 & O5).
  unfold psf_post. cbn [o_ref o_sr o_psf o_total o_count o_int_sr o_int_psf o_sq o_std].
  destruct (in_time start (f_t e)) eqn:T; (eexists; split; [reflexivity|]); constructor; cbn [o_ref o_sr o_psf o_total o_count o_int_sr o_int_psf o_sq o_std];
    rewrite ?filter_app; cbn [filter]; rewrite ?T, ?app_nil_r, ?map_app; eauto.
  - rewrite C1, O1, app_length. cbn. lia.
  - rewrite rlist_app, C2, O2, V. cbn [rlist map fold_right]. ring.
  - intros i j. rewrite map_app, rlist_app, C3, O3, I. cbn [rlist map fold_right]. ring.
  - intros i j. rewrite map_app, rlist_app, C4, O4, I. cbn [rlist map fold_right]. ring.
  - intros i j. rewrite C5. auto.
  - intros l e' El. apply app_inj_tail in El. destruct El as [_ <-]. auto.
  - now rewrite C1.
  - now rewrite C2.
  - intros. now rewrite C3.
  - intros. now rewrite C4.
  - intros i j. rewrite C5. auto.
  - intros l e' El. apply app_inj_tail in El. destruct El as [_ <-]. auto.
Qed.
Theorem run_known e0 rest : (0 < n)%nat -> sized -> energy n m (f_amp e0) <> 0 -> exists s, run (e0 :: rest) = Ok s /\ known e0 (e0 :: rest) s.
Proof.
  intros Hn Hs He. induction rest as [|e l IH] using rev_ind.
  - destruct (step_known e0 [] psf_setup e0 Hn Hs He) as [s [E K]]; [auto|]. exists s. split; [|exact K]. unfold psf_run. cbn. now rewrite E.
  - destruct IH as [s [E K]]. destruct (step_known e0 (e0 :: l) s e Hn Hs He) as [s' [E' K']]; [auto|]. exists s'. split; [|exact K'].
    unfold psf_run in *. change (e0 :: l ++ [e]) with ((e0 :: l) ++ [e]). rewrite fold_res_snoc, E. exact E'.
Qed.
Theorem run_refused e0 rest : ~ sized -> run (e0 :: rest) = Err ValueError.
Proof.
  intros H. unfold psf_run. cbn [fold_res]. unfold psf_step, psf_prepare at 1. cbn [psf_setup o_ref]. fold w.
  destruct (le_dec n w) as [H1|H1]; [destruct (le_dec m w) as [H2|H2]|].
  - destruct (calc_some (fun i j => f_amp e0 i j * 0) (f_amp e0) true false H1 H2) as [r Hr]. rewrite Hr. cbn [bind].
    destruct (Nat.eqb_spec w (out_size nd m)) as [E|E]; [|reflexivity]. exfalso. apply H. repeat split; auto.
  - rewrite calc_none by tauto. reflexivity.
  - rewrite calc_none by tauto. reflexivity.
Qed.

Lemma image_sum e : (0 < n)%nat -> (n <= w)%nat -> (m <= w)%nat -> energy n m (f_amp e) <> 0 -> rsum2 w w (image_of e) = 1.
Proof.
  intros Hn H1 H2 He. assert (Hw : (0 < w)%nat) by lia. assert (W : INR w <> 0) by (apply not_0_INR; lia).
  unfold image_of, Rdiv. rewrite rsum2_mul_r.
  destruct (calc_some (phi_at lambda e) (f_amp e) false false H1 H2) as [r Hr].
  destruct (calc_psf_value _ _ _ _ _ _ _ _ Hr) as (_ & _ & T & V); cbn [rows_of]; try lia. cbn [rows_of centre_of] in *.
  rewrite (rsum2_ext w w _ (p_val r)).
  - replace (rsum2 w w (p_val r)) with (p_total r); [rewrite T; field; auto|].
    cbn [calc_psf] in Hr. destruct ((n <=? w)%nat && (m <=? w)%nat); [|discriminate]. injection Hr as <-. reflexivity.
  - intros k l _ _. rewrite V. field.
Qed.
End P.
