(* Properties of the curvature sensor and of the laser launch telescope. *)
From Coq Require Import String List ZArith Bool Arith Lia QArith Qcanon Qround Lqa.
From Verif Require Import PyBase PyLemmas Arith OpticalModel SlopecSpec InterpModel AtmoModel QcTac MmseProofs CurvModel.
Import ListNotations.
Local Open Scope Qc_scope.

Lemma pos_neq : forall x : Qc, 0 < x -> x <> 0.
Proof. intros x H ->. revert H. apply Qcle_not_lt, Qcle_refl. Qed.
Lemma this_qz : forall z, (this (qz z) == inject_Z z)%Q. Proof. intros z. unfold qz. apply this_q. Qed.
Lemma ceil_bounds : forall x, x <= qz (qceil x) /\ qz (qceil x) < x + 1.
Proof.
  intros x. unfold qceil. split; [unfold Qcle|unfold Qclt]; rewrite ?this_add, this_qz.
  - apply Qle_ceiling.
  - pose proof (Qceiling_lt (this x)) as H. unfold Z.sub in H. rewrite inject_Z_plus in H. change (inject_Z (- (1))) with (-1)%Q in H. change (this 1) with 1%Q. lra.
Qed.
Lemma mul_pos : forall x y : Qc, 0 < x -> 0 < y -> 0 < x * y.
Proof. intros x y Hx Hy. rewrite <- (Qcmult_0_l y). now apply Qcmult_lt_compat_r. Qed.
Lemma qz_add : forall a b, qz (a + b) = qz a + qz b.
Proof. intros a b. apply Qc_is_canon. rewrite this_add, !this_qz, inject_Z_plus. reflexivity. Qed.

Section Props.
Context (asec : Qc) (focal : image -> image) (mask focus : image) (wave : Qc) (toccd : nat -> nat -> image -> image).
Notation images := (images asec focal mask focus wave toccd).
Notation one_image := (one_image asec focal mask focus wave toccd).

(* The grid has an even number of pixels, at least those needed and less than two more; its pixels are finer than those wanted
   by at least the oversampling, which is at least one. *)
Theorem C125_grid : forall c pitch, 0 < asec -> 0 < k_wl c -> 0 < k_px c -> 0 < pitch ->
  let need := k_wl c * asec / (k_px c * pitch) in let n := grid_size asec c pitch in let o := ovs c in
  1 <= o /\ k_ovs c <= o /\ Z.even n = true /\ need * o <= qz n /\ qz n < need * o + 1 + 1 /\ grid_scale asec c pitch * o <= k_px c.
Proof.
  intros c pitch Ha Hw Hp Hpi need n o.
  assert (O : 1 <= o /\ k_ovs c <= o).
  { unfold o, ovs. destruct (qlt 1 (k_ovs c)) eqn:Q; [apply qlt_true in Q|apply qlt_false in Q]; split; try apply Qcle_refl; unfold Qcle; [now apply Qlt_le_weak|exact Q]. }
  destruct O as [O1 O2]. split; [exact O1|]. split; [exact O2|].
  assert (EX : exact_size asec c pitch = need) by (unfold exact_size, need; field; repeat split; now apply pos_neq).
  assert (NB : n = (qceil (need * o) + qceil (need * o) mod 2)%Z) by (unfold n, grid_size; rewrite EX; reflexivity).
  destruct (ceil_bounds (need * o)) as [C1 C2]. set (m := qceil (need * o)) in *.
  assert (M : (m mod 2 = 0 \/ m mod 2 = 1)%Z) by (pose proof (Z.mod_pos_bound m 2 ltac:(lia)); lia).
  assert (N1 : need * o <= qz n) by (rewrite NB, qz_add; destruct M as [-> | ->]; [change (qz 0) with (0 : Qc)|change (qz 1) with (1 : Qc)]; qclra).
  split; [|split; [exact N1|split]].
  - apply Z.even_spec. exists ((m + 1) / 2)%Z. pose proof (Z.div_mod m 2 ltac:(lia)). pose proof (Z.div_mod (m + 1) 2 ltac:(lia)). pose proof (Z.mod_pos_bound (m + 1) 2 ltac:(lia)). lia.
  - rewrite NB, qz_add. destruct M as [-> | ->]; [change (qz 0) with (0 : Qc)|change (qz 1) with (1 : Qc)]; qclra.
  - assert (O0 : 0 < o) by (apply (Qclt_le_trans _ 1); [reflexivity|exact O1]).
    assert (K0 : 0 < k_px c * pitch) by (now apply mul_pos).
    assert (NP : 0 < need * o).
    { apply mul_pos; [|exact O0]. unfold need, Qcdiv. apply mul_pos; [now apply mul_pos|]. apply Qcnot_le_lt. intros L. apply (Qcmult_le_compat_r _ _ (k_px c * pitch)) in L; [|now apply Qclt_le_weak]. rewrite Qcmult_inv_l in L by (now apply pos_neq). rewrite Qcmult_0_l in L. apply L. reflexivity. }
    assert (N0 : 0 < qz n) by (apply (Qclt_le_trans _ _ _ NP N1)).
    unfold grid_scale. fold n. set (u := qz n) in *.
    assert (D0 : u * pitch <> 0) by (apply pos_neq; now apply mul_pos).
    apply Qcnot_lt_le. intros L. apply (Qcmult_lt_compat_r _ _ (u * pitch)) in L; [|now apply mul_pos].
    replace (k_wl c / (u * pitch) * asec * o * (u * pitch)) with (need * o * (k_px c * pitch)) in L.
    + replace (k_px c * (u * pitch)) with (u * (k_px c * pitch)) in L by ring. apply (Qcmult_le_compat_r _ _ (k_px c * pitch)) in N1; [|now apply Qclt_le_weak]. revert L. now apply Qcle_not_lt.
    + unfold need. field. repeat split; now apply pos_neq.
Qed.

(* ---------------------------------------------------------------- field of view *)
Open Scope Z_scope.
(* a field of view inside the grid is cut in the middle, up to one pixel *)
Theorem C125_cut : forall n w, 0 <= w <= n -> exists a, cut n w = (a, w) /\ 0 <= a /\ a + w <= n /\ n - w - 1 <= 2 * a <= n - w.
Proof.
  intros n w H. unfold cut, bound. exists ((n - w) / 2). pose proof (Z.div_mod (n - w) 2 ltac:(lia)). pose proof (Z.mod_pos_bound (n - w) 2 ltac:(lia)).
  destruct (Z.ltb_spec ((n - w) / 2) 0); [lia|]. destruct (Z.ltb_spec ((n - w) / 2 + w) 0); [lia|]. split; [f_equal; lia|lia].
Qed.
(* a larger one gives the last pixels only, half as many as those missing *)
Theorem C125_cut_large : forall n w, 0 < n -> n < w -> exists a, cut n w = (a, Z.min n ((w - n + 1) / 2)) /\ a + Z.min n ((w - n + 1) / 2) = n.
Proof.
  intros n w H L. unfold cut, bound. pose proof (Z.div_mod (n - w) 2 ltac:(lia)). pose proof (Z.mod_pos_bound (n - w) 2 ltac:(lia)).
  pose proof (Z.div_mod (w - n + 1) 2 ltac:(lia)). pose proof (Z.mod_pos_bound (w - n + 1) 2 ltac:(lia)).
  destruct (Z.ltb_spec ((n - w) / 2) 0); [|lia]. destruct (Z.ltb_spec ((n - w) / 2 + w) 0); [lia|]. exists (Z.max 0 ((n - w) / 2 + n)). split; [f_equal; lia|lia].
Qed.
Close Scope Z_scope.
(* A field of view larger than the grid is not given whole: here two pixels out of ten. *)
Theorem C125_cut_refuted : exists n w, (n < w)%Z /\ cut n w = (8, 2)%Z.
Proof. exists 10%Z, 13%Z. split; [lia|reflexivity]. Qed.

(* ---------------------------------------------------------------- images *)
Lemma total_scale : forall n k x, total n (fun i j => x i j * k) = total n x * k.
Proof.
  intros n k x. unfold total. rewrite (qs_ext n _ (fun i => k * qsum n (fun j => x i j))) by (intros i _; rewrite <- qs_scale; apply qs_ext; intros; ring).
  rewrite qs_scale. ring.
Qed.
(* an image with light has the light of the field, one without is unchanged *)
Theorem C125_light : forall n phot x, (0 < total n x -> total n (scaled n phot x) = phot /\ forall i j, scaled n phot x i j * total n x = x i j * phot) /\ (total n x <= 0 -> scaled n phot x = x).
Proof.
  intros n phot x. unfold scaled. split.
  - intros H. replace (qlt 0 (total n x)) with true by (symmetry; now apply qlt_true). assert (N := pos_neq _ H). split; [rewrite total_scale; field; exact N|]. intros i j. field. exact N.
  - intros H. replace (qlt 0 (total n x)) with false by (symmetry; now apply qlt_false). reflexivity.
Qed.
Theorem C125_images_light : forall c pitch s0 area, 0 < total (k_number c) (one_image c pitch 1) -> 0 < total (k_number c) (one_image c pitch (- (1))) ->
  total (k_number c) (fst (images c pitch s0 area)) = s0 * area /\ total (k_number c) (snd (images c pitch s0 area)) = s0 * area.
Proof. intros c pitch s0 area H1 H2. split; now apply C125_light. Qed.
(* the other sign of the defocus exchanges the images, and without defocus they are equal *)
Definition with_defocus (c : cconf) (d : Qc) : cconf := mkCconf (k_wl c) (k_fov c) (k_px c) (k_number c) d (k_ovs c).
Theorem C125_swap : forall c pitch s0 area, (forall f g : image, (forall i j, f i j = g i j) -> focal f = focal g) ->
  images (with_defocus c (- k_defocus c)) pitch s0 area = (snd (images c pitch s0 area), fst (images c pitch s0 area)) /\
  (k_defocus c = 0 -> fst (images c pitch s0 area) = snd (images c pitch s0 area)).
Proof.
  intros c pitch s0 area HX.
  assert (E : forall d sg, one_image (with_defocus c d) pitch sg = one_image (with_defocus c (- d)) pitch (- sg)).
  { intros d sg. unfold CurvModel.one_image. cbn [with_defocus k_defocus k_number].
    change (grid_size asec (with_defocus c d) pitch) with (grid_size asec c pitch). change (grid_size asec (with_defocus c (- d)) pitch) with (grid_size asec c pitch).
    change (wanted asec (with_defocus c d) pitch) with (wanted asec c pitch). change (wanted asec (with_defocus c (- d)) pitch) with (wanted asec c pitch).
    rewrite (HX (fun i j => sg * (focus i j * d * wave)) (fun i j => - sg * (focus i j * - d * wave))) by (intros; ring). reflexivity. }
  assert (C : forall sg, one_image (with_defocus c (k_defocus c)) pitch sg = one_image c pitch sg) by (intros sg; destruct c; reflexivity).
  split.
  - unfold CurvModel.images. cbn [fst snd with_defocus k_number]. pose proof (E (k_defocus c) (- (1))) as E1. pose proof (E (k_defocus c) 1) as E2. rewrite C in E1, E2.
    replace (- - (1)) with (1 : Qc) in E1 by ring. rewrite E1, E2. reflexivity.
  - intros Z. unfold CurvModel.images. cbn [fst snd]. pose proof (E (k_defocus c) 1) as E2. rewrite Z in E2. replace (- 0) with (0 : Qc) in E2 by ring. rewrite <- Z, !C in E2. rewrite E2. reflexivity.
Qed.
End Props.

(* ---------------------------------------------------------------- laser launch telescope *)
(* a position without simulation parameters is refused; the height of the beacon is along the line of sight *)
Theorem C125_llt_new : forall a spot pos focus tt,
  llt_new None spot pos focus tt = (if (length pos =? 0)%nat then Ok (mkLlt spot [] focus tt) else Err ValueError) /\
  llt_new (Some a) spot pos focus tt = Ok (mkLlt spot pos (focus * a) tt).
Proof. intros a spot pos focus tt. split; [|reflexivity]. destruct pos; cbn [llt_new length Nat.eqb]; [|reflexivity]. do 2 f_equal. ring. Qed.
(* what is restored from a file *)
Theorem C125_llt_restored : forall spot x y z focus t0 t1 l, l = mkLlt spot [x; y; z] focus [t0; t1] ->
  (h <- llt_header l ;; llt_from_header h) = Ok l.
Proof. intros spot x y z focus t0 t1 l ->. cbn. do 2 f_equal. ring. Qed.
Theorem C125_llt_unsaved : forall l, (0 < length (l_pos l) < 3)%nat \/ (length (l_tt l) < 2)%nat -> llt_header l = Err IndexError.
Proof.
  intros [spot pos focus tt] H. cbn [l_pos l_tt] in H. unfold llt_header. cbn [l_pos l_tt l_spot l_focus].
  destruct pos as [|x [|y [|z pos]]]; cbn in *; destruct tt as [|t0 [|t1 tt]]; cbn in *; try reflexivity; destruct H; lia.
Qed.
(* without a position the origin is saved and restored *)
Theorem C125_llt_no_position : forall spot focus t0 t1,
  (h <- llt_header (mkLlt spot [] focus [t0; t1]) ;; llt_from_header h) = Ok (mkLlt spot [0; 0; 0] focus [t0; t1]).
Proof. intros. unfold llt_header, llt_from_header, item. cbn. do 2 f_equal. ring. Qed.
Theorem C125_llt_version : forall h, h_version h <> 1%Z -> llt_from_header h = Err ValueError.
Proof. intros h H. unfold llt_from_header. destruct (Z.eqb_spec (h_version h) 1); [contradiction|reflexivity]. Qed.
(* A telescope without a position is restored with one. *)
Theorem C125_llt_no_position_refuted : exists l, l_pos l = [] /\ (h <- llt_header l ;; llt_from_header h) <> Ok l.
Proof. exists (mkLlt 1 [] 1 [0; 0]). split; [reflexivity|]. intros H. vm_compute in H. discriminate. Qed.

(* ---------------------------------------------------------------- concrete cases *)
Definition ex_c (o : Qc) : cconf := mkCconf (Q2Qc (5#1)) (Q2Qc (2#1)) (Q2Qc (1#2)) 2 1 o.
Example C125_grid_example : (grid_size 1 (ex_c (Q2Qc (3#2))) 1, grid_size 1 (ex_c 0) 1, wanted 1 (ex_c (Q2Qc (3#2))) 1, cut 16 7) = (16, 10, 7, (4, 7))%Z.
Proof. vm_compute. reflexivity. Qed.
Example C125_images_example : let r := images 1 (fun ab => fun i j => if (i =? 4)%nat then 1 + ab i j else 0) (fun _ _ => 1) (fun _ _ => Q2Qc (1#2)) 1 (fun _ n x => x) (ex_c 0) 1 (Q2Qc (2#1)) (Q2Qc (3#1)) in
  (total 2 (fst r), total 2 (snd r)) = (Q2Qc 6, Q2Qc 6).
Proof. vm_compute. reflexivity. Qed.
Example C125_llt_example : llt_new None 1 [1; 0; 0] 1 [] = Err ValueError /\ llt_header (mkLlt 1 [0; 1] 1 [0; 0]) = Err IndexError.
Proof. split; reflexivity. Qed.
Print Assumptions C125_grid.
Print Assumptions C125_cut.
Print Assumptions C125_cut_large.
Print Assumptions C125_cut_refuted.
Print Assumptions C125_light.
Print Assumptions C125_images_light.
Print Assumptions C125_swap.
Print Assumptions C125_llt_new.
Print Assumptions C125_llt_restored.
Print Assumptions C125_llt_unsaved.
Print Assumptions C125_llt_no_position.
Print Assumptions C125_llt_version.
Print Assumptions C125_llt_no_position_refuted.
