(* Proofs about coronagraphs. *)
From Coq Require Import Reals List ZArith Bool Arith Lia Lra.
From Verif Require Import PyBase PyLemmas Fourier PsfModel PsfSpec PsfProofs FocalModel.
Import ListNotations.
Local Open Scope R_scope.

Lemma rsum_window tot p s f : (p + s <= tot)%nat -> rsum tot (fun i => if (p <=? i)%nat && (i <? p + s)%nat then f (i - p)%nat else 0) = rsum s f.
Proof.
  intros H. replace tot with (p + (s + (tot - p - s)))%nat by lia. rewrite rsum_app, rsum_app.
  rewrite (rsum_ext p _ (fun _ => 0)), rsum_0.
  - rewrite (rsum_ext s _ f); [|]. rewrite (rsum_ext (tot - p - s) _ (fun _ => 0)), rsum_0; [ring|].
    + intros i Hi. replace (p + (s + i) <? p + s)%nat with false by (symmetry; apply Nat.ltb_ge; lia). now rewrite andb_false_r.
    + intros i Hi. replace (p <=? p + i)%nat with true by (symmetry; apply Nat.leb_le; lia). replace (p + i <? p + s)%nat with true by (symmetry; apply Nat.ltb_lt; lia). cbn [andb]. f_equal. lia.
  - intros i Hi. replace (p <=? i)%nat with false by (symmetry; apply Nat.leb_gt; lia). reflexivity.
Qed.
Lemma rsum_crop_le tot p s f : (p + s <= tot)%nat -> (forall i, 0 <= f i) -> rsum s (fun i => f (i + p)%nat) <= rsum tot f.
Proof.
  intros H P. replace tot with (p + (s + (tot - p - s)))%nat by lia. rewrite rsum_app, rsum_app.
  assert (A : 0 <= rsum p f) by (apply rsum_nonneg; auto). assert (B : 0 <= rsum (tot - p - s) (fun i => f (p + (s + i))%nat)) by (apply rsum_nonneg; auto).
  rewrite (rsum_ext s (fun i => f (i + p)%nat) (fun i => f (p + i)%nat)) by (intros; f_equal; lia). lra.
Qed.
Lemma rsum2_crop_le tot p s f : (p + s <= tot)%nat -> (forall i j, 0 <= f i j) -> rsum2 s s (fun i j => f (i + p)%nat (j + p)%nat) <= rsum2 tot tot f.
Proof.
  intros H P. unfold rsum2. apply Rle_trans with (rsum s (fun i => rsum tot (f (i + p)%nat))).
  - apply rsum_le. intros i _. apply (rsum_crop_le tot p s (f (i + p)%nat)); auto.
  - apply (rsum_crop_le tot p s (fun i => rsum tot (f i))); auto. intros. apply rsum_nonneg. auto.
Qed.

Lemma dft2_lin n m a b u v k l : dft2 n m (fun i j => cadd (cmul a (u i j)) (cmul b (v i j))) k l = cadd (cmul a (dft2 n m u k l)) (cmul b (dft2 n m v k l)).
Proof.
  unfold dft2. rewrite <- !csum2_mul_l, <- csum2_add. apply csum2_ext. intros i j _ _.
  generalize (root n (- (Z.of_nat i * Z.of_nat k))) (root m (- (Z.of_nat j * Z.of_nat l))). intros. cring.
Qed.
Lemma idft2_lin n m a b u v k l : idft2 n m (fun i j => cadd (cmul a (u i j)) (cmul b (v i j))) k l = cadd (cmul a (idft2 n m u k l)) (cmul b (idft2 n m v k l)).
Proof.
  unfold idft2. rewrite <- !csum2_mul_l, <- csum2_add. apply csum2_ext. intros i j _ _.
  generalize (root n (Z.of_nat k * Z.of_nat i)) (root m (Z.of_nat l * Z.of_nat j)) (creal (/ (INR n * INR m))). intros. cring.
Qed.
Lemma idft2_ext n m u v i j : (forall k l, (k < n)%nat -> (l < m)%nat -> u k l = v k l) -> idft2 n m u i j = idft2 n m v i j.
Proof. intros H. unfold idft2. f_equal. apply csum2_ext. intros k l Hk Hl. now rewrite H. Qed.

Section G.
Variable g : coronagraph.
Notation n := (g_size g). Notation t := (g_total g). Notation p := (pad_start g).
Hypothesis F : fits g = true.
Hypothesis T0 : (0 < t)%nat.
Lemma fits_le : (p + n <= t)%nat. Proof. unfold fits in F. now apply Nat.leb_le. Qed.

Lemma shift_unit i j : abs2 (phase_shift g i j) = 1.
Proof. unfold phase_shift. destruct (g_on_pixel g); [unfold abs2, c1; cbn; ring|apply abs2_cis]. Qed.
Lemma padded_energy u : rsum2 t t (fun i j => abs2 (padded g u i j)) = rsum2 n n (fun i j => abs2 (u i j)).
Proof.
  unfold rsum2. rewrite <- (rsum_window t p n (fun i => rsum n (fun j => abs2 (u i j))) fits_le). apply rsum_ext. intros i Hi. unfold padded.
  destruct ((p <=? i)%nat && (i <? p + n)%nat) eqn:E; cbn [andb].
  - rewrite <- (rsum_window t p n (fun j => abs2 (u (i - p)%nat j)) fits_le). apply rsum_ext. intros j Hj.
    destruct ((p <=? j)%nat && (j <? p + n)%nat); [reflexivity|apply abs2_0].
  - rewrite (rsum_ext t _ (fun _ => 0)); [apply rsum_0|]. intros. apply abs2_0.
Qed.
Lemma padded_in u i j : (i < n)%nat -> (j < n)%nat -> padded g u (i + p)%nat (j + p)%nat = u i j.
Proof.
  intros Hi Hj. unfold padded. replace (p <=? i + p)%nat with true by (symmetry; apply Nat.leb_le; lia). replace (p <=? j + p)%nat with true by (symmetry; apply Nat.leb_le; lia).
  replace (i + p <? p + n)%nat with true by (symmetry; apply Nat.ltb_lt; lia). replace (j + p <? p + n)%nat with true by (symmetry; apply Nat.ltb_lt; lia). cbn [andb]. f_equal; lia.
Qed.
Lemma light_energy u : light g u = INR t * INR t * rsum2 n n (fun i j => abs2 (u i j)).
Proof.
  unfold light, to_focal. rewrite parseval2 by auto. f_equal. rewrite <- padded_energy. apply rsum2_ext. intros i j _ _. rewrite abs2_mul, shift_unit. ring.
Qed.
Lemma tt_pos : 0 < INR t * INR t. Proof. assert (0 < INR t) by (apply lt_0_INR; lia). nra. Qed.

Lemma after_energy u : INR t * INR t * rsum2 t t (fun i j => abs2 (pupil_after g u i j)) =
  rsum2 t t (fun k l => abs2 (to_focal g (fun i j => cmul (u i j) (g_apod g i j)) k l) * abs2 (fftshift t t (g_mask g) k l)).
Proof.
  unfold pupil_after. rewrite (rsum2_ext t t _ (fun i j => abs2 (idft2 t t (fun k l => cmul (to_focal g (fun i j => cmul (u i j) (g_apod g i j)) k l) (fftshift t t (g_mask g) k l)) i j))).
  - rewrite iparseval2 by auto. apply rsum2_ext. intros. apply abs2_mul.
  - intros i j _ _. rewrite abs2_mul, abs2_conj, shift_unit. ring.
Qed.
Lemma after_lossless u : (forall i j, abs2 (g_apod g i j) = 1) -> (forall i j, abs2 (g_mask g i j) = 1) -> rsum2 t t (fun i j => abs2 (pupil_after g u i j)) = rsum2 n n (fun i j => abs2 (u i j)).
Proof.
  intros A M. apply (Rmult_eq_reg_l (INR t * INR t)); [|pose proof tt_pos; lra]. rewrite after_energy, <- light_energy.
  transitivity (light g (fun i j => cmul (u i j) (g_apod g i j))).
  - unfold light. apply rsum2_ext. intros. unfold fftshift. rewrite M. ring.
  - rewrite !light_energy. f_equal. apply rsum2_ext. intros. rewrite abs2_mul, A. ring.
Qed.
Lemma after_passive u : (forall i j, abs2 (g_apod g i j) <= 1) -> (forall i j, abs2 (g_mask g i j) <= 1) -> rsum2 t t (fun i j => abs2 (pupil_after g u i j)) <= rsum2 n n (fun i j => abs2 (u i j)).
Proof.
  intros A M. apply (Rmult_le_reg_l (INR t * INR t)); [apply tt_pos|]. rewrite after_energy, <- light_energy.
  apply Rle_trans with (light g (fun i j => cmul (u i j) (g_apod g i j))).
  - unfold light. apply rsum2_le. intros. unfold fftshift.
    set (a := abs2 _). pose proof (abs2_nonneg (to_focal g (fun i j => cmul (u i j) (g_apod g i j)) i j)) as N. fold a in N. pose proof (M ((i + (t - t / 2)) mod t)%nat ((j + (t - t / 2)) mod t)%nat) as Q. nra.
  - rewrite !light_energy. apply Rmult_le_compat_l; [pose proof tt_pos; lra|]. apply rsum2_le. intros. rewrite abs2_mul.
    pose proof (abs2_nonneg (u i j)). pose proof (A i j). nra.
Qed.
Lemma out_passive u v : (forall i j, abs2 (g_apod g i j) <= 1) -> (forall i j, abs2 (g_mask g i j) <= 1) -> (forall i j, abs2 (g_stop g i j) <= 1) -> coro_out g u = Ok v ->
  rsum2 n n (fun i j => abs2 (v i j)) <= rsum2 n n (fun i j => abs2 (u i j)).
Proof.
  intros A M S H. unfold coro_out in H. rewrite F in H. injection H as <-. apply Rle_trans with (2 := after_passive u A M).
  apply Rle_trans with (rsum2 n n (fun i j => abs2 (pupil_after g u (i + p)%nat (j + p)%nat))).
  - apply rsum2_le. intros. rewrite abs2_mul. pose proof (abs2_nonneg (pupil_after g u (i + p)%nat (j + p)%nat)). pose proof (S i j). nra.
  - apply (rsum2_crop_le t p n (fun i j => abs2 (pupil_after g u i j)) fits_le). intros. apply abs2_nonneg.
Qed.

(* the field before the stop, when the mask is a constant c *)
Lemma after_constant u c i j : (forall i j, g_mask g i j = c) -> (i < n)%nat -> (j < n)%nat -> pupil_after g u (i + p)%nat (j + p)%nat = cmul c (cmul (u i j) (g_apod g i j)).
Proof.
  intros M Hi Hj. pose proof fits_le as L. unfold pupil_after. set (w := fun i j => cmul (u i j) (g_apod g i j)).
  set (pw := fun i j => cmul (padded g w i j) (phase_shift g i j)).
  assert (E : idft2 t t (fun k l => cmul (to_focal g w k l) (fftshift t t (g_mask g) k l)) (i + p)%nat (j + p)%nat = cmul c (idft2 t t (dft2 t t pw) (i + p)%nat (j + p)%nat)).
  { rewrite (idft2_ext t t _ (fun k l => cadd (cmul c (dft2 t t pw k l)) (cmul c0 (dft2 t t pw k l)))).
    - rewrite idft2_lin. generalize (idft2 t t (dft2 t t pw) (i + p)%nat (j + p)%nat). intros. unfold Fourier.c0. cring.
    - intros k l _ _. unfold fftshift. rewrite M. unfold to_focal. fold pw. generalize (dft2 t t pw k l). intros. unfold Fourier.c0. cring. }
  rewrite E, idft2_dft2 by lia. unfold pw. rewrite padded_in by auto. unfold w.
  replace (cmul (cmul c (cmul (cmul (u i j) (g_apod g i j)) (phase_shift g (i + p) (j + p)))) (cconj (phase_shift g (i + p) (j + p)))) with
    (cmul (cmul c (cmul (u i j) (g_apod g i j))) (cmul (phase_shift g (i + p) (j + p)) (cconj (phase_shift g (i + p) (j + p))))) by (generalize (phase_shift g (i + p) (j + p)); intros; cring).
  rewrite mul_conj, shift_unit. apply cmul_1_r.
Qed.
End G.

Lemma to_focal_lin g a b u v k l : to_focal g (fun i j => cadd (cmul a (u i j)) (cmul b (v i j))) k l = cadd (cmul a (to_focal g u k l)) (cmul b (to_focal g v k l)).
Proof.
  unfold to_focal. rewrite <- dft2_lin. apply dft2_ext. intros i j _ _. unfold padded.
  destruct ((pad_start g <=? i)%nat && (i <? pad_start g + g_size g)%nat && (pad_start g <=? j)%nat && (j <? pad_start g + g_size g)%nat); generalize (phase_shift g i j); intros; unfold Fourier.c0; cring.
Qed.
Lemma to_focal_ext g u v k l : (forall i j, u i j = v i j) -> to_focal g u k l = to_focal g v k l.
Proof.
  intros H. unfold to_focal. apply dft2_ext. intros i j _ _. unfold padded. now rewrite H.
Qed.
Lemma after_lin g a b u v i j : pupil_after g (fun i j => cadd (cmul a (u i j)) (cmul b (v i j))) i j = cadd (cmul a (pupil_after g u i j)) (cmul b (pupil_after g v i j)).
Proof.
  unfold pupil_after. 
  rewrite (idft2_ext _ _ _ (fun k l => cadd (cmul a (cmul (to_focal g (fun i j => cmul (u i j) (g_apod g i j)) k l) (fftshift (g_total g) (g_total g) (g_mask g) k l))) (cmul b (cmul (to_focal g (fun i j => cmul (v i j) (g_apod g i j)) k l) (fftshift (g_total g) (g_total g) (g_mask g) k l))))).
  - rewrite idft2_lin. generalize (cconj (phase_shift g i j)). intros. cring.
  - intros k l _ _. rewrite (to_focal_ext g _ (fun i j => cadd (cmul a (cmul (u i j) (g_apod g i j))) (cmul b (cmul (v i j) (g_apod g i j))))) by (intros; cring).
    rewrite to_focal_lin. cring.
Qed.
Definition with_mask (g : coronagraph) (m : field) : coronagraph := mkCoronagraph (g_size g) (g_padding g) (g_total g) (g_on_pixel g) (g_apod g) m (g_stop g).
Lemma after_mask_lin g a b m1 m2 u i j : pupil_after (with_mask g (fun i j => cadd (cmul a (m1 i j)) (cmul b (m2 i j)))) u i j =
  cadd (cmul a (pupil_after (with_mask g m1) u i j)) (cmul b (pupil_after (with_mask g m2) u i j)).
Proof.
  unfold pupil_after. cbn [with_mask g_total g_mask].
  set (f := to_focal (with_mask g m1) (fun i j => cmul (u i j) (g_apod (with_mask g m1) i j))).
  change (to_focal (with_mask g m2) (fun i j => cmul (u i j) (g_apod (with_mask g m2) i j))) with f.
  change (to_focal (with_mask g (fun i j => cadd (cmul a (m1 i j)) (cmul b (m2 i j)))) (fun i0 j0 => cmul (u i0 j0) (g_apod (with_mask g (fun i1 j1 => cadd (cmul a (m1 i1 j1)) (cmul b (m2 i1 j1)))) i0 j0))) with f.
  change (phase_shift (with_mask g (fun i j => cadd (cmul a (m1 i j)) (cmul b (m2 i j)))) i j) with (phase_shift g i j).
  change (phase_shift (with_mask g m1) i j) with (phase_shift g i j). change (phase_shift (with_mask g m2) i j) with (phase_shift g i j).
  rewrite (idft2_ext _ _ _ (fun k l => cadd (cmul a (cmul (f k l) (fftshift (g_total g) (g_total g) m1 k l))) (cmul b (cmul (f k l) (fftshift (g_total g) (g_total g) m2 k l))))).
  - rewrite idft2_lin. generalize (cconj (phase_shift g i j)). intros. cring.
  - intros k l _ _. unfold fftshift. cring.
Qed.
