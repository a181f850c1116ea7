(* More exact conditions, kinds of errors and conventions that other theorems leave open. *)
From Coq Require Import Reals String List ZArith Bool Arith Lia Lra.
From Verif Require Import PyBase PyLemmas Arith Fourier PsfModel PsfProofs.
From Verif Require FocalModel ShImageSpec ShImageProofs.
Import ListNotations.

(* ------------------------------------------------------------------- coronagraphs *)
(* unless the mask is centred on a pixel, pixel (k, l) of its plane is in the direction (k + 1/2, l + 1/2) *)
Theorem C101_directions : forall g u k l, (0 < FocalModel.g_total g)%nat -> FocalModel.g_on_pixel g = false ->
  abs2 (FocalModel.to_focal g u k l) = ShImageSpec.spot (FocalModel.g_total g) (FocalModel.g_total g) (FocalModel.padded g u) (Z.of_nat k) (Z.of_nat l).
Proof.
  intros g u k l H N. unfold FocalModel.to_focal, ShImageSpec.spot, dft2. f_equal. apply csum2_ext. intros i j _ _. unfold FocalModel.phase_shift. rewrite N.
  set (n := FocalModel.g_total g) in *. set (p := FocalModel.padded g u i j). rewrite mult_INR. cbn [INR].
  transitivity (cmul p (cmul (cis (- 2 * PI * (INR j / ((1 + 1) * INR n) * 1 + INR i / ((1 + 1) * INR n) * 1))) (cmul (root n (- (Z.of_nat i * Z.of_nat k))) (root n (- (Z.of_nat j * Z.of_nat l)))))); [cring|].
  f_equal. rewrite root_cis by exact H. f_equal. rewrite <- !INR_IZR_INZ. field. apply not_0_INR. lia.
Qed.
Print Assumptions C101_directions.
(* so the light of a field without phase is symmetric about the centre of the mask *)
Theorem C101_centred : forall g u k l, FocalModel.g_on_pixel g = false -> (forall i j, snd (u i j) = 0%R) -> (k < FocalModel.g_total g)%nat -> (l < FocalModel.g_total g)%nat ->
  abs2 (FocalModel.to_focal g u (FocalModel.g_total g - 1 - k) (FocalModel.g_total g - 1 - l)) = abs2 (FocalModel.to_focal g u k l).
Proof.
  intros g u k l N R K L. rewrite !C101_directions by (lia || assumption). rewrite <- (ShImageProofs.spot_real _ _ _ (Z.of_nat k) (Z.of_nat l)).
  - rewrite <- (ShImageProofs.spot_period _ _ _ (- Z.of_nat k - 1) (- Z.of_nat l - 1) 1 1) by lia. f_equal; lia.
  - intros i j _ _. unfold FocalModel.padded. destruct (_ && _ && _ && _); [apply R|reflexivity].
Qed.
Print Assumptions C101_centred.
Theorem C101_too_large : forall g u, (FocalModel.g_total g < FocalModel.g_padding g / 2 + FocalModel.g_size g)%nat -> FocalModel.coro_out g u = Err ValueError.
Proof. intros g u H. unfold FocalModel.coro_out, FocalModel.fits, FocalModel.pad_start. now rewrite (proj2 (Nat.leb_gt _ _) H). Qed.
Print Assumptions C101_too_large.
Example C101_centred_example : let g := FocalModel.mkCoronagraph 2 2 4 false FocalModel.ones FocalModel.ones FocalModel.ones in
  abs2 (FocalModel.to_focal g FocalModel.ones 3 2) = abs2 (FocalModel.to_focal g FocalModel.ones 0 1).
Proof. cbv zeta. apply (C101_centred (FocalModel.mkCoronagraph 2 2 4 false FocalModel.ones FocalModel.ones FocalModel.ones) FocalModel.ones 0 1); [reflexivity|reflexivity|cbn; lia|cbn; lia]. Qed.
