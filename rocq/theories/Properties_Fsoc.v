(* Properties of optical links with satellites. *)
From Coq Require Import Reals Lra.
From Verif Require Import FsocModel.
Local Open Scope R_scope.

Lemma light_pos : 0 < speed_light.
Proof. unfold speed_light. lra. Qed.
(* the angle is twice the ratio of the speeds *)
Theorem C133_paa : forall v, calc_paa v * (PI / (3600 * 180)) * speed_light = 2 * v.
Proof. intros v. unfold calc_paa. assert (P := PI_RGT_0). assert (L := light_pos). field. split; lra. Qed.
Lemma paa_rad : forall v, calc_paa v * (PI / (3600 * 180)) = 2 * v / speed_light.
Proof. intros v. assert (L := light_pos). rewrite <- C133_paa. field. lra. Qed.
(* layers are swept at speeds proportional to their heights *)
Theorem C133_sweep : forall h k oh os, speed_at_layer (k * h) oh os = k * speed_at_layer h oh os /\ speed_at_layer 0 oh os = 0.
Proof. intros h k oh os. unfold speed_at_layer, Rdiv. split; ring. Qed.
(* while light travels the height of the object, a layer is swept by its height times the tangent of the angle *)
Theorem C133_swept : forall h oh v t, oh <> 0 -> t * speed_light = oh -> speed_at_layer h oh v * t = h * tan (2 * v / speed_light).
Proof.
  intros h oh v t O T. assert (L := light_pos). unfold speed_at_layer. rewrite paa_rad. subst oh. field. split; [lra|]. intros Z. subst t. apply O. ring.
Qed.
(* an object at rest leaves the speed of the wind; so does a layer on the ground *)
Lemma still_speed : forall h oh os, os = 0 \/ h = 0 -> speed_at_layer h oh os = 0.
Proof.
  intros h oh os [->| ->]; [|apply (C133_sweep 0 1 oh os)]. unfold speed_at_layer. rewrite paa_rad. replace (2 * 0 / speed_light) with 0 by (unfold Rdiv; ring). rewrite tan_0. unfold Rdiv. ring.
Qed.
Lemma square1 : forall x, sin x * sin x + cos x * cos x = 1.
Proof. intros x. assert (H := sin2_cos2 x). unfold Rsqr in H. exact H. Qed.
Theorem C133_still : forall h ws wd oh os od, os = 0 \/ h = 0 -> fst (calc_effective_wind_speed h ws wd oh os od) = Rabs ws.
Proof.
  intros h ws wd oh os od H. unfold calc_effective_wind_speed, wind_1, wind_2. cbv zeta. cbn [fst]. rewrite (still_speed h oh os H), !Rmult_0_l, !Rplus_0_r.
  replace (ws * sin (rad wd) * (ws * sin (rad wd)) + ws * cos (rad wd) * (ws * cos (rad wd))) with (Rsqr ws); [apply sqrt_Rsqr_abs|]. unfold Rsqr. assert (S := square1 (rad wd)). set (s := sin _) in *. set (c := cos _) in *. clearbody s c.
  replace (ws * s * (ws * s) + ws * c * (ws * c)) with (ws * ws * (s * s + c * c)) by ring. rewrite S. ring.
Qed.
(* otherwise the two velocities add as vectors *)
Theorem C133_vectors : forall h ws wd oh os od,
  let v := fst (calc_effective_wind_speed h ws wd oh os od) in let s := speed_at_layer h oh os in
  v * v = ws * ws + s * s + 2 * ws * s * cos (rad wd - rad od) /\ Rabs (Rabs ws - Rabs s) <= v /\ v <= Rabs ws + Rabs s.
Proof.
  intros h ws wd oh os od v s. subst v. unfold calc_effective_wind_speed, wind_1, wind_2. cbv zeta. cbn [fst]. fold s. clearbody s. rewrite cos_minus.
  assert (A := square1 (rad wd)). assert (B := square1 (rad od)). set (a := sin (rad wd)) in *. set (b := cos (rad wd)) in *. set (c := sin (rad od)) in *. set (d := cos (rad od)) in *.
  assert (C : -1 <= b * d + a * c <= 1) by (subst a b c d; rewrite <- cos_minus; apply COS_bound). clearbody a b c d. set (k := b * d + a * c) in *.
  assert (E : (ws * a + s * c) * (ws * a + s * c) + (ws * b + s * d) * (ws * b + s * d) = ws * ws + s * s + 2 * ws * s * k).
  { replace ((ws * a + s * c) * (ws * a + s * c) + (ws * b + s * d) * (ws * b + s * d)) with (ws * ws * (a * a + b * b) + s * s * (c * c + d * d) + 2 * ws * s * k) by (unfold k; ring). rewrite A, B. ring. }
  assert (N : 0 <= (ws * a + s * c) * (ws * a + s * c) + (ws * b + s * d) * (ws * b + s * d)) by (apply Rplus_le_le_0_compat; apply Rle_0_sqr).
  rewrite E in *. clearbody k. clear A B E a b c d.
  assert (P := Rabs_pos ws). assert (Q := Rabs_pos s).
  assert (W : Rabs ws * Rabs ws = ws * ws) by (rewrite <- Rabs_mult; apply Rabs_pos_eq, Rle_0_sqr). assert (S : Rabs s * Rabs s = s * s) by (rewrite <- Rabs_mult; apply Rabs_pos_eq, Rle_0_sqr).
  assert (X : - (Rabs ws * Rabs s) <= ws * s * k <= Rabs ws * Rabs s).
  { assert (Y : Rabs (ws * s * k) <= Rabs ws * Rabs s).
    { rewrite !Rabs_mult. rewrite <- (Rmult_1_r (Rabs ws * Rabs s)) at 2. apply Rmult_le_compat_l; [now apply Rmult_le_pos|]. apply Rabs_le. lra. }
    generalize (Rle_abs (ws * s * k)) (Rle_abs (- (ws * s * k))). rewrite Rabs_Ropp. lra. }
  split; [now apply sqrt_sqrt|]. split.
  - rewrite <- (sqrt_Rsqr_abs (Rabs ws - Rabs s)). apply sqrt_le_1_alt. unfold Rsqr. lra.
  - rewrite <- (sqrt_Rsqr (Rabs ws + Rabs s)) by lra. apply sqrt_le_1_alt. unfold Rsqr. lra.
Qed.
(* the delays of a layer add to the return trip to the object, whatever the layer; the uplink meets it later when below the object *)
Theorem C133_timing : forall z oh h, 0 < cos (z / 180 * PI) ->
  (fst (calc_timing z oh h) + snd (calc_timing z oh h)) * speed_light * cos (z / 180 * PI) = 2 * oh /\
  (h < oh -> snd (calc_timing z oh h) < fst (calc_timing z oh h)) /\ (0 <= h -> 0 <= snd (calc_timing z oh h)).
Proof.
  intros z oh h C. unfold calc_timing. cbv zeta. cbn [fst snd]. assert (L := light_pos). set (c := cos _) in *. clearbody c. assert (I : 0 < 1 / c / speed_light) by (apply Rdiv_lt_0_compat; [apply Rdiv_lt_0_compat; lra|lra]).
  replace (h * (1 / c) / speed_light) with (h * (1 / c / speed_light)) by (field; split; lra). replace ((2 * oh - h) * (1 / c) / speed_light) with ((2 * oh - h) * (1 / c / speed_light)) by (field; split; lra).
  split; [field; split; lra|]. set (k := 1 / c / speed_light) in *. clearbody k. split; intros H; [apply Rmult_lt_compat_r; lra|apply Rmult_le_pos; lra].
Qed.
Print Assumptions C133_paa.
Print Assumptions C133_sweep.
Print Assumptions C133_swept.
Print Assumptions C133_still.
Print Assumptions C133_vectors.
Print Assumptions C133_timing.

(* an object at a thousandth of the speed of light, and a layer halfway to an object at the zenith *)
Example C133_paa_example : calc_paa (299792458 / 1000) * PI = 1296.
Proof. unfold calc_paa, speed_light. assert (P := PI_RGT_0). field. lra. Qed.
Example C133_swept_example : speed_at_layer 10 (2 * speed_light) (speed_light * PI / 8) * 2 = 10.
Proof. assert (L := light_pos). rewrite C133_swept by lra. replace (2 * (speed_light * PI / 8) / speed_light) with (PI / 4) by (field; lra). rewrite tan_PI4. ring. Qed.
Example C133_timing_example : calc_timing 0 (2 * speed_light) speed_light = (3, 1).
Proof. unfold calc_timing. cbv zeta. replace (0 / 180 * PI) with 0 by (unfold Rdiv; ring). rewrite cos_0. assert (L := light_pos). f_equal; field; lra. Qed.
Example C133_still_example : fst (calc_effective_wind_speed 10000 (-5) 30 500000 0 90) = 5.
Proof. rewrite C133_still by (now left). rewrite Rabs_left by lra. lra. Qed.
(* The direction is not that of the effective wind: with the object at rest, a wind of 1 m/s at 90 degrees has a direction of 45. *)
Theorem C133_direction_refuted : exists h ws wd oh os od, os = 0 /\ wd = 90 /\ 0 < ws /\ snd (calc_effective_wind_speed h ws wd oh os od) = 45.
Proof.
  exists 0, 1, 90, 1, 0, 0. split; [reflexivity|]. split; [reflexivity|]. split; [lra|]. unfold calc_effective_wind_speed, wind_1. cbv zeta. cbn [snd]. rewrite still_speed by (now left).
  replace (rad 90) with (PI / 2) by (unfold rad; field). rewrite sin_PI2. replace (1 * 1 + 0 * sin (rad 0)) with 1 by ring. rewrite atan_1. assert (P := PI_RGT_0). field. lra.
Qed.
Print Assumptions C133_direction_refuted.
