(* C110: sensors with several wavelengths. *)
From Coq Require Import List ZArith Bool Arith Lia Lqa QArith Qcanon.
From Verif Require Import PyBase PyLemmas Arith ArithLemmas FilterSpec SumLemmas OpticalModel ExtModel QcTac NpModel NpProofs FitsModel FitsSpec RebinModel RebinSpec RebinProofs CutSpec CutProofs VecModel SlopecModel SlopecSpec SlopecProofs ShProofs FieldModel FieldSpec FieldProofs InterpModel InterpSpec InterpProofs PolyModel PolySpec PolyProofs.
Import ListNotations.
Local Open Scope Qc_scope.

(* the tilts as they are written in the parameters *)
Definition written (tilts : list (Qc * Qc)) : list (list Qc) := map (fun t => [fst t; snd t]) tilts.
(* every sensor delivers images of the size of the detector *)
Definition fits_detector (sense : Qc -> efield qc -> arr2 Qc) (side : nat) : Prop := forall w e, exists f, image (A := qc) side side f (sense w e).

Section T.
Variable sense : Qc -> efield qc -> arr2 Qc.
Variable asec : Qc.
Hypothesis Hasec : asec <> 0.

(* The three lists must have the same length; nothing else is checked, and without tilts all of them are zero. *)
Theorem C110_lengths waves side flux tilts :
  (forall w, new_wfs waves side flux (Some tilts) = Ok w -> length flux = length waves /\ length tilts = length waves) /\
  (length flux = length waves -> length tilts = length waves -> exists w, new_wfs waves side flux (Some tilts) = Ok w) /\
  (forall x, new_wfs waves side flux (Some tilts) = Err x -> x = ValueError) /\
  new_wfs waves side flux None = new_wfs waves side flux (Some (repeat [0; 0] (length waves))).
Proof.
  unfold new_wfs. rewrite repeat_length, Nat.eqb_refl. cbn [negb bind]. destruct (Nat.eqb_spec (length flux) (length waves)); destruct (Nat.eqb_spec (length tilts) (length waves)); cbn [negb bind]; repeat split; intros; try congruence; try (eexists; reflexivity); try contradiction.
Qed.

(* Whatever fields arrive, the output is the mixture of the images of the sensors for the last field that was in
   time, each with its fraction of the flux, brought to the photons of that field; its time is that of the trigger.
   Before, the output is dark. *)
Theorem C110_output n side pitch waves flux tilts e0 fs :
  (2 <= n)%nat -> 0 < pitch -> fits_detector sense side -> length flux = length waves -> length tilts = length waves ->
  sized e0 n n -> ef_pitch qc e0 = pitch -> Forall (fun x => sized (snd (fst x)) n n) fs ->
  exists w, session sense asec waves side flux (Some (written tilts)) e0 fs = Ok w /\
    match shown fs with
    | Some (t, e) => w_time w = t /\ image (A := qc) side side (brought_to side (photons n e) (mixture (List.combine (fractions flux) (views sense asec n pitch waves tilts e)))) (w_out w)
    | None => w_time w = (-1)%Z /\ image (A := qc) side side (fun _ _ => 0) (w_out w)
    end.
Proof.
  intros Hn Hp Hs Hf Ht He Hpe F. destruct (whole sense asec Hasec n side pitch Hn Hp Hs waves flux tilts Hf Ht e0 fs He Hpe F) as (w & E & I).
  exists w. split; [exact E|]. assert (O := i_out _ _ _ _ _ _ _ _ _ _ I). destruct (shown fs) as [[t e]|]; destruct O; split; assumption.
Qed.
(* The contribution of a wavelength is its image with its fraction of the flux; other numbers are refused. *)
Theorem C110_contribution n side pitch waves flux tilts e0 fs w k :
  (2 <= n)%nat -> 0 < pitch -> fits_detector sense side -> length flux = length waves -> length tilts = length waves ->
  sized e0 n n -> ef_pitch qc e0 = pitch -> Forall (fun x => sized (snd (fst x)) n n) fs ->
  session sense asec waves side flux (Some (written tilts)) e0 fs = Ok w ->
  (forall t e v f, shown fs = Some (t, e) -> nth_error (views sense asec n pitch waves tilts e) k = Some v -> nth_error (fractions flux) k = Some f ->
     exists a, contribution w (Z.of_nat k) = Ok a /\ image (A := qc) side side (fun i j => f * pix v i j) a) /\
  (forall i, (i < 0 \/ Z.of_nat (length waves) <= i)%Z -> contribution w i = Err IndexError).
Proof.
  intros Hn Hp Hs Hf Ht He Hpe F E. destruct (whole sense asec Hasec n side pitch Hn Hp Hs waves flux tilts Hf Ht e0 fs He Hpe F) as (w' & E' & I).
  unfold code_tilts in E'. unfold written in E. assert (w = w') by congruence. subst w'. split.
  - intros t e v f Sh V Fk. assert (IM := i_images _ _ _ _ _ _ _ _ _ _ I). rewrite Sh in IM. cbn [last_images] in IM.
    assert (L : (k < length waves)%nat). { assert (H : (k < length (views sense asec n pitch waves tilts e))%nat) by (apply nth_error_Some; congruence). unfold views in H. rewrite map_length, combine_length in H. lia. }
    unfold contribution. rewrite (i_waves _ _ _ _ _ _ _ _ _ _ I). replace (0 <=? Z.of_nat k)%Z with true by (symmetry; apply Z.leb_le; lia).
    replace (Z.of_nat k <? Z.of_nat (length waves))%Z with true by (symmetry; apply Z.ltb_lt; lia). cbn [andb]. rewrite Nat2Z.id.
    assert (G : exists g, image (A := qc) side side g v). { apply nth_error_In in V. unfold views in V. apply in_map_iff in V as (x & <- & _). apply Hs. }
    rewrite <- IM, nth_error_map in V. destruct (nth_error (w_sensors w) k) as [s|]; [|discriminate V]. cbn [option_map] in V. injection V as V.
    rewrite (i_share _ _ _ _ _ _ _ _ _ _ I). rewrite Fk. eexists. split; [reflexivity|].
    destruct G as (g & G). rewrite V. eapply image_ext; [exact (each_image (A := qc) (fun v => v * f) side side g _ G)|]. intros i j Hi Hj. cbv beta. unfold pix. change (entry 0 v i j) with (ent qc v i j).
    rewrite (image_ent (A := qc) side side g v i j G Hi Hj). apply Qcmult_comm.
  - intros i Hi. unfold contribution. rewrite (i_waves _ _ _ _ _ _ _ _ _ _ I).
    destruct (0 <=? i)%Z eqn:A; [|reflexivity]. destruct (i <? Z.of_nat (length waves))%Z eqn:B; [|reflexivity]. apply Z.leb_le in A. apply Z.ltb_lt in B. lia.
Qed.
End T.

(* ------------------------------------------------------------------------------ the light *)
Lemma light_ext n f g : (forall i j, (i < n)%nat -> (j < n)%nat -> f i j = g i j) -> light n f = light n g.
Proof. intros H. unfold light. apply (sumn_ext (A := qc)). intros i Hi. apply (sumn_ext (A := qc)). intros j Hj. now apply H. Qed.
Lemma light_scale n f k : light n (fun i j => f i j * k) = light n f * k.
Proof.
  unfold light. etransitivity; [|exact (sumn_scale_r qc qc_field n k (fun i => sumn (A := qc) n (fun j => f i j)))]. apply (sumn_ext (A := qc)). intros i _. exact (sumn_scale_r qc qc_field n k (fun j => f i j)).
Qed.
Lemma light_add n f g : light n (fun i j => f i j + g i j) = light n f + light n g.
Proof.
  unfold light. etransitivity; [|exact (sumn_add qc qc_field n (fun i => sumn (A := qc) n (fun j => f i j)) (fun i => sumn (A := qc) n (fun j => g i j)))]. apply (sumn_ext (A := qc)). intros i _. exact (sumn_add qc qc_field n (fun j => f i j) (fun j => g i j)).
Qed.
Lemma light_zero n : light n (fun _ _ => 0) = 0.
Proof. unfold light. apply (sumn_zero qc qc_field). intros i _. apply (sumn_zero qc qc_field). reflexivity. Qed.
Lemma light_mixture n l : light n (mixture l) = sum_over (A := qc) (fun x => fst x * light n (pix (snd x))) l.
Proof.
  induction l as [|x l IH]; [apply light_zero|]. cbn [sum_over]. rewrite <- IH. rewrite <- (Qcmult_comm (light n (pix (snd x)))), <- light_scale.
  etransitivity; [|exact (light_add n (fun i j => pix (snd x) i j * fst x) (mixture l))]. apply light_ext. intros i j _ _. unfold mixture. cbn [sum_over]. now rewrite (Qcmult_comm (fst x)).
Qed.
Lemma sum_over_ext_in {X} (f g : X -> Qc) l : (forall x, In x l -> f x = g x) -> sum_over (A := qc) f l = sum_over (A := qc) g l.
Proof. induction l as [|x l IH]; intros H; [reflexivity|]. cbn [sum_over]. rewrite H by now left. rewrite IH; [reflexivity|]. intros y Hy. apply H. now right. Qed.
Lemma sum_over_scale {X} (f : X -> Qc) k l : sum_over (A := qc) (fun x => k * f x) l = k * sum_over (A := qc) f l.
Proof. induction l as [|x l IH]; [exact (eq_sym (Qcmult_0_r k))|]. cbn [sum_over]. rewrite IH. exact (eq_sym (Qcmult_plus_distr_r k (f x) (sum_over (A := qc) f l))). Qed.
Lemma sum_over_map {X Y} (g : X -> Y) (f : Y -> Qc) l : sum_over (A := qc) f (map g l) = sum_over (A := qc) (fun x => f (g x)) l.
Proof. induction l as [|x l IH]; [reflexivity|]. cbn [map sum_over]. now rewrite IH. Qed.
Lemma sum_over_fst {Y} (l : list Qc) (m : list Y) : length m = length l -> sum_over (A := qc) (fun x => fst x) (List.combine l m) = total_of l.
Proof. unfold total_of. revert m. induction l as [|x l IH]; intros [|y m] L; try discriminate L; [reflexivity|]. cbn [List.combine sum_over fst]. rewrite IH; [reflexivity|now injection L]. Qed.

(* All the photons of the field are on the detector, when the mixture has any light. *)
Theorem C110_light n phot f : (0 < light n f -> light n (brought_to n phot f) = phot) /\ (light n f <= 0 -> brought_to n phot f = f).
Proof.
  unfold brought_to. split; intros H.
  - destruct (Qclt_le_dec 0 (light n f)) as [P|P]; [|exfalso; qclra]. rewrite light_scale. field. now apply Qc_pos_neq.
  - destruct (Qclt_le_dec 0 (light n f)) as [P|P]; [exfalso; qclra|]. reflexivity.
Qed.
Lemma total_scale k l : total_of (map (Qcmult k) l) = k * total_of l.
Proof. unfold total_of. rewrite sum_over_map. apply (sum_over_scale (fun x => x)). Qed.
Lemma inv_pos x : 0 < x -> 0 < / x.
Proof.
  intros H. destruct (Qclt_le_dec 0 (/ x)) as [P|P]; [exact P|]. exfalso. assert (G : / x * x <= 0 * x) by (apply Qcmult_le_compat_r; [exact P|qclra]).
  rewrite Qcmult_0_l, Qcmult_inv_l in G by now apply Qc_pos_neq. revert G. vm_compute. intros G. now apply G.
Qed.
Lemma mul_pos x y : 0 < x -> 0 < y -> 0 < x * y.
Proof. intros Hx Hy. replace 0 with (0 * y) by ring. now apply Qcmult_lt_compat_r. Qed.
(* Only the ratios of the flux factors count: the fractions, and so the output, are the same for k times the
   factors. *)
Theorem C110_factors k l : 0 < k -> 0 < total_of l -> fractions (map (Qcmult k) l) = fractions l /\ total_of (fractions l) = 1.
Proof.
  intros Hk Hl. unfold fractions. rewrite total_scale.
  destruct (Qclt_le_dec 0 (k * total_of l)) as [P|P]; [|exfalso; assert (Q := mul_pos _ _ Hk Hl); qclra]. destruct (Qclt_le_dec 0 (total_of l)) as [P2|P2]; [|exfalso; qclra]. split.
  - rewrite map_map. apply map_ext. intros x. field. split; apply Qc_pos_neq; assumption.
  - unfold total_of at 1. rewrite sum_over_map. transitivity (/ total_of l * total_of l).
    + rewrite <- (sum_over_scale (fun x => x)). apply sum_over_ext_in. intros x _. unfold Qcdiv. apply Qcmult_comm.
    + apply Qcmult_inv_l. now apply Qc_pos_neq.
Qed.
(* When every sensor delivers all the photons, nothing is left to scale: the output is the weighted mean of the
   images, and the contributions of the wavelengths add up to it. *)
Theorem C110_mean n side e l views : 0 < total_of l -> length views = length l ->
  (forall v, In v views -> light side (pix v) = photons n e) -> 0 < photons n e ->
  forall i j, brought_to side (photons n e) (mixture (List.combine (fractions l) views)) i j = mixture (List.combine (fractions l) views) i j.
Proof.
  intros Hl L V P i j. assert (Lf : length views = length (fractions l)) by (unfold fractions; destruct (Qclt_le_dec 0 (total_of l)); [rewrite map_length|]; exact L).
  assert (E : light side (mixture (List.combine (fractions l) views)) = photons n e).
  { rewrite light_mixture. transitivity (photons n e * sum_over (A := qc) (fun x => fst x) (List.combine (fractions l) views)).
    - rewrite <- (sum_over_scale (fun x => fst x)). apply sum_over_ext_in. intros [f v] H. apply in_combine_r in H. cbn [fst snd]. rewrite (V v H). apply Qcmult_comm.
    - rewrite sum_over_fst by exact Lf. rewrite (proj2 (C110_factors 1 l eq_refl Hl)). ring. }
  unfold brought_to. rewrite E. destruct (Qclt_le_dec 0 (photons n e)); [|reflexivity]. field. now apply Qc_pos_neq.
Qed.

Lemma tab_pix n side (a : arr2 Qc) : image (A := qc) side side (pix a) a -> n = side -> a = tab qc side side (pix a).
Proof. intros H _. exact (image_tab (A := qc) side side _ _ H). Qed.
Lemma no_tilt asec n pitch e : asec <> 0 -> sized e n n -> tilted_by asec n pitch (stretch n * 0) (stretch n * 0) e = e.
Proof.
  intros Ha [Ea Ep]. unfold tilted_by. destruct e as [a p pi s]. cbn [ef_A ef_ph ef_pitch ef_S0]. f_equal. symmetry. apply (image_tab (A := qc) n n). eapply image_ext; [exact Ep|]. intros i j _ _.
  assert (R : forall k, ramp asec n pitch (stretch n * 0) k = 0) by (intros k; unfold ramp; rewrite Qcmult_0_r; field; exact Ha). rewrite !R. symmetry.
  assert (Z : forall v : Qc, v + (0 + 0) = v) by (intros; ring). apply Z.
Qed.
(* One wavelength without tilt is that sensor, whatever its flux factor, if the sensor delivers all the photons. *)
Theorem C110_single sense asec n side pitch wave f e0 t e gen : asec <> 0 -> (2 <= n)%nat -> 0 < pitch -> fits_detector sense side ->
  sized e0 n n -> ef_pitch qc e0 = pitch -> sized e n n -> (t <= gen)%Z -> 0 < f -> light side (pix (sense wave e)) = photons n e -> 0 < photons n e ->
  exists w, session sense asec [wave] side [f] None e0 [(t, e, gen)] = Ok w /\ w_out w = sense wave e.
Proof.
  intros Ha Hn Hp Hs He0 Hp0 He Ht Hf V P.
  destruct (C110_output sense asec Ha n side pitch [wave] [f] [(0, 0)] e0 [(t, e, gen)] Hn Hp Hs eq_refl eq_refl He0 Hp0) as (w & E & O); [constructor; [exact He|constructor]|].
  exists w. split.
  - rewrite <- E. unfold session. now rewrite (proj2 (proj2 (proj2 (C110_lengths [wave] side [f] [])))).
  - cbn [shown] in O. replace (t <=? gen)%Z with true in O by (symmetry; now apply Z.leb_le). destruct O as [_ O].
    assert (VV : views sense asec n pitch [wave] [(0, 0)] e = [sense wave e]) by (unfold views; cbn [List.combine map fst snd]; now rewrite no_tilt). rewrite VV in O.
    destruct (Hs wave e) as (g & G). apply (image_eq (A := qc) side side (pix (sense wave e))); [|exact (image_own (A := qc) side side g _ G)].
    assert (T : 0 < total_of [f]) by (unfold total_of; cbn [sum_over]; change (0 < f + 0); now rewrite Qcplus_0_r).
    eapply image_ext; [exact O|]. intros i j _ _.
    rewrite (C110_mean n side e [f] [sense wave e] T eq_refl); [|intros v [<-|[]]; exact V|exact P].
    unfold fractions. destruct (Qclt_le_dec 0 (total_of [f])) as [_|N]; [|exfalso; qclra]. unfold mixture. cbn [map List.combine sum_over fst snd].
    assert (TF : total_of [f] = f) by (unfold total_of; cbn [sum_over]; exact (Qcplus_0_r f)). rewrite TF.
    assert (R : forall x : Qc, f / f * x + 0 = x) by (intros; field; now apply Qc_pos_neq). apply R.
Qed.

(* ------------------------------------------------------------------------------ the tilts *)
(* A tilt of a arcsec makes the path between the centres of the first and of the last pixel longer by what it should
   be between the edges of the pupil: the tilt is n/(n-1) times as large as asked. *)
Theorem C110_tilt asec n pitch a : asec <> 0 -> (2 <= n)%nat ->
  ramp asec n pitch (stretch n * a) (n - 1) - ramp asec n pitch (stretch n * a) 0 = Q2Qc (1000000000 # 1) * (a / asec) * (qnat n * pitch) /\
  (0 < a -> a < stretch n * a).
Proof.
  intros Ha Hn. assert (N1 := pred_nz n Hn). split.
  - unfold ramp, stretch. rewrite ShProofs.qnat_sub by lia. change (qnat 1) with (1 : Qc). change (qnat 0) with (0 : Qc). unfold middle. set (g := Q2Qc (1000000000 # 1)). field. repeat split; try assumption. discriminate.
  - intros P. replace a with (1 * a) at 1 by ring. apply Qcmult_lt_compat_r; [exact P|]. unfold stretch.
    assert (Q : 0 < qnat n - 1). { assert (H := qnat_lt 1 n ltac:(lia)). change (qnat 1) with (1 : Qc) in H. qclra. }
    replace (qnat n / (qnat n - 1)) with (1 + / (qnat n - 1)) by (field; exact N1). assert (I := inv_pos _ Q). qclra.
Qed.
(* The tilts asked are therefore not those of the fields given to the sensors. *)
Theorem C110_tilt_refuted : exists sense asec n pitch a e0 e w, asec <> 0 /\ sized e0 n n /\ ef_pitch qc e0 = pitch /\ sized e n n /\
  session sense asec [1] n [1] (Some [[a; 0]]) e0 [(0%Z, e, 0%Z)] = Ok w /\ contribution w 0 <> Ok (sense 1 (tilted_by asec n pitch a 0 e)).
Proof.
  set (e := mkEF qc (tab qc 2 2 (fun _ _ => 1)) (tab qc 2 2 (fun _ _ => 0)) 1 1).
  exists (fun _ f => ef_ph qc f), 1, 2%nat, 1, 1, e, e. eexists. split; [discriminate|].
  assert (S : sized e 2 2) by (split; exact (image_own (A := qc) 2 2 _ _ (tab_image (A := qc) 2 2 _))).
  split; [exact S|]. split; [reflexivity|]. split; [exact S|]. split; [vm_compute; reflexivity|]. vm_compute. discriminate.
Qed.

(* ------------------------------------------------------------------------------ errors *)
(* A tilt that is not made of two numbers is noticed at the first field only. *)
Theorem C110_malformed_tilt sense asec n side pitch waves flux tilts e0 t e gen : asec <> 0 -> (2 <= n)%nat -> 0 < pitch -> length flux = length waves -> length tilts = length waves ->
  sized e0 n n -> ef_pitch qc e0 = pitch -> sized e n n -> (t <= gen)%Z -> (exists x, In x tilts /\ length x <> 2%nat) ->
  (exists w, session sense asec waves side flux (Some tilts) e0 [] = Ok w) /\ session sense asec waves side flux (Some tilts) e0 [(t, e, gen)] = Err ValueError.
Proof.
  intros Ha Hn Hp Hf Ht He0 Hp0 He Hg (x & Hx & Lx). unfold session, new_wfs. rewrite Hf, Ht, Nat.eqb_refl. cbn [negb bind]. unfold setup. cbn [w_waves w_flux w_tilts w_sensors w_ready w_out w_time w_now].
  destruct (sized_rows n e0 He0) as [Er Ec]. rewrite Er, Hp0, (unit_tilts_ok asec Ha n pitch Hn Hp). cbn [bind].
  destruct (new_efs n pitch Hn waves e0 He0 Hp0) as (efs & E & F & L). rewrite Er, Hp0 in E. rewrite E. cbn [bind]. split; [eexists; reflexivity|].
  cbn [fold_res]. unfold frame, check_ready, prepare. replace (t <=? gen)%Z with true by (symmetry; now apply Z.leb_le). cbn [w_units w_tilts w_efs].
  assert (G : map2_res (fun t0 m => tilted (UX asec n pitch, UY asec n pitch) e gen t0 m) tilts efs = Err ValueError).
  { assert (L2 : length tilts = length efs) by congruence. clear -Hx Lx F L2 He Ha. revert efs F L2. induction tilts as [|y r IH]; intros [|m efs] F L2; try discriminate L2; [destruct Hx|]. inversion F as [|? ? F1 F2]; subst. cbn [map2_res].
    destruct (Nat.eq_dec (length y) 2) as [Ly|Ly].
    - destruct y as [|y1 [|y2 [|]]]; try discriminate Ly. rewrite (tilted_ok asec Ha n pitch e gen (y1, y2) m He F1 : tilted (UX asec n pitch, UY asec n pitch) e gen [y1; y2] m = _). cbn [bind].
      destruct Hx as [Hx|Hx]; [subst x; now elim Lx|]. rewrite (IH Hx); [reflexivity|exact F2|now injection L2].
    - assert (T : tilted (UX asec n pitch, UY asec n pitch) e gen y m = Err ValueError).
      { unfold tilted. destruct He as [Ea Ep]. destruct F1 as [Ma Mp]. rewrite (assign2_image n n _ _ _ _ Ma Ea). cbn [bind]. destruct y as [|y1 [|y2 [|]]]; try reflexivity. now elim Ly. }
      now rewrite T. }
  match goal with |- context [map2_res ?f ?a ?b] => replace (map2_res f a b) with (@Err (list (efield qc * Z)) ValueError) by (symmetry; exact G) end. reflexivity.
Qed.
(* A pupil that is not a square of at least two pixels is refused: at setup when it has less than two rows, else at
   the first field. *)
Theorem C110_pupil_refused sense asec side waves flux tilts w e0 t e gen r c : asec <> 0 -> new_wfs waves side flux tilts = Ok w ->
  sized e0 r c -> sized e r c ->
  ((r <= 1)%nat -> setup asec w e0 = Err ValueError) /\
  ((2 <= r)%nat -> (2 <= c)%nat -> r <> c -> waves <> [] -> 0 < ef_pitch qc e0 -> (t <= gen)%Z -> (w1 <- setup asec w e0 ;; frame sense w1 (t, e, gen)) = Err ValueError).
Proof.
  intros Ha E [Ea0 _] [Ea _]. split.
  - intros Hr. unfold setup, unit_tilts, make_xy, make_axis. unfold ef_rows. rewrite (image_r _ _ _ _ Ea0). now replace (r <=? 1)%nat with true by (symmetry; now apply Nat.leb_le).
  - intros Hr Hc Hrc Hw Hp Ht. unfold setup. unfold ef_rows, ef_cols. rewrite (image_r _ _ _ _ Ea0), (image_c _ _ _ _ Ea0), (unit_tilts_ok asec Ha r _ Hr Hp). cbn [bind].
    unfold new_ef. rewrite !(proj2 (Z.ltb_ge _ 0)) by lia. cbn [orb bind]. rewrite !Nat2Z.id.
    assert (Wt : w_waves w = waves /\ length (w_tilts w) = length waves).
    { unfold new_wfs in E. destruct (negb (Nat.eqb (length flux) (length waves))); [discriminate E|]. destruct tilts as [l|].
      - destruct (Nat.eqb_spec (length l) (length waves)); [|discriminate E]. injection E as <-. split; [reflexivity|assumption].
      - injection E as <-. split; [reflexivity|]. apply repeat_length. }
    destruct Wt as [-> Wt]. destruct waves as [|wv ws]; [now elim Hw|]. destruct (w_tilts w) as [|t0 ts] eqn:Tl; [discriminate Wt|].
    assert (M : forall l : list Qc, exists efs, map_res (fun _ : Qc => Ok (mkEF qc (tab qc c r (fun _ _ => 1)) (tab qc c r (fun _ _ => 0)) (ef_pitch qc e0) 0, (-1)%Z)) l = Ok efs).
    { induction l as [|x l (efs & IH)]; [eexists; reflexivity|]. cbn [map_res bind]. rewrite IH. eexists. reflexivity. }
    destruct (M ws) as (efs & ME). cbn [map_res bind]. match goal with |- context [map_res ?f ws] => replace (map_res f ws) with (Ok efs) by (symmetry; exact ME) end. cbn [bind]. unfold frame, check_ready, prepare. replace (t <=? gen)%Z with true by (symmetry; now apply Z.leb_le). cbn [w_units w_tilts w_efs map2_res].
    unfold tilted at 1. cbn [fst ef_A]. unfold assign2, inplace2. rewrite tab_r, (image_r _ _ _ _ Ea). unfold fits1. replace (Nat.eqb r c) with false by (symmetry; now apply Nat.eqb_neq).
    replace (Nat.eqb r 1) with false by (symmetry; apply Nat.eqb_neq; lia). reflexivity.
Qed.

(* ------------------------------------------------------------------------------ examples *)
Definition ex_field (n : nat) (amp s0 : Qc) : efield qc := mkEF qc (tab qc n n (fun _ _ => amp)) (tab qc n n (fun i _ => qn i)) 1 s0.
(* a sensor: the phase, as light, times the wavelength *)
Definition ex_sense (w : Qc) (e : efield qc) : arr2 Qc := tab qc 2 2 (fun i j => w * (ent qc (ef_ph qc e) i j + 1)).
Example C110_output_example :
  match session ex_sense 1 [1; 1 + 1] 2 [1; 1 + 1 + 1] None (ex_field 2 1 1) [(0%Z, ex_field 2 1 1, 0%Z); (1%Z, ex_field 2 1 (1 + 1), 1%Z); (2%Z, ex_field 2 1 (1 + 1 + 1), 1%Z)] with
  | Ok w => (w_time w =? 1)%Z = true /\ map (map this) (a_rows (w_out w)) = [[4 # 3; 4 # 3]; [8 # 3; 8 # 3]]%Q /\
            map_res (fun k => a <- contribution w k ;; Ok (map (map this) (a_rows a))) [0%Z; 1%Z] = Ok [[[1 # 4; 1 # 4]; [1 # 2; 1 # 2]]; [[3 # 2; 3 # 2]; [3; 3]]]%Q /\
            contribution w 2 = Err IndexError /\ contribution w (-1) = Err IndexError
  | Err _ => False
  end.
Proof. vm_compute. repeat split. Qed.
Example C110_tilt_example : stretch 2 = Q2Qc 2 /\ stretch 5 = Q2Qc (5 # 4) /\ ramp 1 2 1 1 1 - ramp 1 2 1 1 0 = Q2Qc (1000000000 # 1).
Proof. vm_compute. repeat split; apply Qc_is_canon; reflexivity. Qed.
Example C110_refused_example : new_wfs [1; 1] 2 [1] None = Err ValueError /\ new_wfs [1] 2 [1] (Some []) = Err ValueError /\
  session ex_sense 1 [1] 2 [1] (Some [[0]]) (ex_field 2 1 1) [(0%Z, ex_field 2 1 1, 0%Z)] = Err ValueError /\ session ex_sense 1 [1] 2 [1] None (ex_field 1 1 1) [] = Err ValueError.
Proof. vm_compute. repeat split. Qed.
Print Assumptions C110_lengths. Print Assumptions C110_output. Print Assumptions C110_contribution. Print Assumptions C110_light. Print Assumptions C110_factors.
Print Assumptions C110_mean. Print Assumptions C110_single. Print Assumptions C110_tilt. Print Assumptions C110_tilt_refuted. Print Assumptions C110_malformed_tilt. Print Assumptions C110_pupil_refused.
