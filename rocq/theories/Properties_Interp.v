(* C81: interpolation of arrays. *)
From Coq Require Import List ZArith Bool Arith Lia Lqa QArith Qcanon Qround.
From Verif Require Import PyBase PyLemmas Arith ArithLemmas FilterSpec SumLemmas OpticalModel ExtModel QcTac NpModel NpProofs FitsModel FitsSpec RebinModel RebinSpec RebinProofs CutSpec CutProofs VecModel SlopecModel SlopecSpec SlopecProofs FieldModel FieldSpec FieldProofs InterpModel InterpSpec InterpProofs Properties_Filter Properties_Field.
Import ListNotations.
Local Open Scope Qc_scope.

(* the coordinates asked for, without the default *)
Definition grid_of (r c outr outc : nat) (given : option ((nat -> nat -> Qc) * (nat -> nat -> Qc))) (a b : nat) : Qc * Qc :=
  match given with
  | Some (yy, xx) => (yy a b, xx a b)
  | None => (qnat a * (qnat (r - 1) / qnat outr), qnat b * (qnat (c - 1) / qnat outc))
  end.
Definition given_is (outr outc : nat) (given : option ((nat -> nat -> Qc) * (nat -> nat -> Qc))) (yy xx : option (arr2 Qc)) : Prop :=
  match given with
  | Some (fy, fx) => exists y x, yy = Some y /\ xx = Some x /\ image (A:=qc) outr outc fy y /\ image (A:=qc) outr outc fx x
  | None => yy = None \/ xx = None
  end.
Definition nothing_to_do (r c outr outc : nat) (rot : option (Qc * Qc)) (rs cs mag : Qc) (yy xx : option (arr2 Qc)) : Prop :=
  r = outr /\ c = outc /\ rot = None /\ rs = 0 /\ cs = 0 /\ mag = 1 /\ yy = None /\ xx = None.

Lemma two_nz : (1 + 1) <> 0. Proof. discriminate. Qed.
Lemma centre_middle n : centre n = middle n.
Proof. unfold centre, middle. change (qn n) with (qnat n). field. discriminate. Qed.
Lemma is1_true x : is1 x = true <-> x = 1.
Proof. unfold is1. destruct (Qc_eq_dec x 1); split; intros; auto; discriminate. Qed.
Lemma coords_seen r c rot mag rs cs x y : (0 < r)%nat -> (0 < c)%nat -> mag <> 0 ->
  coords r c rot mag rs cs x y = let p := seen r c (angle rot) mag rs cs y x in (nearest r (fst p), nearest c (snd p)).
Proof.
  intros Hr Hc Hm. unfold coords, about, seen. rewrite !limit_nearest by assumption. cbv zeta. rewrite !centre_middle.
  destruct rot as [[co si]|]; cbn [is_none andb angle fst snd turn]; [reflexivity|].
  destruct (is1 mag) eqn:E; cbn [fst snd]; f_equal; f_equal.
  1,2: apply is1_true in E; subst mag; field; discriminate.
  all: ring.
Qed.

(* What is computed: at every output pixel, the surface of tents through the input pixels, at
   the point of the input closest to the point seen. *)
Theorem C81_value r c outr outc rot rs cs mag yy xx given v f :
  (0 < r)%nat -> (0 < c)%nat -> (0 < outr)%nat -> (0 < outc)%nat -> mag <> 0 -> image (A:=qc) r c f v -> given_is outr outc given yy xx ->
  ~ nothing_to_do r c outr outc rot rs cs mag yy xx ->
  exists w, resample outr outc rot rs cs mag yy xx v = Ok w /\
    image (A:=qc) outr outc (fun a b => let g := grid_of r c outr outc given a b in
                                        let p := seen r c (angle rot) mag rs cs (fst g) (snd g) in
                                        surface r c f (nearest r (fst p)) (nearest c (snd p))) w.
Proof.
  intros Hr Hc Hor Hoc Hm Iv Hg N. unfold resample, interp_init.
  assert (Er : @a_r Qc v = r) by exact (image_r _ _ _ _ Iv). assert (Ec : @a_c Qc v = c) by exact (image_c _ _ _ _ Iv). rewrite Er, Ec.
  set (skip := _ && _ && _ && _ && _ && _ && _ && _). assert (Es : skip = false).
  { destruct skip eqn:E; [|reflexivity]. exfalso. apply N. unfold skip in E. apply andb_true_iff in E as [E E7]. apply andb_true_iff in E as [E E6]. apply andb_true_iff in E as [E E5].
    apply andb_true_iff in E as [E E4]. apply andb_true_iff in E as [E E3]. apply andb_true_iff in E as [E E2]. apply andb_true_iff in E as [E0 E1].
    unfold nothing_to_do. apply Nat.eqb_eq in E0, E1. apply is0_true in E3, E4. apply is1_true in E5. destruct rot, xx, yy; try discriminate. repeat split; auto. }
  rewrite Es. clear skip Es.
  assert (G : exists gy gx, (match yy, xx with
         | Some y, Some x => if shape_is outr outc y && shape_is outr outc x then Ok (ent qc y, ent qc x) else Err ValueError
         | _, _ => if Nat.eqb outr 0 || Nat.eqb outc 0 then Err ZeroDivisionError
                   else Ok ((fun a _ => scaled r outr a), (fun _ b => scaled c outc b))
         end) = Ok (gy, gx) /\ forall a b, (a < outr)%nat -> (b < outc)%nat -> (gy a b, gx a b) = grid_of r c outr outc given a b).
  { destruct given as [[fy fx]|]; cbn [given_is] in Hg.
    - destruct Hg as (y & x & -> & -> & Iy & Ix).
      assert (Sy : shape_is outr outc y = true) by (unfold shape_is; apply andb_true_iff; split; apply Nat.eqb_eq; [exact (image_r _ _ _ _ Iy)|exact (image_c _ _ _ _ Iy)]).
      assert (Sx : shape_is outr outc x = true) by (unfold shape_is; apply andb_true_iff; split; apply Nat.eqb_eq; [exact (image_r _ _ _ _ Ix)|exact (image_c _ _ _ _ Ix)]).
      rewrite Sy, Sx. exists (ent qc y), (ent qc x). split; [reflexivity|]. intros a b Ha Hb. cbn [grid_of].
      f_equal; [exact (image_ent (A:=qc) outr outc fy y a b Iy Ha Hb)|exact (image_ent (A:=qc) outr outc fx x a b Ix Ha Hb)].
    - exists (fun a _ => scaled r outr a), (fun _ b => scaled c outc b). split.
      + replace (Nat.eqb outr 0 || Nat.eqb outc 0) with false by (symmetry; apply orb_false_iff; split; apply Nat.eqb_neq; lia). destruct Hg as [-> | ->]; [|destruct yy]; reflexivity.
      + intros a b _ _. unfold grid_of, scaled. rewrite !qz_pred by assumption. reflexivity. }
  destruct G as (gy & gx & -> & HG). cbn [bind]. unfold interpolate. cbn [ip_in ip_out ip_grid fst snd].
  replace (shape_is r c v) with true by (symmetry; unfold shape_is; rewrite Er, Ec, !Nat.eqb_refl; reflexivity). cbn [negb].
  eexists. split; [reflexivity|]. eapply (image_ext (A:=qc)); [apply (tab_image (A:=qc))|]. intros a b Ha Hb. cbv beta zeta.
  rewrite !(tab_ent (A:=qc)) by assumption. rewrite !coords_seen by assumption. cbv zeta. cbn [fst snd].
  rewrite <- (HG a b Ha Hb). cbn [fst snd].
  rewrite (bilinear_surface r c f v _ _ Hr Hc Iv (nearest_within _ _) (nearest_within _ _)).
  unfold surface. apply (sumn_ext (A:=qc)). intros i Hi. apply (sumn_ext (A:=qc)). intros j Hj. f_equal. exact (image_ent (A:=qc) r c f v i j Iv Hi Hj).
Qed.

(* With nothing to do the array is returned. *)
Theorem C81_identity v : resample (a_r v) (a_c v) None 0 0 1 None None v = Ok v.
Proof.
  unfold resample, interp_init. rewrite !Nat.eqb_refl. cbn. unfold interpolate. cbn [ip_in ip_out ip_grid fst snd]. unfold shape_is. now rewrite !Nat.eqb_refl.
Qed.
(* An array or coordinates of another shape are rejected. *)
Theorem C81_shape r c outr outc rot rs cs mag yy xx ip v : interp_init r c outr outc rot rs cs mag yy xx = Ok ip ->
  (a_r v <> r \/ a_c v <> c) -> interpolate ip v = Err ValueError.
Proof.
  intros E N. assert (I : ip_in ip = (r, c)).
  { unfold interp_init in E. destruct (_ && _); [injection E as <-; reflexivity|]. inv_bind E. injection E as <-. reflexivity. }
  unfold interpolate. rewrite I. cbn [fst snd]. unfold shape_is. replace (Nat.eqb (a_r v) r && Nat.eqb (a_c v) c) with false; [reflexivity|].
  symmetry. apply andb_false_iff. destruct N as [N|N]; [left|right]; now apply Nat.eqb_neq.
Qed.
Theorem C81_grid_shape r c outr outc rot rs cs mag y x : (a_r y <> outr \/ a_c y <> outc \/ a_r x <> outr \/ a_c x <> outc) ->
  interp_init r c outr outc rot rs cs mag (Some y) (Some x) = Err ValueError.
Proof.
  intros N. unfold interp_init. cbn [is_none]. rewrite !andb_false_r. unfold shape_is.
  replace (Nat.eqb (a_r y) outr && Nat.eqb (a_c y) outc && (Nat.eqb (a_r x) outr && Nat.eqb (a_c x) outc)) with false; [reflexivity|].
  symmetry. rewrite !andb_false_iff, !Nat.eqb_neq. tauto.
Qed.

(* --------------------------------------------------------------------------- the surface *)
Lemma tent_sum n x : (0 < n)%nat -> within n x -> sumn (A:=qc) n (fun j => tent (x - qnat j)) = 1.
Proof.
  intros Hn W. transitivity (sumn (A:=qc) n (fun j => 1 * tent (x - qnat j))).
  - apply (sumn_ext (A:=qc)). intros j _. qceq. ring.
  - rewrite (linear_tents n x (fun _ => 1) Hn W). qceq. ring.
Qed.
Lemma tent_nonneg t : 0 <= tent t.
Proof. unfold tent. destruct (Qclt_le_dec t (-(1))); [qclra|]. destruct (Qclt_le_dec t 0); [qclra|]. destruct (Qclt_le_dec t 1); qclra. Qed.
Lemma surface_ext r c f g y x : (forall i j, (i < r)%nat -> (j < c)%nat -> f i j = g i j) -> surface r c f y x = surface r c g y x.
Proof. intros H. unfold surface. apply (sumn_ext (A:=qc)). intros i Hi. apply (sumn_ext (A:=qc)). intros j Hj. now rewrite H. Qed.
(* The surface goes through the pixels, *)
Theorem C81_surface_pixel r c f i j : (i < r)%nat -> (j < c)%nat -> surface r c f (qnat i) (qnat j) = f i j.
Proof.
  intros Hi Hj. unfold surface. assert (far : forall a b, a <> b -> tent (qnat a - qnat b) = 0).
  { intros a b N. apply tent_far. destruct (Nat.lt_ge_cases b a) as [L|L]; [left|right].
    - assert (Q := qnat_le (S b) a L). rewrite qnat_S in Q. qclra.
    - assert (Q := qnat_le (S a) b ltac:(lia)). rewrite qnat_S in Q. qclra. }
  assert (one : forall a, tent (qnat a - qnat a) = 1). { intros a. rewrite tent_right; qclra. }
  rewrite (sumn_single qc qc_field r i); [|exact Hi|].
  - rewrite (sumn_single qc qc_field c j); [|exact Hj|].
    + rewrite !one. qceq. ring.
    + intros b Hb N. rewrite (far j b) by auto. qceq. ring.
  - intros a Ha N. apply (sumn_zero qc qc_field). intros b Hb. rewrite (far i a) by auto. qceq. ring.
Qed.
(* is linear in the array, *)
Theorem C81_surface_linear r c f g k y x : surface r c (fun i j => f i j + k * g i j) y x = surface r c f y x + k * surface r c g y x.
Proof.
  unfold surface. rewrite <- (sumn_scale qc qc_field), <- (sumn_add qc qc_field). apply (sumn_ext (A:=qc)). intros i _.
  rewrite <- (sumn_scale qc qc_field), <- (sumn_add qc qc_field). apply (sumn_ext (A:=qc)). intros j _. qceq. ring.
Qed.
(* is flat between flat pixels, and stays between the extreme values. *)
Lemma surface_const r c k y x : (0 < r)%nat -> (0 < c)%nat -> within r y -> within c x -> surface r c (fun _ _ => k) y x = k.
Proof.
  intros Hr Hc Wy Wx. unfold surface. transitivity (sumn (A:=qc) r (fun i => k * tent (y - qnat i))).
  - apply (sumn_ext (A:=qc)). intros i _. transitivity (sumn (A:=qc) c (fun j => (k * tent (y - qnat i)) * tent (x - qnat j))).
    + apply (sumn_ext (A:=qc)). intros j _. qceq. ring.
    + etransitivity; [apply (sumn_scale qc qc_field)|]. rewrite (tent_sum c x Hc Wx). qceq. ring.
  - etransitivity; [apply (sumn_scale qc qc_field)|]. rewrite (tent_sum r y Hr Wy). qceq. ring.
Qed.
Lemma sumn_le n (f g : nat -> Qc) : (forall i, (i < n)%nat -> f i <= g i) -> sumn (A:=qc) n f <= sumn (A:=qc) n g.
Proof. induction n as [|n IH]; intros H; cbn [sumn]; [apply Qcle_refl|]. apply Qcplus_le_compat; [apply IH; auto|apply H; auto]. Qed.
Lemma surface_le r c f g y x : (forall i j, (i < r)%nat -> (j < c)%nat -> f i j <= g i j) -> surface r c f y x <= surface r c g y x.
Proof.
  intros H. unfold surface. apply sumn_le. intros i Hi. apply sumn_le. intros j Hj. apply Qcmult_le_compat_r; [now apply H|].
  rewrite <- (Qcmult_0_l (tent (x - qnat j))). apply Qcmult_le_compat_r; apply tent_nonneg.
Qed.
Theorem C81_surface_between r c f lo hi y x : (0 < r)%nat -> (0 < c)%nat -> (forall i j, (i < r)%nat -> (j < c)%nat -> lo <= f i j /\ f i j <= hi) ->
  lo <= surface r c f (nearest r y) (nearest c x) /\ surface r c f (nearest r y) (nearest c x) <= hi.
Proof.
  intros Hr Hc H. pose proof (nearest_within r y). pose proof (nearest_within c x). split.
  - rewrite <- (surface_const r c lo (nearest r y) (nearest c x)) at 1 by assumption. apply surface_le. intros i j Hi Hj. now apply H.
  - rewrite <- (surface_const r c hi (nearest r y) (nearest c x)) by assumption. apply surface_le. intros i j Hi Hj. now apply H.
Qed.

(* ------------------------------------------------------------------- interpolated arrays *)
(* Every value is between the extreme values of the array (so a constant array stays constant,
   and light stays non-negative). *)
Theorem C81_between r c outr outc rot rs cs mag yy xx given v f lo hi :
  (0 < r)%nat -> (0 < c)%nat -> (0 < outr)%nat -> (0 < outc)%nat -> mag <> 0 -> image (A:=qc) r c f v -> given_is outr outc given yy xx ->
  (forall i j, (i < r)%nat -> (j < c)%nat -> lo <= f i j /\ f i j <= hi) ->
  exists w g, resample outr outc rot rs cs mag yy xx v = Ok w /\ image (A:=qc) outr outc g w /\ forall a b, (a < outr)%nat -> (b < outc)%nat -> lo <= g a b /\ g a b <= hi.
Proof.
  intros Hr Hc Hor Hoc Hm Iv Hg H.
  assert (D : nothing_to_do r c outr outc rot rs cs mag yy xx \/ ~ nothing_to_do r c outr outc rot rs cs mag yy xx).
  { unfold nothing_to_do. destruct (Nat.eq_dec r outr), (Nat.eq_dec c outc), rot, (Qc_eq_dec rs 0), (Qc_eq_dec cs 0), (Qc_eq_dec mag 1), yy, xx;
      try (right; intros (? & ? & ? & ? & ? & ? & ? & ?); congruence). left. repeat split; assumption. }
  destruct D as [(<- & <- & -> & -> & -> & -> & -> & ->)|N].
  - exists v, f. split; [|now split]. assert (Er : @a_r Qc v = r) by exact (image_r _ _ _ _ Iv). assert (Ec : @a_c Qc v = c) by exact (image_c _ _ _ _ Iv).
    rewrite <- Er, <- Ec. apply C81_identity.
  - destruct (C81_value r c outr outc rot rs cs mag yy xx given v f Hr Hc Hor Hoc Hm Iv Hg N) as (w & E & I). exists w. eexists. split; [exact E|]. split; [exact I|].
    intros a b _ _. cbv beta zeta. now apply C81_surface_between.
Qed.
(* Interpolating is linear. *)
Theorem C81_linear r c outr outc rot rs cs mag yy xx given u v w f g k :
  (0 < r)%nat -> (0 < c)%nat -> (0 < outr)%nat -> (0 < outc)%nat -> mag <> 0 -> given_is outr outc given yy xx ->
  image (A:=qc) r c f u -> image (A:=qc) r c g v -> image (A:=qc) r c (fun i j => f i j + k * g i j) w ->
  exists u' v' w' p q, resample outr outc rot rs cs mag yy xx u = Ok u' /\ resample outr outc rot rs cs mag yy xx v = Ok v' /\ resample outr outc rot rs cs mag yy xx w = Ok w' /\
    image (A:=qc) outr outc p u' /\ image (A:=qc) outr outc q v' /\ image (A:=qc) outr outc (fun a b => p a b + k * q a b) w'.
Proof.
  intros Hr Hc Hor Hoc Hm Hg Iu Iv Iw.
  assert (D : nothing_to_do r c outr outc rot rs cs mag yy xx \/ ~ nothing_to_do r c outr outc rot rs cs mag yy xx).
  { unfold nothing_to_do. destruct (Nat.eq_dec r outr), (Nat.eq_dec c outc), rot, (Qc_eq_dec rs 0), (Qc_eq_dec cs 0), (Qc_eq_dec mag 1), yy, xx;
      try (right; intros (? & ? & ? & ? & ? & ? & ? & ?); congruence). left. repeat split; assumption. }
  destruct D as [(<- & <- & -> & -> & -> & -> & -> & ->)|N].
  - assert (K : forall a h, image (A:=qc) r c h a -> resample r c None 0 0 1 None None a = Ok a).
    { intros a h Ia. assert (Er : @a_r Qc a = r) by exact (image_r _ _ _ _ Ia). assert (Ec : @a_c Qc a = c) by exact (image_c _ _ _ _ Ia). rewrite <- Er, <- Ec. apply C81_identity. }
    exists u, v, w, f, g. rewrite (K u f Iu), (K v g Iv), (K w _ Iw). auto 10.
  - destruct (C81_value r c outr outc rot rs cs mag yy xx given u f Hr Hc Hor Hoc Hm Iu Hg N) as (u' & Eu & Ju).
    destruct (C81_value r c outr outc rot rs cs mag yy xx given v g Hr Hc Hor Hoc Hm Iv Hg N) as (v' & Ev & Jv).
    destruct (C81_value r c outr outc rot rs cs mag yy xx given w _ Hr Hc Hor Hoc Hm Iw Hg N) as (w' & Ew & Jw).
    do 5 eexists. split; [exact Eu|]. split; [exact Ev|]. split; [exact Ew|]. split; [exact Ju|]. split; [exact Jv|].
    eapply (image_ext (A:=qc)); [exact Jw|]. intros a b _ _. cbv beta zeta. apply C81_surface_linear.
Qed.

(* With explicit coordinates one pixel apart, a shift by whole pixels copies the pixels, the
   border being repeated outside, and a quarter turn turns a square array. *)
Definition clip (n : nat) (z : Z) : nat := Z.to_nat (Z.max 0 (Z.min z (Z.of_nat n - 1))).
Lemma nearest_clip n z : (0 < n)%nat -> nearest n (qz z) = qnat (clip n z).
Proof.
  intros Hn. unfold nearest. destruct (Qclt_le_dec (qz z) 0) as [L|L].
  - unfold Qclt in L. rewrite this_qz in L. change (this 0) with (inject_Z 0) in L. rewrite <- Zlt_Qlt in L. replace (clip n z) with 0%nat by (unfold clip; lia). reflexivity.
  - unfold Qcle in L. rewrite this_qz in L. change (this 0) with (inject_Z 0) in L. rewrite <- Zle_Qle in L. destruct (Qclt_le_dec (qnat (n - 1)) (qz z)) as [M|M].
    + unfold Qclt in M. rewrite this_qz, this_nat, <- Zlt_Qlt in M. f_equal. unfold clip. lia.
    + unfold Qcle in M. rewrite this_qz, this_nat, <- Zle_Qle in M. unfold qz, qnat. do 2 f_equal. unfold clip. lia.
Qed.
Lemma clip_lt n z : (0 < n)%nat -> (clip n z < n)%nat. Proof. unfold clip. lia. Qed.
Lemma qz_add a b : qz (a + b) = qz a + qz b. Proof. apply Qc_iff. rewrite this_add, !this_qz, inject_Z_plus. reflexivity. Qed.
Theorem C81_copy r c outr outc yy xx (fy fx : nat -> nat -> Z) (rs cs : Z) v f :
  (0 < r)%nat -> (0 < c)%nat -> (0 < outr)%nat -> (0 < outc)%nat -> image (A:=qc) r c f v ->
  image (A:=qc) outr outc (fun a b => qz (fy a b)) yy -> image (A:=qc) outr outc (fun a b => qz (fx a b)) xx ->
  exists w, resample outr outc None (qz rs) (qz cs) 1 (Some yy) (Some xx) v = Ok w /\
    image (A:=qc) outr outc (fun a b => f (clip r (fy a b + rs)) (clip c (fx a b + cs))) w.
Proof.
  intros Hr Hc Hor Hoc Iv Iy Ix.
  destruct (C81_value r c outr outc None (qz rs) (qz cs) 1 (Some yy) (Some xx) (Some (fun a b => qz (fy a b), fun a b => qz (fx a b))) v f Hr Hc Hor Hoc) as (w & E & I); auto.
  { discriminate. } { exists yy, xx. auto. } { intros (_ & _ & _ & _ & _ & _ & H & _). discriminate. }
  exists w. split; [exact E|]. eapply (image_ext (A:=qc)); [exact I|]. intros a b _ _. cbv beta zeta. cbn [grid_of seen angle fst snd].
  replace ((qz (fx a b) - middle c) / 1 * 0 + (qz (fy a b) - middle r) / 1 * 1 + middle r + qz rs) with (qz (fy a b + rs)) by (rewrite qz_add; field; discriminate).
  replace ((qz (fx a b) - middle c) / 1 * 1 - (qz (fy a b) - middle r) / 1 * 0 + middle c + qz cs) with (qz (fx a b + cs)) by (rewrite qz_add; field; discriminate).
  rewrite !nearest_clip by assumption. apply C81_surface_pixel; now apply clip_lt.
Qed.
Theorem C81_quarter n yy xx v f : (0 < n)%nat -> image (A:=qc) n n f v ->
  image (A:=qc) n n (fun a _ => qnat a) yy -> image (A:=qc) n n (fun _ b => qnat b) xx ->
  exists w, resample n n (Some (0, 1)) 0 0 1 (Some yy) (Some xx) v = Ok w /\ image (A:=qc) n n (fun a b => f b (n - 1 - a)%nat) w.
Proof.
  intros Hn Iv Iy Ix.
  destruct (C81_value n n n n (Some (0, 1)) 0 0 1 (Some yy) (Some xx) (Some (fun a _ => qnat a, fun _ b => qnat b)) v f Hn Hn Hn Hn) as (w & E & I); auto.
  { discriminate. } { exists yy, xx. auto. } { intros (_ & _ & H & _). discriminate. }
  exists w. split; [exact E|]. eapply (image_ext (A:=qc)); [exact I|]. intros a b Ha Hb. cbv beta zeta. cbn [grid_of seen angle fst snd].
  replace ((qnat b - middle n) / 1 * 1 + (qnat a - middle n) / 1 * 0 + middle n + 0) with (qnat b) by (field; discriminate).
  replace ((qnat b - middle n) / 1 * 0 - (qnat a - middle n) / 1 * 1 + middle n + 0) with (qnat (n - 1 - a)).
  - rewrite !nearest_id; [apply C81_surface_pixel; lia| |]; (split; [change 0 with (qnat 0)|]; apply qnat_le; lia).
  - rewrite !qnat_sub by lia. change (qnat 1) with 1. unfold middle. field. split; discriminate.
Qed.

(* ------------------------------------------------------------------------------- kernels *)
(* The kernel reads from the array and at most the value after its end, *)
Definition row_order (r c : nat) (f : nat -> nat -> Qc) (mem : Z -> Qc) : Prop :=
  forall i j, (i < r)%nat -> (j < c)%nat -> mem (Z.of_nat (i * c + j)) = f i j.
Lemma floor_within n x : (0 < n)%nat -> within n x -> exists k, qfloor x = Z.of_nat k /\ (k < n)%nat /\ qz (qfloor x) = qnat k /\ 0 <= x - qnat k /\ x - qnat k < 1 /\ (S k = n -> x - qnat k = 0).
Proof.
  intros Hn [H0 H1]. pose proof (floor_nonneg x H0) as F0. pose proof (floor_bounds x) as [Fa Fb].
  assert (F1 : (qfloor x <= Z.of_nat n - 1)%Z).
  { unfold Qcle in H1. rewrite this_nat in H1. assert ((inject_Z (qfloor x) <= inject_Z (Z.of_nat (n - 1)))%Q) by lra. rewrite <- Zle_Qle in H. lia. }
  exists (Z.to_nat (qfloor x)). rewrite Z2Nat.id by exact F0. split; [reflexivity|]. split; [lia|].
  assert (K : qz (qfloor x) = qnat (Z.to_nat (qfloor x))) by (unfold qz, qnat; now rewrite Z2Nat.id by exact F0).
  split; [exact K|]. rewrite <- K. assert (Kq := this_qz (qfloor x)). split; [qc_prep; rewrite Kq; lra|]. split; [qc_prep; rewrite Kq; lra|].
  intros E. rewrite K. assert (X : Z.to_nat (qfloor x) = (n - 1)%nat) by lia. rewrite X. assert (x = qnat (n - 1)); [|subst x; ring].
  apply Qcle_antisym; [exact H1|]. rewrite <- X, <- K. unfold Qcle. rewrite Kq. exact Fa.
Qed.
Theorem C81_gpu_reads r c y x : (0 < r)%nat -> (0 < c)%nat ->
  forall k, In k (gpu_reads c r (nearest c x) (nearest r y)) -> (0 <= k <= Z.of_nat (r * c))%Z.
Proof.
  intros Hr Hc k. unfold gpu_reads. destruct (floor_within c _ Hc (nearest_within c x)) as (j & Ej & Hj & _). destruct (floor_within r _ Hr (nearest_within r y)) as (i & Ei & Hi & _).
  rewrite Ej, Ei. intros H. apply in_app_or in H. rewrite Nat2Z.inj_mul. destruct H as [[<-|[<-|[]]]|H]; [nia|nia|].
  destruct (Z.of_nat i + 1 <? Z.of_nat r)%Z eqn:L; [|destruct H]. apply Z.ltb_lt in L. destruct H as [<-|[<-|[]]]; nia.
Qed.
Lemma axis_floor n X j (g : nat -> Qc) : (0 < n)%nat -> within n X -> qfloor X = Z.of_nat j -> (j < n)%nat -> (S j = n -> X - qnat j = 0) ->
  sumn (A:=qc) n (fun b => g b * tent (X - qnat b)) = g j * (1 - (X - qnat j)) + (if Nat.ltb (S j) n then g (S j) else 0) * (X - qnat j).
Proof.
  intros Hn W Ej Hj Lj. rewrite (linear_tents n X g Hn W). destruct (Nat.eq_dec (S j) n) as [E|E].
  - assert (C : cell n X = Nat.min j (n - 2)) by (unfold cell; rewrite Ej; lia). rewrite C. replace (Nat.ltb (S j) n) with false by (symmetry; apply Nat.ltb_ge; lia).
    destruct (Nat.eq_dec n 1) as [C1|C1].
    + assert (j = 0%nat) by lia. subst j. replace (Nat.min 0 (n - 2)) with 0%nat by lia. rewrite (Lj E). qceq. ring.
    + replace (Nat.min j (n - 2)) with (n - 2)%nat by lia. assert (X - qnat (n - 2) = 1) as ->.
      { transitivity ((X - qnat j) + (qnat j - qnat (n - 2))); [ring|]. rewrite (Lj E). replace j with (S (n - 2)) by lia. rewrite qnat_S. ring. }
      rewrite (Lj E). replace (S (n - 2)) with j by lia. qceq. ring.
  - assert (C : cell n X = j) by (unfold cell; rewrite Ej; lia). rewrite C. replace (Nat.ltb (S j) n) with true by (symmetry; apply Nat.ltb_lt; lia). reflexivity.
Qed.
(* and computes the same surface as the CPU whatever that value is. *)
Theorem C81_gpu r c f mem y x : (0 < r)%nat -> (0 < c)%nat -> row_order r c f mem ->
  gpu_bilinear mem c r (nearest c x) (nearest r y) = surface r c f (nearest r y) (nearest c x).
Proof.
  intros Hr Hc M. pose proof (nearest_within c x) as Wx. pose proof (nearest_within r y) as Wy. set (X := nearest c x) in *. set (Y := nearest r y) in *. unfold gpu_bilinear.
  destruct (floor_within c X Hc Wx) as (j & Ej & Hj & Qj & Xj & X1 & Lj). destruct (floor_within r Y Hr Wy) as (i & Ei & Hi & Qi & Yi & Y1 & Li).
  cbv zeta. rewrite Qj, Qi, Ej, Ei. unfold surface.
  assert (AX : forall g : nat -> Qc, sumn (A:=qc) c (fun b => g b * tent (X - qnat b)) = g j * (1 - (X - qnat j)) + (if Nat.ltb (S j) c then g (S j) else 0) * (X - qnat j)) by (intros g; now apply axis_floor).
  assert (AY : forall g : nat -> Qc, sumn (A:=qc) r (fun b => g b * tent (Y - qnat b)) = g i * (1 - (Y - qnat i)) + (if Nat.ltb (S i) r then g (S i) else 0) * (Y - qnat i)) by (intros g; now apply axis_floor).
  symmetry. transitivity (sumn (A:=qc) r (fun a => (f a j * (1 - (X - qnat j)) + (if Nat.ltb (S j) c then f a (S j) else 0) * (X - qnat j)) * tent (Y - qnat a))).
  { apply (sumn_ext (A:=qc)). intros a _. rewrite <- (AX (fun b => f a b)). etransitivity; [|apply (sumn_scale_r qc qc_field)]. apply (sumn_ext (A:=qc)). intros b _. qceq. ring. }
  rewrite (AY (fun a => f a j * (1 - (X - qnat j)) + (if Nat.ltb (S j) c then f a (S j) else 0) * (X - qnat j))).
  replace (Z.of_nat i * Z.of_nat c + Z.of_nat j)%Z with (Z.of_nat (i * c + j)) by lia. rewrite (M i j Hi Hj).
  assert (Mb : forall a, (a < r)%nat -> mem (Z.of_nat a * Z.of_nat c + (Z.of_nat j + 1))%Z * (X - qnat j) = (if Nat.ltb (S j) c then f a (S j) else 0) * (X - qnat j)).
  { intros a Ha. destruct (Nat.ltb (S j) c) eqn:L.
    - apply Nat.ltb_lt in L. replace (Z.of_nat a * Z.of_nat c + (Z.of_nat j + 1))%Z with (Z.of_nat (a * c + S j)) by lia. now rewrite (M a (S j) Ha L).
    - apply Nat.ltb_ge in L. rewrite (Lj ltac:(lia)). ring. }
  destruct (Z.of_nat i + 1 <? Z.of_nat r)%Z eqn:L.
  - apply Z.ltb_lt in L. replace (Nat.ltb (S i) r) with true by (symmetry; apply Nat.ltb_lt; lia).
    replace ((Z.of_nat i + 1) * Z.of_nat c + Z.of_nat j)%Z with (Z.of_nat (S i * c + j)) by lia. rewrite (M (S i) j) by lia.
    assert (B0 := Mb i Hi). assert (B1 := Mb (S i) ltac:(lia)). replace (Z.of_nat (S i)) with (Z.of_nat i + 1)%Z in B1 by lia.
    set (m0 := mem (Z.of_nat i * _ + _)%Z) in *. set (m1 := mem ((Z.of_nat i + 1) * Z.of_nat c + (Z.of_nat j + 1))%Z) in *.
    set (p0 := if Nat.ltb (S j) c then f i (S j) else 0) in *. set (p1 := if Nat.ltb (S j) c then f (S i) (S j) else 0) in *.
    set (d := X - qnat j) in *. rewrite <- B0, <- B1. qceq. ring.
  - apply Z.ltb_ge in L. rewrite (Li ltac:(lia)). rewrite <- (Mb i Hi). qceq. ring.
Qed.
(* The coordinates that the other kernel computes by itself are those of the CPU. *)
Theorem C81_gpu_coords r c outr outc rot mag rs cs a b : (0 < r)%nat -> (0 < c)%nat -> mag <> 0 ->
  gpu_coords r c outr outc (angle rot) mag rs cs a b =
  let g := grid_of r c outr outc None a b in let p := seen r c (angle rot) mag rs cs (fst g) (snd g) in (nearest c (snd p), nearest r (fst p)).
Proof.
  intros Hr Hc Hm. unfold gpu_coords, grid_of, seen. cbv zeta. cbn [fst snd]. rewrite !limit_nearest, !centre_middle, !qz_pred by assumption. change qn with qnat.
  assert (D : forall t, (if is1 mag then t else t / mag) = t / mag). { intros t. destruct (is1 mag) eqn:E; [|reflexivity]. apply is1_true in E. subst mag. field. discriminate. }
  rewrite !D. destruct (angle rot) as [co si]. cbn [fst snd]. destruct (is1 co && is0 si) eqn:E; cbn [fst snd].
  - apply andb_true_iff in E as [E1 E2]. apply is1_true in E1. apply is0_true in E2. subst co si. f_equal; f_equal; ring.
  - f_equal; f_equal; ring.
Qed.

Definition pic : arr2 Qc := img [[1; 2; 3]; [4; 5; 6]; [7; 8; 9]]%Z.
Definition cols3 : arr2 Qc := img [[0; 1; 2]; [0; 1; 2]; [0; 1; 2]]%Z.
Definition rows3 : arr2 Qc := img [[0; 0; 0]; [1; 1; 1]; [2; 2; 2]]%Z.
Definition see3 (x : res (arr2 Qc)) : res (list (list Q)) := match x with Ok a => Ok (map (map this) (a_rows a)) | Err e => Err e end.
Example C81_example :
  see3 (resample 3 3 (Some (0, 1)) 0 0 1 (Some rows3) (Some cols3) pic) = Ok [[3; 6; 9]; [2; 5; 8]; [1; 4; 7]]%Q /\
  see3 (resample 3 3 None (qi 1) (qi 0) 1 (Some rows3) (Some cols3) pic) = Ok [[4; 5; 6]; [7; 8; 9]; [7; 8; 9]]%Q /\
  see3 (resample 2 4 None 0 0 1 None None pic) = Ok [[1; 3 # 2; 2; 5 # 2]; [4; 9 # 2; 5; 11 # 2]]%Q /\
  see3 (resample 3 3 None 0 0 (qi 2) (Some rows3) (Some cols3) pic) = Ok [[3; 7 # 2; 4]; [9 # 2; 5; 11 # 2]; [6; 13 # 2; 7]]%Q.
Proof. vm_compute. repeat split. Qed.
(* Claim: without coordinates, a shift by one pixel moves the pixels by one. *)
Theorem C81_shift_refuted : exists v w, shape_is 3 3 v = true /\ resample 3 3 None 0 1 1 None None v = Ok w /\ ent qc w 0 0 = ent qc v 0 1 /\ ent qc w 0 1 <> ent qc v 0 2.
Proof. exists pic. eexists. split; [reflexivity|]. split; [vm_compute; reflexivity|]. split; vm_compute; [reflexivity|discriminate]. Qed.
(* Claim: changing the number of pixels keeps the last pixel. *)
Theorem C81_last_refuted : exists v w, shape_is 3 3 v = true /\ resample 6 6 None 0 0 1 None None v = Ok w /\ ent qc w 0 0 = ent qc v 0 0 /\ ent qc w 5 5 <> ent qc v 2 2.
Proof. exists pic. eexists. split; [reflexivity|]. split; [vm_compute; reflexivity|]. split; vm_compute; [reflexivity|discriminate]. Qed.
(* Claim: the kernel reads only from the array. *)
Theorem C81_gpu_reads_refuted : exists r c y x, (0 < r)%nat /\ (0 < c)%nat /\ In (Z.of_nat (r * c)) (gpu_reads c r (nearest c x) (nearest r y)).
Proof. exists 2%nat, 2%nat, 1, 1. split; [lia|]. split; [lia|]. vm_compute. tauto. Qed.

Print Assumptions C81_value.
Print Assumptions C81_identity.
Print Assumptions C81_shape.
Print Assumptions C81_grid_shape.
Print Assumptions C81_surface_pixel.
Print Assumptions C81_surface_linear.
Print Assumptions C81_surface_between.
Print Assumptions C81_between.
Print Assumptions C81_linear.
Print Assumptions C81_copy.
Print Assumptions C81_quarter.
Print Assumptions C81_gpu_reads.
Print Assumptions C81_gpu.
Print Assumptions C81_gpu_coords.
Print Assumptions C81_shift_refuted.
Print Assumptions C81_last_refuted.
Print Assumptions C81_gpu_reads_refuted.
