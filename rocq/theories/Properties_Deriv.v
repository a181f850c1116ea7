(* C114: slopes from the differences of the phase (IdealDerivativeSensor). *)
From Coq Require Import List ZArith Bool Arith Lia Lqa QArith Qcanon.
From Verif Require Import PyBase PyLemmas OpticalModel ExtModel QcTac DerivModel DerivSpec DerivProofs.
Import ListNotations.
Local Open Scope Qc_scope.

Theorem C114_init unit nx np m pitch fov :
  sensor_init unit nx np m pitch fov =
    if Qclt_le_dec 0 fov then
      if Nat.eq_dec np 0 then Err ZeroDivisionError
      else if Qc_eq_dec pitch 0 then Err ZeroDivisionError
      else Ok (mkS nx m (unit * q2 / (pitch * fov) * (1 - 1 / num np)))
    else Err ValueError.
Proof.
  unfold sensor_init. unfold qlt. destruct (Qclt_le_dec 0 fov) as [F|F]; cbn [negb]; [|reflexivity]. destruct (Nat.eqb_spec np 0) as [->|N]; [reflexivity|]. destruct (Nat.eq_dec np 0) as [|_]; [contradiction|].
  assert (Fn : fov <> 0) by (intros ->; discriminate). assert (Np : num np <> 0) by (apply qcount_neq; lia). destruct (Qc_eq_dec pitch 0) as [->|P].
  - replace (is0 (0 * fov / q2)) with true; [reflexivity|]. symmetry. apply is0_true. field. discriminate.
  - assert (Q : q2 <> 0) by discriminate. replace (is0 (pitch * fov / q2)) with false.
    + do 2 f_equal. change (qcount np) with (num np). field. repeat split; assumption.
    + symmetry. apply is0_false. intros E. assert (G : pitch * fov = 0) by (replace (pitch * fov) with (pitch * fov / q2 * q2) by (field; exact Q); rewrite E; ring). destruct (Qcmult_integral _ _ G); contradiction.
Qed.
Print Assumptions C114_init.
Example C114_init_example : sensor_init 1 2 4 [0%nat] q2 1 = Ok (mkS 2 [0%nat] (Q2Qc (3 # 4))) /\ sensor_init 1 2 4 [0%nat] q2 0 = Err ValueError /\ sensor_init 1 2 0 [0%nat] q2 1 = Err ZeroDivisionError.
Proof. repeat split; reflexivity. Qed.

Theorem C114_setup s rows cols : setup s rows cols = Ok tt <-> (0 < s_nx s)%nat /\ forall k r c, In k (s_map s) -> in_block (s_nx s) (rows / s_nx s) k r c -> (r < rows /\ c < cols)%nat.
Proof.
  unfold setup. destruct (Nat.eqb_spec (s_nx s) 0) as [E|E]; [split; [discriminate|lia]|]. destruct (forallb _ (s_map s)) eqn:B.
  - split; [|reflexivity]. intros _. split; [lia|]. intros k r c Hk Hb. rewrite forallb_forall in B. assert (B' := B k Hk). rewrite forallb_forall in B'. apply (block_in s rows k (r, c)) in Hb; [|lia]. apply B' in Hb. cbn [fst snd] in Hb. apply andb_true_iff in Hb. rewrite !Nat.ltb_lt in Hb. exact Hb.
  - split; [discriminate|]. intros [H1 H2]. exfalso. assert (T : forallb (fun k => forallb (fun rc => (fst rc <? rows) && (snd rc <? cols))%nat (block s rows k)) (s_map s) = true); [|congruence].
    apply forallb_forall. intros k Hk. apply forallb_forall. intros rc Hr. apply block_in in Hr; [|lia]. apply andb_true_iff. rewrite !Nat.ltb_lt. now apply (H2 k).
Qed.
Print Assumptions C114_setup.
Theorem C114_setup_errors s rows cols : setup s rows cols <> Ok tt -> setup s rows cols = if (s_nx s =? 0)%nat then Err ZeroDivisionError else Err ValueError.
Proof. unfold setup. destruct (s_nx s =? 0)%nat; [reflexivity|]. destruct (forallb _ _); intros H; [now destruct H|reflexivity]. Qed.
Print Assumptions C114_setup_errors.
Corollary C114_square s n : (0 < s_nx s)%nat -> (forall k, In k (s_map s) -> (k < s_nx s * s_nx s)%nat) -> setup s n n = Ok tt.
Proof.
  intros H M. apply C114_setup. split; [exact H|]. intros k r c Hk (A & B). specialize (M k Hk). assert (D : (s_nx s * (n / s_nx s) <= n)%nat) by (apply Nat.mul_div_le; lia).
  assert (K1 : (k / s_nx s < s_nx s)%nat) by (apply Nat.div_lt_upper_bound; lia). assert (K2 : (k mod s_nx s < s_nx s)%nat) by (apply Nat.mod_upper_bound; lia). split; nia.
Qed.
Print Assumptions C114_square.
(* different sub-apertures have no pixel in common *)
Theorem C114_disjoint nx n k k' r c : (0 < nx)%nat -> in_block nx n k r c -> in_block nx n k' r c -> k = k'.
Proof.
  intros H (A & B) (A' & B'). assert (E1 : (k / nx = k' / nx)%nat) by nia. assert (E2 : (k mod nx = k' mod nx)%nat) by nia. rewrite (Nat.div_mod k nx), (Nat.div_mod k' nx) by lia. now rewrite E1, E2.
Qed.
Print Assumptions C114_disjoint.
(* a position outside the grid may be accepted *)
Theorem C114_outside_refuted : exists s n k, In k (s_map s) /\ (s_nx s * s_nx s <= k)%nat /\ setup s n n = Ok tt.
Proof. exists (mkS 2 [4%nat] 1), 3%nat, 4%nat. split; [now left|]. split; [cbn; lia|reflexivity]. Qed.
Print Assumptions C114_outside_refuted.

Theorem C114_errors s rows cols phase lit : (exists v, trigger s rows cols phase lit = Ok v) <-> (2 <= rows)%nat /\ (2 <= cols)%nat /\ s_map s <> [].
Proof.
  split.
  - intros [v H]. unfold trigger in H. destruct (Nat.ltb_spec rows 2); [discriminate|]. destruct (Nat.ltb_spec cols 2); [discriminate|]. cbn [orb] in H. destruct (s_map s); [discriminate|]. repeat split; try assumption. discriminate.
  - intros (R & C & M). rewrite trigger_unfold by assumption. now eexists.
Qed.
Print Assumptions C114_errors.
Theorem C114_error_kind s rows cols phase lit e : trigger s rows cols phase lit = Err e -> e = ValueError.
Proof. unfold trigger. destruct ((rows <? 2) || (cols <? 2))%nat; [congruence|]. destruct (s_map s); congruence. Qed.
Print Assumptions C114_error_kind.

Section Frame.
Variables (s : sensor) (rows cols : nat).
Hypothesis Hset : setup s rows cols = Ok tt.
Let blk := in_block (s_nx s) (rows / s_nx s).
Lemma inside k r c : In k (s_map s) -> In (r, c) (block s rows k) -> (r < rows /\ c < cols)%nat.
Proof. intros K B. apply C114_setup in Hset. destruct Hset as [P H]. apply block_in in B; [|exact P]. now apply (H k). Qed.
Lemma blk_iff k r c : In (r, c) (block s rows k) <-> blk k r c.
Proof. apply (block_in s rows k (r, c)). apply C114_setup in Hset. apply Hset. Qed.
Lemma results phase lit sx sy : trigger s rows cols phase lit = Ok (sx, sy) -> (2 <= rows)%nat /\ (2 <= cols)%nat /\ s_map s <> [] /\
  sx = map (slope s rows (ddx cols phase lit) (ddy rows phase lit) (ddx cols phase lit)) (s_map s) /\ sy = map (slope s rows (ddx cols phase lit) (ddy rows phase lit) (ddy rows phase lit)) (s_map s).
Proof. intros H. destruct (proj1 (C114_errors s rows cols phase lit) (ex_intro _ _ H)) as (R & C & M). rewrite trigger_unfold in H by assumption. injection H as <- <-. auto. Qed.
Lemma nth_map' f i : (i < length (s_map s))%nat -> nth i (map f (s_map s)) 0 = f (nth i (s_map s) 0%nat).
Proof. intros H. rewrite (nth_indep _ 0 (f 0%nat)) by (rewrite map_length; exact H). apply map_nth. Qed.

Theorem C114_lengths phase lit sx sy : trigger s rows cols phase lit = Ok (sx, sy) -> length sx = length (s_map s) /\ length sy = length (s_map s).
Proof. intros H. apply results in H. destruct H as (_ & _ & _ & -> & ->). now rewrite !map_length. Qed.
(* dark sub-apertures *)
Theorem C114_dark phase lit sx sy i : trigger s rows cols phase lit = Ok (sx, sy) -> (i < length (s_map s))%nat -> (forall r c, blk (nth i (s_map s) 0%nat) r c -> lit r c = false) -> nth i sx 0 = 0 /\ nth i sy 0 = 0.
Proof.
  intros H Hi D. apply results in H. destruct H as (_ & _ & _ & -> & ->). rewrite !nth_map' by exact Hi.
  split; apply slope_zero; intros [r c] B; apply blk_iff in B; unfold ddx, ddy; cbn [fst snd]; rewrite (D r c B); split; reflexivity.
Qed.
(* inclinations are measured exactly *)
Theorem C114_plane a b c phase lit sx sy i r0 c0 : trigger s rows cols phase lit = Ok (sx, sy) -> (forall r col, (r < rows)%nat -> (col < cols)%nat -> phase r col = plane a b c r col) ->
  (i < length (s_map s))%nat -> blk (nth i (s_map s) 0%nat) r0 c0 -> lit r0 c0 = true -> nth i sx 0 = b * s_factor s /\ nth i sy 0 = c * s_factor s.
Proof.
  intros H P Hi B0 L0. apply results in H. destruct H as (R & C & _ & -> & ->). rewrite !nth_map' by exact Hi. set (k := nth i (s_map s) 0%nat) in *.
  assert (K : In k (s_map s)) by (apply nth_In; exact Hi).
  assert (Dx : forall rc, In rc (block s rows k) -> ddx cols phase lit rc = masked (lit (fst rc) (snd rc)) b).
  { intros [r c1] B. destruct (inside k r c1 K B) as [G1 G2]. unfold ddx. cbn [fst snd]. f_equal. apply (gradient_plane cols _ (a + c * num r)); try assumption. intros j Hj. rewrite P by assumption. unfold plane. ring. }
  assert (Dy : forall rc, In rc (block s rows k) -> ddy rows phase lit rc = masked (lit (fst rc) (snd rc)) c).
  { intros [r c1] B. destruct (inside k r c1 K B) as [G1 G2]. unfold ddy. cbn [fst snd]. f_equal. apply (gradient_plane rows _ (a + b * num c1)); try assumption. intros j Hj. rewrite P by assumption. unfold plane. ring. }
  assert (Z0 : (b = 0 /\ c = 0) \/ ~ (b = 0 /\ c = 0)) by (destruct (Qc_eq_dec b 0), (Qc_eq_dec c 0); tauto). destruct Z0 as [[-> ->]|Z0].
  { split; (rewrite slope_zero; [ring|]); intros rc Hr; rewrite Dx, Dy by exact Hr; destruct (lit (fst rc) (snd rc)); split; reflexivity. }
  set (v := filter (vld (ddx cols phase lit) (ddy rows phase lit)) (block s rows k)).
  assert (V : forall rc, In rc v -> ddx cols phase lit rc = b /\ ddy rows phase lit rc = c).
  { intros rc Hr. unfold v in Hr. apply filter_In in Hr. destruct Hr as [Hr T]. unfold vld in T. rewrite Dx, Dy in * by exact Hr. destruct (lit (fst rc) (snd rc)); [split; reflexivity|]. cbn in T. discriminate. }
  assert (N : (0 < length v)%nat). { assert (In (r0, c0) v); [|destruct v; [now destruct H|cbn; lia]]. unfold v. apply filter_In. apply blk_iff in B0. split; [exact B0|]. unfold vld. rewrite Dx, Dy by exact B0. cbn [fst snd]. rewrite L0. cbn [masked]. apply negb_true_iff, andb_false_iff. rewrite !is0_false. destruct (Qc_eq_dec b 0); [right; tauto|now left]. }
  unfold slope. fold v. replace (length v =? 0)%nat with false by (symmetry; apply Nat.eqb_neq; lia).
  rewrite (qsum_const (ddx cols phase lit) b v) by (intros; now apply V). rewrite (qsum_const (ddy rows phase lit) c v) by (intros; now apply V). split; field; now apply qcount_neq.
Qed.
(* a constant added to the phase changes nothing *)
Theorem C114_piston a phase phase' lit : (forall r c, phase' r c = a + phase r c) -> trigger s rows cols phase' lit = trigger s rows cols phase lit.
Proof.
  intros H. unfold trigger. destruct ((rows <? 2) || (cols <? 2))%nat; [reflexivity|]. destruct (s_map s) as [|k0 m]; [reflexivity|].
  assert (Dx : forall rc, ddx cols phase' lit rc = ddx cols phase lit rc) by (intros [r c]; unfold ddx; cbn [fst snd]; f_equal; apply (gradient_shift cols _ _ a); intros; apply H).
  assert (Dy : forall rc, ddy rows phase' lit rc = ddy rows phase lit rc) by (intros [r c]; unfold ddy; cbn [fst snd]; f_equal; apply (gradient_shift rows (fun r => phase r c) (fun r => phase' r c) a); intros; apply H).
  f_equal. f_equal; apply map_ext; intros k; apply (slope_ext s rows (ddx cols phase' lit) (ddy rows phase' lit) _ (ddx cols phase lit) (ddy rows phase lit)); intros rc _; rewrite ?Dx, ?Dy; repeat split; try apply Dx; apply Dy.
Qed.
(* a multiple of the phase has the multiple of the slopes *)
Theorem C114_scale a phase phase' lit sx sy : (forall r c, phase' r c = a * phase r c) -> trigger s rows cols phase lit = Ok (sx, sy) -> trigger s rows cols phase' lit = Ok (map (Qcmult a) sx, map (Qcmult a) sy).
Proof.
  intros H T. apply results in T. destruct T as (R & C & M & -> & ->). rewrite trigger_unfold by assumption. rewrite !map_map.
  assert (Dx : forall rc, ddx cols phase' lit rc = a * ddx cols phase lit rc) by (intros [r c]; unfold ddx; cbn [fst snd]; rewrite <- masked_scale; f_equal; apply gradient_scale; intros; apply H).
  assert (Dy : forall rc, ddy rows phase' lit rc = a * ddy rows phase lit rc) by (intros [r c]; unfold ddy; cbn [fst snd]; rewrite <- masked_scale; f_equal; apply (gradient_scale rows (fun r => phase r c)); intros; apply H).
  assert (G : forall d d', (forall rc, d' rc = a * d rc) -> forall k, slope s rows (ddx cols phase' lit) (ddy rows phase' lit) d' k = a * slope s rows (ddx cols phase lit) (ddy rows phase lit) d k).
  { intros d d' E k. destruct (Qc_eq_dec a 0) as [->|Na].
    - rewrite slope_zero; [ring|]. intros rc _. rewrite Dx, Dy. split; ring.
    - unfold slope. replace (filter (vld (ddx cols phase' lit) (ddy rows phase' lit)) (block s rows k)) with (filter (vld (ddx cols phase lit) (ddy rows phase lit)) (block s rows k)).
      + set (v := filter _ _). destruct (Nat.eqb_spec (length v) 0) as [|N]; [ring|]. rewrite (qsum_scale d' d a v) by (intros; apply E). field. apply qcount_neq. lia.
      + apply filter_ext. intros rc. unfold vld. now rewrite Dx, Dy, !is0_scale. }
  f_equal. f_equal; apply map_ext; intros k; apply G; assumption.
Qed.
(* the slopes of a sub-aperture depend on the phase of its pixels and of those beside them *)
Theorem C114_local phase phase' lit sx sy sx' sy' i : trigger s rows cols phase lit = Ok (sx, sy) -> trigger s rows cols phase' lit = Ok (sx', sy') -> (i < length (s_map s))%nat ->
  (forall r c r' c', blk (nth i (s_map s) 0%nat) r c -> (r' <= r + 1 /\ r <= r' + 1 /\ c' = c)%nat \/ (r' = r /\ c' <= c + 1 /\ c <= c' + 1)%nat -> phase r' c' = phase' r' c') ->
  nth i sx 0 = nth i sx' 0 /\ nth i sy 0 = nth i sy' 0.
Proof.
  intros T T' Hi H. apply results in T. destruct T as (R & C & M & -> & ->). apply results in T'. destruct T' as (_ & _ & _ & -> & ->). rewrite !nth_map' by exact Hi. set (k := nth i (s_map s) 0%nat) in *.
  assert (K : In k (s_map s)) by (apply nth_In; exact Hi).
  assert (Dx : forall rc, In rc (block s rows k) -> ddx cols phase lit rc = ddx cols phase' lit rc).
  { intros [r c] B. destruct (inside k r c K B) as [G1 G2]. unfold ddx. cbn [fst snd]. f_equal. apply gradient_local; try assumption. intros j J1 J2 J3. apply (H r c); [now apply blk_iff|right; lia]. }
  assert (Dy : forall rc, In rc (block s rows k) -> ddy rows phase lit rc = ddy rows phase' lit rc).
  { intros [r c] B. destruct (inside k r c K B) as [G1 G2]. unfold ddy. cbn [fst snd]. f_equal. apply (gradient_local rows (fun r => phase r c) (fun r => phase' r c)); try assumption. intros j J1 J2 J3. apply (H r c); [now apply blk_iff|left; lia]. }
  split; apply slope_ext; intros rc Hr; auto.
Qed.
(* mean of the gradients, when none of the lit pixels has a zero gradient *)
Theorem C114_mean phase lit sx sy i : trigger s rows cols phase lit = Ok (sx, sy) -> (i < length (s_map s))%nat ->
  let l := filter (fun rc => lit (fst rc) (snd rc)) (block s rows (nth i (s_map s) 0%nat)) in
  let gx := fun rc : nat * nat => gradient cols (fun c => phase (fst rc) c) (snd rc) in
  let gy := fun rc : nat * nat => gradient rows (fun r => phase r (snd rc)) (fst rc) in
  (forall rc, In rc l -> gx rc <> 0 \/ gy rc <> 0) -> l <> [] ->
  nth i sx 0 = over gx l / num (length l) * s_factor s /\ nth i sy 0 = over gy l / num (length l) * s_factor s.
Proof.
  intros T Hi l gx gy H L. apply results in T. destruct T as (R & C & M & -> & ->). rewrite !nth_map' by exact Hi. fold (s_map s). set (k := nth i (s_map s) 0%nat) in *. unfold slope.
  replace (filter (vld (ddx cols phase lit) (ddy rows phase lit)) (block s rows k)) with l.
  - replace (length l =? 0)%nat with false by (destruct l; [now destruct L|reflexivity]).
    assert (D : forall rc, In rc l -> ddx cols phase lit rc = gx rc /\ ddy rows phase lit rc = gy rc). { intros rc Hr. unfold l in Hr. apply filter_In in Hr. unfold ddx, ddy. rewrite (proj2 Hr). split; reflexivity. }
    rewrite (map_ext_in (ddx cols phase lit) gx l) by (intros; now apply D). rewrite (map_ext_in (ddy rows phase lit) gy l) by (intros; now apply D). rewrite !qsum_over. split; reflexivity.
  - unfold l. apply filter_ext_in. intros rc Hr. unfold vld, ddx, ddy. destruct (lit (fst rc) (snd rc)) eqn:E; [|reflexivity]. cbn [masked]. symmetry. apply negb_true_iff, andb_false_iff. rewrite !is0_false. apply H. unfold l. now apply filter_In.
Qed.
(* never beyond the gradients *)
Theorem C114_bounds phase lit sx sy i b : trigger s rows cols phase lit = Ok (sx, sy) -> (i < length (s_map s))%nat -> 0 <= s_factor s -> 0 <= b ->
  (forall r c, blk (nth i (s_map s) 0%nat) r c -> lit r c = true -> - b <= gradient cols (fun c => phase r c) c <= b) -> - (b * s_factor s) <= nth i sx 0 <= b * s_factor s.
Proof.
  intros T Hi F Hb H. apply results in T. destruct T as (R & C & M & -> & _). rewrite !nth_map' by exact Hi. set (k := nth i (s_map s) 0%nat) in *. unfold slope. set (v := filter _ _).
  assert (P : 0 <= b * s_factor s) by (replace 0 with (0 * s_factor s) by ring; now apply Qcmult_le_compat_r).
  destruct (Nat.eqb_spec (length v) 0) as [E|E]; [split; [|exact P]; replace 0 with (- 0) by ring; now apply Qcopp_le_compat|].
  assert (B : forall rc, In rc v -> - b <= ddx cols phase lit rc <= b).
  { intros [r c] Hr. unfold v in Hr. apply filter_In in Hr. destruct Hr as [Hr _]. unfold ddx. cbn [fst snd]. destruct (lit r c) eqn:L; cbn [masked]; [apply H; [now apply blk_iff|exact L]|]. split; [replace 0 with (- 0) by ring; now apply Qcopp_le_compat|exact Hb]. }
  assert (Pn := qcount_pos (length v) ltac:(lia)). assert (Nn := qcount_neq (length v) ltac:(lia)).
  assert (U := qsum_le (ddx cols phase lit) (fun _ => b) v (fun p Hp => proj2 (B p Hp))). rewrite (qsum_const (fun _ => b) b v) in U by reflexivity.
  assert (W := qsum_le (fun _ => - b) (ddx cols phase lit) v (fun p Hp => proj1 (B p Hp))). rewrite (qsum_const (fun _ => - b) (- b) v) in W by reflexivity.
  set (q := qsum _) in *. set (n := qcount _) in *.
  assert (I : 0 <= / n). { apply Qclt_le_weak. destruct (Qclt_le_dec 0 (/ n)) as [X|X]; [exact X|]. exfalso. assert (Y : / n * n <= 0 * n) by (apply Qcmult_le_compat_r; [exact X|now apply Qclt_le_weak]). rewrite Qcmult_comm, Qcmult_inv_r in Y by exact Nn. revert Y. apply Qclt_not_le. replace (0 * n) with 0 by ring. reflexivity. }
  assert (U' : q / n <= b) by (apply (Qcle_trans _ (n * b * / n)); [unfold Qcdiv; now apply Qcmult_le_compat_r|]; replace (n * b * / n) with b by (field; exact Nn); apply Qcle_refl).
  assert (W' : - b <= q / n) by (apply (Qcle_trans _ (n * - b * / n)); [replace (n * - b * / n) with (- b) by (field; exact Nn); apply Qcle_refl|unfold Qcdiv; now apply Qcmult_le_compat_r]).
  split; [replace (- (b * s_factor s)) with (- b * s_factor s) by ring|]; now apply Qcmult_le_compat_r.
Qed.
End Frame.
Print Assumptions C114_lengths.
Print Assumptions C114_dark.
Print Assumptions C114_plane.
Print Assumptions C114_piston.
Print Assumptions C114_scale.
Print Assumptions C114_local.
Print Assumptions C114_mean.
Print Assumptions C114_bounds.

(* a phase with a flat corner *)
Definition corner (r c : nat) : Qc := if ((r =? 1) && (c =? 1))%nat then 1 else 0.
Definition ramp (r c : nat) : Qc := num c.
Definition one := mkS 1 [0%nat] 1.
Example C114_plane_example : trigger one 2 2 ramp (fun _ _ => true) = Ok ([1], [0]) /\ setup one 2 2 = Ok tt.
Proof. split; [|reflexivity]. unfold trigger. cbn. repeat f_equal; apply Qc_is_canon; reflexivity. Qed.
Lemma corner_slopes : trigger one 2 2 corner (fun _ _ => true) = Ok ([Q2Qc (2 # 3)], [Q2Qc (2 # 3)]).
Proof. unfold trigger. cbn. repeat f_equal; apply Qc_is_canon; reflexivity. Qed.
(* the slopes are not the means of the gradients over the lit pixels: pixels with a zero gradient are left out *)
Theorem C114_mean_refuted : exists s n phase sx sy, trigger s n n phase (fun _ _ => true) = Ok (sx, sy) /\ setup s n n = Ok tt /\
  nth 0 sx 0 <> over (fun rc => gradient n (fun c => phase (fst rc) c) (snd rc)) (block s n 0) / num (length (block s n 0)) * s_factor s.
Proof. exists one, 2%nat, corner. do 2 eexists. split; [apply corner_slopes|]. split; [reflexivity|]. cbn [nth]. intros E. apply (f_equal this) in E. vm_compute in E. discriminate. Qed.
Print Assumptions C114_mean_refuted.
(* hence they are not linear *)
Theorem C114_additive_refuted : exists s n p p' a b c, trigger s n n p (fun _ _ => true) = Ok a /\ trigger s n n p' (fun _ _ => true) = Ok b /\ trigger s n n (fun r c => p r c + p' r c) (fun _ _ => true) = Ok c /\
  nth 0 (fst c) 0 <> nth 0 (fst a) 0 + nth 0 (fst b) 0.
Proof.
  exists one, 2%nat, corner, ramp. do 2 eexists. exists ([Q2Qc (3 # 2)], [Q2Qc (1 # 2)]). split; [apply corner_slopes|]. split; [apply C114_plane_example|]. split.
  - unfold trigger. cbn. repeat f_equal; apply Qc_is_canon; reflexivity.
  - cbn [nth fst]. intros E. apply (f_equal this) in E. vm_compute in E. discriminate.
Qed.
Print Assumptions C114_additive_refuted.
(* a geometry with one pixel per sub-aperture measures nothing *)
Theorem C114_one_pixel_refuted : exists s, sensor_init 1 1 1 [0%nat] 1 1 = Ok s /\ setup s 2 2 = Ok tt /\ trigger s 2 2 ramp (fun _ _ => true) = Ok ([0], [0]).
Proof. eexists. split; [reflexivity|]. split; [reflexivity|]. unfold trigger. cbn. repeat f_equal; apply Qc_is_canon; reflexivity. Qed.
Print Assumptions C114_one_pixel_refuted.
