From Coq Require Import List ZArith Bool Arith Lia Lqa QArith Qcanon.
From Verif Require Import PyBase PyLemmas Arith ArithLemmas FilterSpec SumLemmas OpticalModel ExtModel QcTac NpModel NpProofs FitsModel FitsSpec RebinModel RebinSpec RebinProofs CutSpec CutProofs VecModel SlopecModel SlopecSpec SlopecProofs ShProofs FieldModel FieldSpec FieldProofs InterpModel InterpSpec InterpProofs PolyModel PolySpec.
Import ListNotations.
Local Open Scope Qc_scope.

Ltac qring := match goal with |- ?a = ?b => change (@eq Qc a b) end; cbn [add mul sub qc zer one]; ring.
Lemma repeat_map {V} (x : V) m : repeat x m = map (fun _ => x) (seq 0 m).
Proof. rewrite <- (seq_length m 0) at 1. generalize (seq 0 m). induction l; cbn; congruence. Qed.
Lemma qnat_nz m : (0 < m)%nat -> qnat m <> 0.
Proof. intros H. now apply Qc_pos_neq, qnat_pos. Qed.
Definition cc (n : nat) (p : Qc) (k : nat) : Qc := (qnat k - middle n) * ((1 + 1) * p / qnat n).
Lemma grid n p : (2 <= n)%nat -> make_xy n p false false false =
  Ok (map (fun _ => map (cc n p) (seq 0 n)) (seq 0 n), map (fun a => map (fun _ => cc n p a) (seq 0 n)) (seq 0 n)).
Proof.
  intros Hn. assert (N0 : qnat n <> 0) by (apply qnat_nz; lia).
  unfold make_xy, make_axis. replace (n <=? 1)%nat with false by (symmetry; apply Nat.leb_gt; lia). cbn [bind andb].
  unfold axis. cbn [andb]. rewrite andb_false_r. rewrite map_length, seq_length.
  assert (E : map (fun i => (qn i - half (Z.of_nat n - 1)) / half (Z.of_nat n) * p) (seq 0 n) = map (cc n p) (seq 0 n)).
  { apply map_ext. intros i. rewrite half_nat, half_pred by lia. rewrite qn_qnat. unfold cc, middle. field. split; [exact N0|]. discriminate. }
  rewrite E. rewrite repeat_map. do 2 f_equal. rewrite map_map. apply map_ext. intros a. now rewrite repeat_map.
Qed.

(* largest size *)
Lemma qmax_cases a b : (qmax a b = a /\ b <= a) \/ (qmax a b = b /\ a <= b).
Proof. unfold qmax. destruct (qlt a b) eqn:E; [right|left]; (split; [reflexivity|]); qclra. Qed.
Lemma qmin_cases a b : (qmin a b = a /\ a <= b) \/ (qmin a b = b /\ b <= a).
Proof. unfold qmin. destruct (qlt b a) eqn:E; [right|left]; (split; [reflexivity|]); qclra. Qed.
Lemma fold_qmax r x : In (fold_left qmax r x) (x :: r) /\ forall y, In y (x :: r) -> y <= fold_left qmax r x.
Proof.
  revert x. induction r as [|a r IH]; intros x; cbn [fold_left].
  - split; [now left|]. intros y [->|[]]. apply Qcle_refl.
  - destruct (IH (qmax x a)) as [I L]. split.
    + destruct I as [I|I]; [|now right; right]. rewrite <- I. destruct (qmax_cases x a) as [[-> _]|[-> _]]; [now left|now right; left].
    + intros y Hy. assert (H : qmax x a <= fold_left qmax r (qmax x a)) by (apply L; now left).
      destruct (qmax_cases x a) as [[E M]|[E M]]; destruct Hy as [->|[->|Hy]]; try (apply L; now right); rewrite E in H at 1; try exact H; eapply Qcle_trans; eassumption.
Qed.
Lemma fold_qmin r x : In (fold_left qmin r x) (x :: r) /\ forall y, In y (x :: r) -> fold_left qmin r x <= y.
Proof.
  revert x. induction r as [|a r IH]; intros x; cbn [fold_left].
  - split; [now left|]. intros y [->|[]]. apply Qcle_refl.
  - destruct (IH (qmin x a)) as [I L]. split.
    + destruct I as [I|I]; [|now right; right]. rewrite <- I. destruct (qmin_cases x a) as [[-> _]|[-> _]]; [now left|now right; left].
    + intros y Hy. assert (H : fold_left qmin r (qmin x a) <= qmin x a) by (apply L; now left).
      destruct (qmin_cases x a) as [[E M]|[E M]]; destruct Hy as [->|[->|Hy]]; try (apply L; now right); rewrite E in H at 2; try exact H; eapply Qcle_trans; eassumption.
Qed.
Lemma qabs_cases a : (qabs a = a /\ 0 <= a) \/ (qabs a = - a /\ a < 0).
Proof. unfold qabs. destruct (qlt a 0) eqn:E; [right|left]; (split; [reflexivity|]); qclra. Qed.
Lemma reach_ok g M : (forall x, In x (concat g) -> - M <= x <= M) -> In M (concat g) -> 0 <= M -> reach g = Ok M.
Proof.
  intros B I P. unfold reach. destruct (concat g) as [|x r]; [destruct I|]. f_equal.
  destruct (fold_qmax r x) as [I1 L1]. destruct (fold_qmin r x) as [I2 L2].
  assert (A1 := B _ I1). assert (A2 := B _ I2). assert (A3 := L1 _ I). assert (A4 := L2 _ I).
  destruct A1, A2. set (u := fold_left qmax r x) in *. set (v := fold_left qmin r x) in *.
  assert (U : u = M) by (apply Qcle_antisym; assumption). rewrite U.
  destruct (qabs_cases M) as [[-> _]|[_ N]]; [|exfalso; qclra].
  destruct (qabs_cases v) as [[E _]|[E _]]; destruct (qmax_cases M (qabs v)) as [[-> _]|[-> HH]]; try reflexivity; rewrite E in *; qclra.
Qed.

Lemma this_qn k : (this (qnat k) == inject_Z (Z.of_nat k))%Q. Proof. unfold qnat. apply this_q. Qed.
Lemma scaled_le x y z : 0 <= z -> x <= y -> x * z <= y * z.
Proof. intros. now apply Qcmult_le_compat_r. Qed.
Lemma cc_reach n p : (2 <= n)%nat -> 0 < p -> forall k, (k < n)%nat -> - cc n p (n - 1) <= cc n p k <= cc n p (n - 1).
Proof.
  intros Hn Hp k Hk. set (s := (1 + 1) * p / qnat n).
  assert (S : 0 <= s).
  { assert (Q : 0 < qnat n) by (apply qnat_pos; lia). unfold s, Qcdiv. apply Qcle_trans with (0 * / qnat n); [rewrite Qcmult_0_l; apply Qcle_refl|].
    apply Qcmult_le_compat_r; [qclra|]. assert (I : qnat n * / qnat n = 1) by (apply Qcmult_inv_r, qnat_nz; lia).
    destruct (Qclt_le_dec (/ qnat n) 0) as [N|N]; [|exact N]. exfalso. assert (G : / qnat n * qnat n <= 0 * qnat n) by (apply Qcmult_le_compat_r; qclra).
    rewrite Qcmult_comm, I, Qcmult_0_l in G. revert G. vm_compute. intros G; now apply G. }
  assert (K : qnat k <= qnat (n - 1)) by (apply qnat_le; lia).
  assert (Z : 0 <= qnat k) by apply qnat_ge.
  assert (N1 : qnat (n - 1) = qnat n - 1) by (rewrite ShProofs.qnat_sub by lia; reflexivity).
  assert (M : middle n * (1 + 1) = qnat n - 1) by (unfold middle; field; discriminate).
  unfold cc. fold s. split.
  - replace (- ((qnat (n - 1) - middle n) * s)) with ((middle n - qnat (n - 1)) * s) by ring. apply scaled_le; [exact S|]. rewrite N1 in *. qclra.
  - apply scaled_le; [exact S|]. qclra.
Qed.
Lemma cc_last_pos n p : (2 <= n)%nat -> 0 < p -> cc n p (n - 1) = (qnat n - 1) * p / qnat n.
Proof.
  intros Hn Hp. unfold cc, middle. rewrite ShProofs.qnat_sub by lia. rewrite ShProofs.qnat_1. field. split; [apply qnat_nz; lia|discriminate].
Qed.
Lemma pred_nz n : (2 <= n)%nat -> qnat n - 1 <> 0.
Proof. intros H. rewrite <- ShProofs.qnat_1, <- ShProofs.qnat_sub by lia. apply qnat_nz. lia. Qed.

Section T.
Variable asec : Qc.
Hypothesis Hasec : asec <> 0.
Lemma unit_k n p k : (2 <= n)%nat -> 0 < p ->
  1 / ((1 + 1) * (1 + 1) * nano / (qn n * p) * asec) * ((1 + 1) * cc n p k / cc n p (n - 1)) = stretch n * ramp asec n p 1 k.
Proof.
  intros Hn Hp. rewrite cc_last_pos by assumption. unfold cc, stretch, ramp. rewrite qn_qnat.
  replace (Q2Qc (1000000000 # 1)) with (1 / nano) by (apply Qc_is_canon; reflexivity).
  assert (N0 : qnat n <> 0) by (apply qnat_nz; lia). assert (N1 := pred_nz n Hn). assert (P0 : p <> 0) by (now apply Qc_pos_neq).
  set (o := nano). assert (O0 : o <> 0) by discriminate. field. repeat split; try assumption; discriminate.
Qed.
Lemma unit_tilts_ok n p : (2 <= n)%nat -> 0 < p ->
  unit_tilts asec n p = Ok (tab qc n n (fun _ j => stretch n * ramp asec n p 1 j), tab qc n n (fun i _ => stretch n * ramp asec n p 1 i)).
Proof.
  intros Hn Hp. unfold unit_tilts. rewrite grid by exact Hn. cbn [bind fst snd].
  assert (R1 : reach (map (fun _ : nat => map (cc n p) (seq 0 n)) (seq 0 n)) = Ok (cc n p (n - 1))).
  { apply reach_ok.
    - intros x Hx. apply in_concat in Hx as (l & Hl & Hx). apply in_map_iff in Hl as (i & <- & _). apply in_map_iff in Hx as (k & <- & Hk). apply in_seq in Hk. apply cc_reach; [exact Hn|exact Hp|lia].
    - apply in_concat. exists (map (cc n p) (seq 0 n)). split; [apply in_map_iff; exists 0%nat; split; [reflexivity|apply in_seq; lia]|]. apply in_map, in_seq. lia.
    - destruct (cc_reach n p Hn Hp (n - 1)) as [H _]; [lia|]. qclra. }
  assert (R2 : reach (map (fun a => map (fun _ : nat => cc n p a) (seq 0 n)) (seq 0 n)) = Ok (cc n p (n - 1))).
  { apply reach_ok.
    - intros x Hx. apply in_concat in Hx as (l & Hl & Hx). apply in_map_iff in Hl as (i & <- & Hi). apply in_map_iff in Hx as (k & <- & Hk). apply in_seq in Hi. apply cc_reach; [exact Hn|exact Hp|lia].
    - apply in_concat. exists (map (fun _ => cc n p (n - 1)) (seq 0 n)). split; [apply in_map_iff; exists (n - 1)%nat; split; [reflexivity|apply in_seq; lia]|]. apply in_map_iff. exists 0%nat. split; [reflexivity|]. apply in_seq. lia.
    - destruct (cc_reach n p Hn Hp (n - 1)) as [H _]; [lia|]. qclra. }
  unfold unit_tilt. rewrite R1, R2. cbn [bind]. set (h := fun v : Qc => _ * (_ * v / _)).
  assert (H : forall k, h (cc n p k) = stretch n * ramp asec n p 1 k) by (intros k; exact (unit_k n p k Hn Hp)).
  assert (E1 : map (map h) (map (fun _ : nat => map (cc n p) (seq 0 n)) (seq 0 n)) = map (fun _ : nat => map (fun j => stretch n * ramp asec n p 1 j) (seq 0 n)) (seq 0 n)).
  { rewrite map_map. apply map_ext. intros a. rewrite map_map. apply map_ext. intros b. apply H. }
  assert (E2 : map (map h) (map (fun a => map (fun _ : nat => cc n p a) (seq 0 n)) (seq 0 n)) = map (fun i => map (fun _ : nat => stretch n * ramp asec n p 1 i) (seq 0 n)) (seq 0 n)).
  { rewrite map_map. apply map_ext. intros a. rewrite map_map. apply map_ext. intros b. apply H. }
  rewrite E1, E2. reflexivity.
Qed.
End T.

Section Q.
Variable sense : Qc -> efield qc -> arr2 Qc.
Variable asec : Qc.
Hypothesis Hasec : asec <> 0.
Variables (n side : nat) (pitch : Qc).
Hypothesis (Hn : (2 <= n)%nat) (Hpitch : 0 < pitch).
(* the images have the size of the detector *)
Hypothesis Hshape : forall w e, exists f, image (A := qc) side side f (sense w e).
Variables (waves flux : list Qc) (tilts : list (Qc * Qc)).
Hypothesis (Hflux : length flux = length waves) (Htilts : length tilts = length waves).

Definition UX : arr2 Qc := tab qc n n (fun _ j => stretch n * ramp asec n pitch 1 j).
Definition UY : arr2 Qc := tab qc n n (fun i _ => stretch n * ramp asec n pitch 1 i).
Definition code_tilts : list (list Qc) := map (fun t => [fst t; snd t]) tilts.
Definition seen (e : efield qc) (t : Qc * Qc) : efield qc := tilted_by asec n pitch (stretch n * fst t) (stretch n * snd t) e.

Lemma ramp_scale a k : ramp asec n pitch a k = a * ramp asec n pitch 1 k.
Proof. unfold ramp. field. exact Hasec. Qed.
Lemma sized_rows (e : efield qc) : sized e n n -> ef_rows qc e = n /\ ef_cols qc e = n.
Proof. intros [H _]. split; [exact (image_r _ _ _ _ H)|exact (image_c _ _ _ _ H)]. Qed.
Lemma tilted_ok e gen t m : sized e n n -> sized (fst m) n n -> tilted (UX, UY) e gen [fst t; snd t] m = Ok (seen e t, gen).
Proof.
  intros He Hm. destruct (sized_rows e He) as [Er Ec]. destruct He as [Ea Ep]. destruct Hm as [Ma Mp]. unfold tilted.
  rewrite (assign2_image n n _ _ _ _ Ma Ea). cbn [bind fst snd]. rewrite Er, Ec.
  change (a_r UX) with (a_r (tab qc n n (fun _ j => stretch n * ramp asec n pitch 1 j))). rewrite tab_r. change (a_c UX) with n.
  unfold fits1. rewrite Nat.eqb_refl. cbn [orb andb].
  rewrite (assign2_image n n _ _ _ _ Mp (tab_image (A := qc) n n _)). cbn [bind]. unfold seen, tilted_by. do 2 f_equal. f_equal.
  - symmetry. exact (image_tab (A := qc) n n _ _ Ea).
  - apply (image_eq (A := qc) n n (fun i j => ph_at e i j + (ramp asec n pitch (stretch n * fst t) j + ramp asec n pitch (stretch n * snd t) i))); [|apply tab_image].
    eapply image_ext; [apply tab_image|]. intros i j Hi Hj. cbv beta.
    change (a_r UY) with (a_r (tab qc n n (fun i _ => stretch n * ramp asec n pitch 1 i))). rewrite tab_r. change (a_c UY) with n.
    rewrite !src_id by assumption. unfold UX, UY. rewrite (image_ent (A := qc) n n _ _ i j (tab_image (A := qc) n n _) Hi Hj), (image_ent (A := qc) n n _ _ i j (tab_image (A := qc) n n _) Hi Hj).
    rewrite (image_ent (A := qc) n n _ _ i j Ep Hi Hj). rewrite (ramp_scale (stretch n * fst t)), (ramp_scale (stretch n * snd t)). qring.
Qed.
Lemma seen_sized e t : sized e n n -> sized (seen e t) n n.
Proof.
  intros [Ea Ep]. split.
  - exact Ea.
  - exact (image_own (A := qc) n n _ _ (tab_image (A := qc) n n _)).
Qed.
Lemma prepared e gen ts ms : sized e n n -> Forall (fun m => sized (fst m) n n) ms -> length ts = length ms ->
  map2_res (fun t m => tilted (UX, UY) e gen t m) (map (fun t => [fst t; snd t]) ts) ms = Ok (map (fun t => (seen e t, gen)) ts).
Proof.
  intros He. revert ms. induction ts as [|t ts IH]; intros [|m ms] Hm L; try discriminate L; [reflexivity|]. inversion Hm; subst. cbn [map map2_res].
  rewrite tilted_ok by assumption. cbn [bind]. rewrite IH; [reflexivity|assumption|]. cbn in L; lia.
Qed.

(* what holds between the frames *)
Definition last_images (o : option (Z * efield qc)) : list (arr2 Qc) :=
  match o with None => map (fun _ => blank side) waves | Some (_, e) => views sense asec n pitch waves tilts e end.
Definition delivered (e : efield qc) : nat -> nat -> Qc :=
  brought_to side (photons n e) (mixture (List.combine (fractions flux) (views sense asec n pitch waves tilts e))).
Record inv (o : option (Z * efield qc)) (w : wfs) : Prop := {
  i_waves : w_waves w = waves; i_flux : w_flux w = flux; i_tilts : w_tilts w = code_tilts;
  i_units : w_units w = Some (UX, UY); i_share : w_share w = Some (fractions flux);
  i_efs : Forall (fun m => sized (fst m) n n) (w_efs w) /\ length (w_efs w) = length waves;
  i_sensors : map s_wave (w_sensors w) = waves;
  i_images : map s_img (w_sensors w) = last_images o;
  i_out : match o with
          | None => image (A := qc) side side (fun _ _ => 0) (w_out w) /\ w_time w = (-1)%Z
          | Some (t, e) => image (A := qc) side side (delivered e) (w_out w) /\ w_time w = t
          end }.

Lemma vsum_total l : vsum (A := qc) l = total_of l.
Proof.
  unfold total_of. rewrite fold_left_sumn. induction l as [|x l IH]; [reflexivity|]. cbn [length sum_over]. rewrite (sumn_first qc qc_field). cbn [nth]. now rewrite IH.
Qed.
Lemma share_fractions : (if qlt 0 (vsum (A := qc) flux) then map (fun f => f / vsum (A := qc) flux) flux else flux) = fractions flux.
Proof. rewrite vsum_total. unfold fractions, qlt. now destruct (Qclt_le_dec 0 (total_of flux)). Qed.

Lemma new_efs l e0 : sized e0 n n -> ef_pitch qc e0 = pitch ->
  exists efs, map_res (fun _ : Qc => f <- new_ef qc (Z.of_nat (ef_rows qc e0)) (Z.of_nat (ef_cols qc e0)) (ef_pitch qc e0) 0 ;; Ok (f, (-1)%Z)) l = Ok efs /\
    Forall (fun m => sized (fst m) n n) efs /\ length efs = length l.
Proof.
  clear Hflux Htilts Hshape Hpitch Hasec. intros He Hp. destruct (sized_rows e0 He) as [-> ->]. unfold new_ef. rewrite (proj2 (Z.ltb_ge (Z.of_nat n) 0)) by lia. cbn [orb bind]. rewrite !Nat2Z.id.
  induction l as [|x r (efs & E & F & L)]; [exists []; repeat split; constructor|]. cbn [map_res bind]. rewrite E. cbn [bind]. eexists. split; [reflexivity|]. split; [|cbn; now rewrite L].
  constructor; [|exact F]. cbn [fst]. split; cbn [ef_A ef_ph]; [exact (image_own (A := qc) n n _ _ (tab_image (A := qc) n n _))|exact (image_own (A := qc) n n _ _ (tab_image (A := qc) n n _))].
Qed.
Lemma started e0 w : sized e0 n n -> ef_pitch qc e0 = pitch -> new_wfs waves side flux (Some code_tilts) = Ok w -> exists w1, setup asec w e0 = Ok w1 /\ inv None w1.
Proof.
  intros He Hp. unfold new_wfs. rewrite Hflux, Nat.eqb_refl. cbn [negb]. unfold code_tilts. rewrite map_length, Htilts, Nat.eqb_refl. cbn [negb bind]. intros E. injection E as <-.
  unfold setup. cbn [w_waves w_flux w_tilts w_sensors w_ready w_out w_time w_now].
  destruct (sized_rows e0 He) as [Er _]. rewrite Er, Hp, (unit_tilts_ok asec Hasec n pitch Hn Hpitch). cbn [bind].
  destruct (new_efs waves e0 He Hp) as (efs & E & F & L). rewrite Er, Hp in E. rewrite E. cbn [bind]. eexists. split; [reflexivity|].
  constructor; cbn [w_waves w_flux w_tilts w_units w_share w_efs w_sensors w_out w_time]; try reflexivity.
  - now rewrite share_fractions.
  - split; assumption.
  - rewrite map_map. cbn [s_wave]. apply map_id.
  - rewrite map_map. reflexivity.
  - split; [apply (tab_image (A := qc))|reflexivity].
Qed.

Lemma check_sensors t gen e ss ts : map s_wave ss = waves -> length ts = length waves -> (t <=? gen)%Z = true ->
  map2 (check_sensor t) (map (fun t => (seen e t, gen)) ts) (map2 see (map (fun t => (seen e t, gen)) ts) ss) =
  map (fun x => mkSensor (s_wave (fst x)) (seen e (snd x)) true (s_img (fst x))) (List.combine ss ts).
Proof.
  intros Hw. rewrite <- Hw, map_length. clear Hw. intros L Ht. revert ts L. induction ss as [|s ss IH]; intros [|x ts] L; try discriminate L; [reflexivity|].
  cbn [map map2 List.combine]. rewrite IH by (cbn in L; lia). unfold check_sensor. cbn [snd fst]. rewrite Ht. reflexivity.
Qed.
Lemma closed l : Forall (fun s => s_ready s = true) l -> map_res close l = Ok (map (fun s => mkSensor (s_wave s) (s_field s) false (s_img s)) l).
Proof. induction l as [|s l IH]; intros F; [reflexivity|]. inversion F; subst. cbn [map_res map]. unfold close at 1. rewrite H1. cbn [negb bind]. rewrite IH by assumption. reflexivity. Qed.
Lemma mixed l : forall o f, image (A := qc) side side f o -> Forall (fun x => exists g, image (A := qc) side side g (s_img (fst x))) l ->
  exists out, fold_res (fun o sf => inplace2 qc Qcplus o (each qc (fun v => v * snd sf) (s_img (fst sf)))) o l = Ok out /\
    image (A := qc) side side (fun i j => f i j + mixture (map (fun x => (snd x, s_img (fst x))) l) i j) out.
Proof.
  induction l as [|x l IH]; intros o f Io F.
  - exists o. split; [reflexivity|]. eapply image_ext; [exact Io|]. intros i j _ _. symmetry. exact (Qcplus_0_r (f i j)).
  - inversion F as [|? ? (g & G) F']; subst. cbn [fold_res]. assert (I2 := each_image (A := qc) (fun v => v * snd x) side side g _ G).
    rewrite (inplace2_image (A := qc) Qcplus side side _ _ _ _ Io I2). cbn [bind].
    destruct (IH _ _ (tab_image (A := qc) side side (fun i j => Qcplus (f i j) ((fun v : qc => v * snd x) (g i j)))) F') as (out & E & I). exists out. split; [exact E|]. eapply image_ext; [exact I|].
    intros i j Hi Hj. cbv beta. unfold mixture. cbn [map sum_over fst snd]. unfold pix at 2. change (entry 0 (s_img (fst x)) i j) with (ent qc (s_img (fst x)) i j).
    rewrite (image_ent (A := qc) side side g _ i j G Hi Hj).
    assert (R : forall a b c d : Qc, a + b * c + d = a + (c * b + d)) by (intros; ring). apply R.
Qed.

Lemma fold_views e ss ts : length ts = length ss ->
  map s_img (map (fun s => mkSensor (s_wave s) (s_field s) false (s_img s)) (map (fire sense) (map (fun x => mkSensor (s_wave (fst x)) (seen e (snd x)) true (s_img (fst x))) (List.combine ss ts)))) = views sense asec n pitch (map s_wave ss) ts e.
Proof.
  rewrite !map_map. cbn [s_img s_wave s_field fire]. revert ts. induction ss as [|s ss IH]; intros [|t ts] L; try discriminate L; [reflexivity|]. cbn [List.combine map views fst snd]. f_equal. apply IH. cbn in L; lia.
Qed.
Lemma combine_swap {X Y Z'} (f : X -> Z') (l : list X) (m : list Y) : map (fun x => (snd x, f (fst x))) (List.combine l m) = List.combine m (map f l).
Proof. revert m. induction l as [|x l IH]; intros [|y m]; try reflexivity. cbn. now rewrite IH. Qed.
Lemma photons_ok e : sized e n n -> ef_S0 qc e * ef_masked_area qc e = photons n e.
Proof. intros [Ea _]. unfold ef_masked_area, photons. now rewrite (total_image (A := qc) n n _ _ Ea). Qed.

Lemma fresh o w t e gen : inv o w -> sized e n n -> (t <=? gen)%Z = true -> exists w', frame sense w (t, e, gen) = Ok w' /\ inv (Some (t, e)) w'.
Proof.
  intros [I1 I2 I3 I4 I5 [I6 I6'] I7 I8 I9] He Ht. unfold frame, check_ready. rewrite Ht. unfold prepare. cbn [w_units w_tilts w_efs w_sensors w_waves w_flux w_share w_ready w_out w_time w_now].
  rewrite I4, I3. unfold code_tilts. rewrite (prepared e gen tilts (w_efs w) He I6) by congruence. cbn [bind w_units w_tilts w_efs w_sensors w_waves w_flux w_share w_ready w_out w_time w_now].
  rewrite (check_sensors t gen e (w_sensors w) tilts I7 Htilts Ht).
  set (ss := map _ (List.combine (w_sensors w) tilts)). unfold trigger. cbn [w_units w_tilts w_efs w_sensors w_waves w_flux w_share w_ready w_out w_time w_now negb bind].
  unfold post_trigger. cbn [w_units w_tilts w_efs w_sensors w_waves w_flux w_share w_ready w_out w_time w_now negb].
  rewrite (closed (map (fire sense) ss)).
  2:{ apply Forall_forall. intros s Hs. apply in_map_iff in Hs as (x & <- & Hx). apply in_map_iff in Hx as (y & <- & _). reflexivity. }
  cbn [bind]. rewrite I5. set (cl := map _ (map (fire sense) ss)).
  assert (V : map s_img cl = views sense asec n pitch waves tilts e).
  { unfold cl, ss. rewrite fold_views, I7; [reflexivity|]. rewrite <- (map_length s_wave (w_sensors w)), I7. exact Htilts. }
  assert (O : image (A := qc) side side (fun _ _ => 0) (each qc (fun _ => 0) (w_out w))).
  { destruct o as [[t' e']|]; destruct I9 as [I9 _]; exact (each_image (A := qc) (fun _ => 0) side side _ _ I9). }
  destruct (mixed (List.combine cl (fractions flux)) _ _ O) as (out & E & I).
  { apply Forall_forall. intros x Hx. destruct x as [s f]. apply in_combine_l in Hx. cbn [fst]. unfold cl in Hx. apply in_map_iff in Hx as (s' & <- & Hs). apply in_map_iff in Hs as (s'' & <- & _). cbn [s_img fire]. apply Hshape. }
  rewrite E. cbn [bind]. rewrite combine_swap, V in I. set (mx := mixture _) in I.
  assert (I' : image (A := qc) side side mx out) by (eapply image_ext; [exact I|]; intros i j _ _; exact (Qcplus_0_l (mx i j))).
  assert (T : total qc out = light side mx) by (exact (total_image (A := qc) side side _ _ I')). rewrite T. rewrite (photons_ok e He).
  eexists. split; [reflexivity|]. constructor; cbn [w_units w_tilts w_efs w_sensors w_waves w_flux w_share w_ready w_out w_time w_now]; try assumption; try reflexivity.
  - split; [|now rewrite map_length]. apply Forall_forall. intros m Hm. apply in_map_iff in Hm as (x & <- & _). now apply seen_sized.
  - unfold cl, ss. rewrite !map_map. cbn [s_wave fire]. rewrite <- I7. rewrite <- (map_map fst s_wave). f_equal.
    assert (L : length (w_sensors w) = length tilts) by (rewrite Htilts, <- I7; now rewrite map_length). clear -L. revert L. generalize tilts. induction (w_sensors w) as [|s l IH]; intros [|t ts] L; try discriminate L; [reflexivity|]. cbn. f_equal. apply IH. now injection L.
  - split; [|reflexivity]. unfold delivered, brought_to. fold mx. unfold qlt. destruct (Qclt_le_dec 0 (light side mx)).
    + exact (each_image (A := qc) (fun v => v * (photons n e / light side mx)) side side _ _ I').
    + exact I'.
Qed.
Lemma stale o w t e gen : inv o w -> (t <=? gen)%Z = false -> exists w', frame sense w (t, e, gen) = Ok w' /\ inv o w'.
Proof.
  intros [I1 I2 I3 I4 I5 [I6 I6'] I7 I8 I9] Ht. unfold frame, check_ready. rewrite Ht. cbn [bind w_units w_tilts w_efs w_sensors w_waves w_flux w_share w_ready w_out w_time w_now].
  eexists. split; [reflexivity|]. 
  assert (G : forall ms ss, length ms = length ss -> map s_wave (map2 (check_sensor t) ms ss) = map s_wave ss /\ map s_img (map2 (check_sensor t) ms ss) = map s_img ss).
  { intros ms. induction ms as [|m ms IH]; intros [|s ss] L; try discriminate L; [split; reflexivity|]. cbn [map map2]. destruct (IH ss) as [-> ->]; [now injection L|]. unfold check_sensor. destruct (t <=? snd m)%Z; split; reflexivity. }
  assert (L : length (w_efs w) = length (w_sensors w)) by (rewrite I6', <- I7; now rewrite map_length). destruct (G _ _ L) as [G1 G2].
  constructor; cbn [w_units w_tilts w_efs w_sensors w_waves w_flux w_share w_ready w_out w_time w_now]; try assumption; try (split; assumption); congruence.
Qed.
Definition latest (o : option (Z * efield qc)) (fs : list (Z * efield qc * Z)) := match shown fs with Some x => Some x | None => o end.
Lemma frames fs : Forall (fun x => sized (snd (fst x)) n n) fs -> forall o w, inv o w -> exists w', fold_res (frame sense) w fs = Ok w' /\ inv (latest o fs) w'.
Proof.
  induction fs as [|[[t e] gen] fs IH]; intros F o w I; [exists w; split; [reflexivity|exact I]|]. inversion F as [|? ? F1 F2]; subst. cbn [fst snd] in F1. cbn [fold_res].
  unfold latest. cbn [shown]. destruct (t <=? gen)%Z eqn:Ht.
  - destruct (fresh o w t e gen I F1 Ht) as (w' & -> & I'). cbn [bind]. destruct (IH F2 _ _ I') as (w'' & -> & I''). exists w''. split; [reflexivity|]. unfold latest in I''. now destruct (shown fs).
  - destruct (stale o w t e gen I Ht) as (w' & -> & I'). cbn [bind]. destruct (IH F2 _ _ I') as (w'' & -> & I''). exists w''. split; [reflexivity|]. unfold latest in I''. now destruct (shown fs).
Qed.
Lemma whole e0 fs : sized e0 n n -> ef_pitch qc e0 = pitch -> Forall (fun x => sized (snd (fst x)) n n) fs ->
  exists w, session sense asec waves side flux (Some code_tilts) e0 fs = Ok w /\ inv (shown fs) w.
Proof.
  intros He Hp F. unfold session. destruct (new_wfs waves side flux (Some code_tilts)) as [w|x] eqn:E.
  - cbn [bind]. destruct (started e0 w He Hp E) as (w1 & -> & I). cbn [bind]. destruct (frames fs F _ _ I) as (w2 & -> & I2). exists w2. split; [reflexivity|]. unfold latest in I2. now destruct (shown fs).
  - exfalso. unfold new_wfs in E. rewrite Hflux, Nat.eqb_refl in E. cbn [negb] in E. unfold code_tilts in E. rewrite map_length, Htilts, Nat.eqb_refl in E. discriminate E.
Qed.
End Q.
