(* Properties of extended sources. *)
From Coq Require Import String List ZArith Bool Arith Lia QArith Qcanon Lqa.
From Verif Require Import PyBase PyLemmas Arith OpticalModel SlopecSpec RebinModel InterpModel SlopecModel ExtModel RadialModel ScreenModel OptModel QcTac MmseProofs RadialProofs ExtSrcModel.
From Verif Require SlopecProofs.
Import ListNotations.
Local Open Scope Qc_scope.

Notation qsum := SlopecSpec.qsum.
(* the order in which definitions are unfolded: rounding last *)
Local Strategy 100 [qround qlt Qcdiv Qcinv Qcmult Qcplus Q2Qc].
Lemma ok_inj : forall {T} (a b : T), Ok a = Ok b -> a = b.
Proof. intros T a b H. congruence. Qed.
Lemma first_term : forall n f, qsum (S n) f = f 0%nat + qsum n (fun j => f (S j)).
Proof. intros n f. induction n as [|n IH]; [rewrite qs_S, !qs_0; ring|]. rewrite qs_S, IH, qs_S. ring. Qed.
Lemma qs_rev : forall n f, qsum (S n) f = qsum (S n) (fun k => f (n - k)%nat).
Proof.
  induction n as [|n IH]; intros f; [rewrite !qs_S, !qs_0; reflexivity|].
  rewrite qs_S, IH, (first_term (S n) (fun k => f (S n - k)%nat)). rewrite Qcplus_comm. reflexivity.
Qed.
Lemma qn_pos : forall n, (0 < n)%nat -> 0 < qn n.
Proof. intros n H. apply (InterpProofs.qnat_lt 0 n H). Qed.
Lemma pos_neq : forall x : Qc, 0 < x -> x <> 0.
Proof. intros x H ->. revert H. apply Qcle_not_lt, Qcle_refl. Qed.
Lemma two_nz : two <> 0. Proof. intros H. discriminate (f_equal (fun x => Qnum (this x)) H). Qed.
Lemma sq_ge : forall x : Qc, 0 <= x * x.
Proof. intros x. unfold Qcle. rewrite this_mul. change (this 0) with 0%Q. nra. Qed.
Lemma twice_zero : forall x : Qc, x = - x -> x = 0.
Proof. intros x H. qclra. Qed.

(* a regular grid from -h to h is symmetric: an odd function sums to zero on it *)
Lemma odd_sum : forall h n (f : Qc -> Qc), (n <> 1)%nat -> (forall x, f (- x) = - f x) -> lsum (map f (linspace (- h) h n)) = 0.
Proof.
  intros h n f Hn Ho. destruct n as [|[|m]]; [reflexivity|lia|]. cbn [linspace]. rewrite map_map, lsum_seq.
  assert (M : qn (S m) <> 0) by (apply pos_neq, qn_pos; lia).
  apply twice_zero. rewrite (qs_rev (S m)) at 1.
  rewrite (qs_ext (S (S m)) _ (fun k => - (1) * f (- h + qn k * ((h - - h) / qn (S m))))).
  - rewrite qs_scale. ring.
  - intros k Hk. replace (- (1) * f (- h + qn k * ((h - - h) / qn (S m)))) with (- f (- h + qn k * ((h - - h) / qn (S m)))) by ring. rewrite <- Ho. f_equal.
    assert (E : qn (S m - k) = qn (S m) - qn k) by (rewrite !InterpProofs.qn_nat; apply InterpProofs.qnat_sub; lia). rewrite E. field. exact M.
Qed.
Lemma lsum_grid : forall (g : Qc * Qc -> Qc) l, lsum (map g (grid l)) = lsum (map (fun y => lsum (map (fun x => g (x, y)) l)) l).
Proof.
  intros g l. unfold grid.
  assert (G : forall l0, lsum (map g (flat_map (fun y => map (fun x => (x, y)) l) l0)) = lsum (map (fun y => lsum (map (fun x => g (x, y)) l)) l0)); [|apply G].
  induction l0 as [|y l0 IH]; [reflexivity|]. cbn [flat_map map lsum]. rewrite map_app, lsum_app, IH, map_map. reflexivity.
Qed.
Lemma in_lsum_zero : forall {T} (f : T -> Qc) l, (forall x, f x = 0) -> lsum (map f l) = 0.
Proof. intros T f l H. apply lsum_zero. intros x _. apply H. Qed.

Section Props.
Context (pi : Qc) (cosa sina : nat -> nat -> Qc) (gauss : Qc -> Qc -> Qc) (fwhm root3 asec2rad : Qc) (interp : image -> Qc -> Qc -> Qc).
Notation flat := (flat pi cosa sina gauss fwhm asec2rad interp).
Notation deep := (deep pi cosa sina gauss fwhm root3 asec2rad interp).
Notation compute := (compute pi cosa sina gauss fwhm root3 asec2rad interp).
Notation build := (build pi cosa sina gauss fwhm root3 asec2rad interp).
Notation trigger := (trigger pi cosa sina gauss fwhm root3 asec2rad interp).
Notation tip := (tip pi asec2rad).
Notation focus_coeff := (focus_coeff pi root3).

(* ---------------------------------------------------------------- discs *)
Theorem C124_disc_inside : forall size s l, disc size s = Ok l -> forall x y, In (x, y) l -> x * x + y * y <= size / two * (size / two).
Proof.
  intros size s l H x y Hi. unfold disc in H. destruct (_ <? 0)%Z; [discriminate|]. apply ok_inj in H; subst. apply filter_In in Hi. destruct Hi as [_ Hi].
  unfold inside in Hi. apply andb_true_iff in Hi. destruct Hi as [_ Hi]. apply negb_true_iff in Hi. cbn [fst snd] in Hi. apply qlt_false in Hi. exact Hi.
Qed.
(* the tilts balance *)
Theorem C124_disc_balanced : forall size s l, disc size s = Ok l -> lsum (map fst l) = 0 /\ lsum (map snd l) = 0.
Proof.
  intros size s l H. unfold disc in H. destruct (Z.ltb_spec (qround (size / s / two) * 2) 0) as [|L]; [discriminate|]. apply ok_inj in H; subst.
  set (h := size / two). set (n := Z.to_nat (qround (size / s / two) * 2)).
  assert (N : (n <> 1)%nat) by (unfold n; lia).
  assert (I : forall x y, inside h (- x, y) = inside h (x, y)) by (intros; unfold inside; cbn [fst snd]; replace (- x * - x) with (x * x) by ring; reflexivity).
  assert (J : forall x y, inside h (x, - y) = inside h (x, y)) by (intros; unfold inside; cbn [fst snd]; replace (- y * - y) with (y * y) by ring; reflexivity).
  rewrite !lsum_filter, !lsum_grid. split.
  - apply in_lsum_zero. intros y. apply (odd_sum h n (fun x => if inside h (x, y) then x else 0) N). intros x. rewrite I. destruct (inside h (x, y)); ring.
  - apply (odd_sum h n (fun y => lsum (map (fun x => if inside h (x, y) then y else 0) (linspace (- h) h n))) N). intros y.
    replace (- lsum (map (fun x => if inside h (x, y) then y else 0) (linspace (- h) h n))) with (- (1) * lsum (map (fun x => if inside h (x, y) then y else 0) (linspace (- h) h n))) by ring.
    rewrite <- lsum_scale. f_equal. apply map_ext. intros x. rewrite J. destruct (inside h (x, y)); ring.
Qed.
(* a disc has no point when its diameter is less than about three steps *)
Lemma in_grid : forall x y l, In x l -> In y l -> In (x, y) (grid l).
Proof. intros x y l Hx Hy. unfold grid. apply in_flat_map. exists y. split; [exact Hy|]. now apply (in_map (fun x => (x, y))). Qed.
Theorem C124_disc_empty : forall size s l, 0 < size -> disc size s = Ok l -> (l = [] <-> (qround (size / s / two) <= 1)%Z).
Proof.
  intros size s l Hs H. unfold disc in H. destruct (Z.ltb_spec (qround (size / s / two) * 2) 0) as [|L]; [discriminate|]. apply ok_inj in H; subst.
  set (h := size / two). set (q := qround (size / s / two)) in *.
  assert (HP : 0 < h) by (unfold h, two, Qcdiv; rewrite <- (Qcmult_0_l (/ qz 2)); apply Qcmult_lt_compat_r; [reflexivity|exact Hs]).
  split.
  - intros E. destruct (Z.le_gt_cases q 1) as [G|G]; [exact G|exfalso].
    set (m := Z.to_nat q). assert (Em : Z.to_nat (q * 2) = (2 * m)%nat) by (unfold m; lia). rewrite Em in E. assert (Hm : (2 <= m)%nat) by (unfold m; lia).
    set (d := qn (2 * m - 1)). assert (HD : 1 + 1 + 1 <= d).
    { unfold d. change (1 + 1 + 1) with (1 + 1 + 1). apply (Qcle_trans _ (qn 3)); [vm_compute; discriminate|]. rewrite !InterpProofs.qn_nat. apply InterpProofs.qnat_le. lia. }
    assert (D0 : d <> 0) by (apply pos_neq; qclra).
    assert (IN : In (h / d) (linspace (- h) h (2 * m))).
    { destruct m as [|[|m']]; [lia|lia|]. replace (2 * S (S m'))%nat with (S (S (2 * m' + 2))) by lia. cbn [linspace]. apply in_map_iff. exists (S (S m')). split; [|apply in_seq; lia].
      unfold d in *. replace (2 * S (S m') - 1)%nat with (S (2 * m' + 2)) in * by lia.
      assert (A : qn (S (2 * m' + 2)) = (1 + 1) * qn (S (S m')) - 1).
      { rewrite (qn_S (2 * m' + 2)), (qn_S (S m')). replace (2 * m' + 2)%nat with (S m' + S m')%nat by lia. replace (qn (S m' + S m')) with (qn (S m') + qn (S m')) by (symmetry; exact (InterpProofs.qnat_add (S m') (S m'))). ring. }
      assert (U : qn (S (2 * m' + 2)) * / qn (S (2 * m' + 2)) = 1) by (now apply Qcmult_inv_r). unfold Qcdiv. set (u := / qn (S (2 * m' + 2))) in *. rewrite A in U. set (a := qn (S (S m'))) in *.
      transitivity (h * u - h * (1 - ((1 + 1) * a - 1) * u)); [ring|]. rewrite U. ring. }
    assert (F : In (h / d, h / d) (filter (inside h) (grid (linspace (- h) h (2 * m))))).
    { apply filter_In. split; [apply in_grid; exact IN|]. unfold inside. cbn [fst snd]. apply andb_true_iff. split; apply negb_true_iff, qlt_false; [apply Qclt_le_weak; exact HP|].
      change (h / d * (h / d) + h / d * (h / d) <= h * h).
      set (t := h / d). assert (Et : h = t * d) by (unfold t; field; exact D0). assert (T0 : 0 <= t * t) by (apply sq_ge).
      rewrite Et. replace (t * d * (t * d)) with (d * d * (t * t)) by ring. replace (t * t + t * t) with ((1 + 1) * (t * t)) by ring. apply Qcmult_le_compat_r; [|exact T0].
      apply (Qcle_trans _ (1 * d)); [qclra|]. apply Qcmult_le_compat_r; qclra. }
    rewrite E in F. destruct F.
  - intros G. assert (C : (q = 0 \/ q = 1)%Z) by lia. destruct C as [C|C]; rewrite C; [reflexivity|].
    change (Z.to_nat (1 * 2)) with 2%nat. cbn [linspace seq map grid flat_map app]. 
    assert (E1 : - h + qn 0 * ((h - - h) / qn 1) = - h) by (change (qn 0) with 0; ring).
    assert (E2 : - h + qn 1 * ((h - - h) / qn 1) = h) by (change (qn 1) with (Q2Qc 1); field; discriminate).
    rewrite E1, E2. cbn [filter]. assert (HH : 0 < h * h) by (rewrite <- (Qcmult_0_l h); now apply Qcmult_lt_compat_r).
    assert (B : forall x y, x * x = h * h -> y * y = h * h -> inside h (x, y) = false).
    { intros x y Ex Ey. unfold inside. cbn [fst snd]. apply andb_false_iff. right. apply negb_false_iff, qlt_true. rewrite Ex, Ey. change (h * h < h * h + h * h). qclra. }
    rewrite !B by ring. reflexivity.
Qed.

(* ---------------------------------------------------------------- refused *)
Theorem C124_refused : forall c im,
  ~ In (c_source c) ["POINT_SOURCE"; "TOPHAT"; "GAUSS"; "FROM_PSF"]%string \/ ~ In (c_sampling c) ["CARTESIAN"; "POLAR"; "RINGS"]%string \/
  (In (c_source c) ["TOPHAT"; "GAUSS"]%string /\ c_size c = None) \/ (c_source c = "FROM_PSF"%string /\ c_scale c = None) ->
  build c im = Err ValueError.
Proof.
  intros c im H. assert (K : forall l s, known l s = true <-> In s l).
  { intros l s. unfold known. rewrite existsb_exists. split; [intros (x & Hx & E); apply String.eqb_eq in E; now subst|intros Hi; exists s; split; [exact Hi|apply String.eqb_refl]]. }
  assert (K' : forall l s, ~ In s l -> known l s = false) by (intros l s N; destruct (known l s) eqn:E; [apply K in E; contradiction|reflexivity]).
  unfold ExtSrcModel.build. destruct (known ["POINT_SOURCE"; "TOPHAT"; "GAUSS"; "FROM_PSF"]%string (c_source c)) eqn:E1; cbn [negb]; [|reflexivity].
  destruct (known ["CARTESIAN"; "POLAR"; "RINGS"]%string (c_sampling c)) eqn:E2; cbn [negb]; [|reflexivity].
  destruct H as [H|[H|[[H H']|[H H']]]].
  - rewrite (K' _ _ H) in E1. discriminate.
  - rewrite (K' _ _ H) in E2. discriminate.
  - apply K in H. rewrite H, H'. reflexivity.
  - rewrite H, H'. cbn. reflexivity.
Qed.

(* ---------------------------------------------------------------- points *)
Lemma fluxes : forall c l, lsum (map snd l) <> 0 -> lsum (map p_flux (pointsof pi asec2rad c l)) = 1.
Proof.
  intros c l H. unfold pointsof. rewrite map_map. set (t := lsum (map snd l)) in *.
  rewrite (map_ext _ (fun q => / t * snd q)) by (intros [[x y] w]; cbn [p_flux snd]; unfold Qcdiv; ring). rewrite lsum_scale. fold t. field. exact H.
Qed.
Lemma lsum_pos : forall {T} (f : T -> Qc) l, l <> [] -> (forall x, In x l -> 0 < f x) -> 0 < lsum (map f l).
Proof.
  intros T f l N H. destruct l as [|x l]; [contradiction|]. cbn [map lsum]. assert (A := H x (or_introl eq_refl)).
  assert (B : 0 <= lsum (map f l)) by (apply lsum_ge; intros y Hy; apply Qclt_le_weak, H; now right). qclra.
Qed.
Lemma gauss_grid_pos : forall size s l, (forall s r, 0 < gauss s r) -> gauss_grid gauss fwhm size s = Ok l -> forall q, In q l -> 0 < snd q.
Proof.
  intros size s l G E q Hq. unfold gauss_grid in E. set (n := (_ * 2)%Z) in E. clearbody n. destruct (n <=? 0)%Z; [discriminate|]. apply ok_inj in E. rewrite <- E in Hq.
  apply filter_In in Hq. destruct Hq as [Hq _]. apply in_map_iff in Hq. destruct Hq as (p & Ep & _). rewrite <- Ep. apply G.
Qed.
Lemma gauss_rings_pos : forall c size s, (forall s r, 0 < gauss s r) -> forall q, In q (gauss_rings pi cosa sina gauss fwhm c size s) -> 0 < snd q.
Proof.
  intros c size s G q Hq. unfold gauss_rings in Hq. apply in_inv in Hq. destruct Hq as [Hq|Hq]; [rewrite <- Hq; reflexivity|].
  apply in_flat_map in Hq. destruct Hq as (r & _ & Hq). apply in_map_iff in Hq. destruct Hq as (p & Ep & _). rewrite <- Ep. apply G.
Qed.
Lemma equal_pos : forall l q, In q (equal l) -> 0 < snd q.
Proof. intros l q Hq. unfold equal in Hq. apply in_map_iff in Hq. destruct Hq as (p & Ep & _). rewrite <- Ep. reflexivity. Qed.
Lemma flat_shape : forall c im pts, flat c im = Ok pts -> pts = [mkPoint 0 0 0 0 (Fin 0) 1] \/
  exists l, pts = pointsof pi asec2rad c l /\ (c_source c <> "FROM_PSF"%string -> (forall s r, 0 < gauss s r) -> forall q, In q l -> 0 < snd q).
Proof.
  intros c im pts H. unfold ExtSrcModel.flat in H. cbv zeta in H. set (s := step c) in H. clearbody s.
  destruct (c_source c =? "POINT_SOURCE")%string; [apply ok_inj in H; now left|]. right.
  destruct (c_source c =? "TOPHAT")%string.
  { destruct (c_size c); [|discriminate]. apply bind_ok in H. destruct H as (l & E & H). exists (equal l). split; [symmetry; now apply ok_inj|]. intros _ _. exact (equal_pos l). }
  destruct (c_source c =? "GAUSS")%string.
  { destruct (c_size c) as [size|]; [|discriminate]. apply bind_ok in H. destruct H as (l & E & H). exists l. split; [symmetry; now apply ok_inj|]. intros _ G.
    destruct (c_sampling c =? "CARTESIAN")%string; [exact (gauss_grid_pos _ _ _ G E)|].
    destruct (c_sampling c =? "RINGS")%string; [|discriminate]. apply ok_inj in E. rewrite <- E. exact (gauss_rings_pos c size s G). }
  destruct (String.eqb_spec (c_source c) "FROM_PSF") as [E0|E0]; [|discriminate].
  destruct (c_scale c); [|discriminate]. apply bind_ok in H. destruct H as (l & E & H). exists l. split; [symmetry; now apply ok_inj|]. intros N. contradiction.
Qed.
(* tilts are those of the angles, without layers there is no focus, and the fluxes add to one *)
Theorem C124_flat : forall c im pts, flat c im = Ok pts ->
  (forall p, In p pts -> p_tx p = tip c (p_x p) /\ p_ty p = tip c (p_y p) /\ p_focus p = Fin 0) /\
  ((exists p, In p pts /\ p_flux p <> 0) -> lsum (map p_flux pts) = 1) /\
  (c_source c <> "FROM_PSF"%string -> (forall s r, 0 < gauss s r) -> pts <> [] -> lsum (map p_flux pts) = 1 /\ forall p, In p pts -> 0 < p_flux p).
Proof.
  intros c im pts H. destruct (flat_shape c im pts H) as [->|(l & -> & HW)].
  - assert (T0 : 0 = tip c 0) by (unfold ExtSrcModel.tip, Qcdiv; ring). split; [|split].
    + intros p [<-|[]]. cbn [p_tx p_x p_ty p_y p_focus]. repeat split; exact T0.
    + intros _. cbn. ring.
    + intros _ _ _. split; [cbn; ring|]. intros p [<-|[]]. reflexivity.
  - split; [|split].
    + intros p Hp. unfold pointsof in Hp. apply in_map_iff in Hp. destruct Hp as ([[x y] w] & <- & _). repeat split.
    + intros (p & Hp & Hf). apply fluxes. intros E. unfold pointsof in Hp. apply in_map_iff in Hp. destruct Hp as ([[x y] w] & <- & _). apply Hf. cbn [p_flux]. rewrite E. unfold Qcdiv. change (/ 0) with (0 : Qc). ring.
    + intros NS G NE. specialize (HW NS G). assert (NL : l <> []) by (intros ->; apply NE; reflexivity).
      assert (P : 0 < lsum (map snd l)) by (now apply lsum_pos). split; [apply fluxes, pos_neq, P|].
      intros p Hp. unfold pointsof in Hp. apply in_map_iff in Hp. destruct Hp as ([[x y] w] & <- & Hq). cbn [p_flux]. specialize (HW _ Hq). cbn [snd] in HW. unfold Qcdiv.
      assert (I : 0 < / lsum (map snd l)).
      { apply Qcnot_le_lt. intros L. apply (Qcmult_le_compat_r _ _ (lsum (map snd l))) in L; [|now apply Qclt_le_weak]. rewrite Qcmult_inv_l in L by (now apply pos_neq). rewrite Qcmult_0_l in L. apply L. reflexivity. }
      rewrite <- (Qcmult_0_l (/ lsum (map snd l))). now apply Qcmult_lt_compat_r.
Qed.

(* ---------------------------------------------------------------- layers *)
Lemma map_res_map : forall {T U} (f : T -> res U) (g : T -> U) l ys, (forall x y, In x l -> f x = Ok y -> y = g x) -> map_res f l = Ok ys -> ys = map g l.
Proof.
  intros T U f g l. induction l as [|x l IH]; intros ys H E; cbn [map_res] in E; [apply ok_inj in E; subst; reflexivity|].
  inv_bind E. inv_bind E. apply ok_inj in E; subst. cbn [map]. f_equal; [apply H; [now left|assumption]|]. apply IH; [intros; apply H; [now right|assumption]|assumption].
Qed.
Definition offset_of (c : config) (i : nat) : Qc * Qc := match c_tt c with None => (0, 0) | Some t => nth i t (0, 0) end.
(* every layer has the points of the flat source, moved by its offset and with its share of the light *)
Theorem C124_layers : forall c im pts, deep c im = Ok pts -> (0 < length (c_layers c))%nat ->
  let n := length (c_layers c) in length (c_profile c) = n /\ exists base, flat c im = Ok base /\ length pts = (n * length base)%nat /\
  lsum (map p_flux pts) = lsum (c_profile c) * lsum (map p_flux base) /\
  forall k p, (k < length base)%nat -> nth_error base k = Some p -> forall i, (i < n)%nat -> exists q, nth_error pts (i * length base + k) = Some q /\
    p_x q = p_x p + fst (offset_of c i) /\ p_y q = p_y p + snd (offset_of c i) /\ p_tx q = p_tx p + tip c (fst (offset_of c i)) /\ p_ty q = p_ty p + tip c (snd (offset_of c i)) /\
    p_focus q = focus_coeff c (nth i (c_layers c) 0 * c_airmass c) /\ p_flux q = p_flux p * nth i (c_profile c) 0.
Proof.
  intros c im pts H HN n. unfold ExtSrcModel.deep in H. destruct (c_profile c) as [|w0 ws] eqn:EP; [discriminate|]. rewrite <- EP in *.
  unfold layers in H. rewrite map_length in H. fold n in H. destruct (Nat.eqb_spec (length (c_profile c)) n) as [L|L]; cbn [negb] in H; [|discriminate]. split; [exact L|]. inv_bind H. apply ok_inj in H; subst.
  destruct (flat c im) as [base|e] eqn:EB.
  2:{ exfalso. fold n in HN. clearbody n. destruct n as [|n']; [lia|]. cbn [seq map_res bind] in E. discriminate. }
  exists base. split; [reflexivity|].
  assert (S0 : a = map (fun i => map (shifted pi root3 asec2rad c (nth i (c_layers c) 0 * c_airmass c) (nth i (c_profile c) 0) (offset_of c i)) base) (seq 0 n)).
  { refine (map_res_map _ _ _ _ _ E). intros i y Hi Ey. apply in_seq in Hi. cbn [bind] in Ey. inv_bind Ey. apply ok_inj in Ey; subst.
    assert (O : a0 = offset_of c i) by (unfold offset_of; destruct (c_tt c) as [t|]; [destruct (nth_error t i) eqn:Et; [apply ok_inj in E0; subst; symmetry; now apply nth_error_nth|discriminate]|apply ok_inj in E0; subst; reflexivity]). rewrite O.
    rewrite (nth_indep _ 0 (0 * c_airmass c)) by (rewrite map_length; fold n; lia). rewrite (map_nth (fun h => h * c_airmass c)). reflexivity. }
  rewrite S0. clear E S0. split; [|split].
  - clearbody n. generalize 0%nat. clear. induction n as [|n IH]; intros k; [reflexivity|]. cbn [seq map concat]. rewrite app_length, map_length, IH. lia.
  - assert (G : forall l, lsum (map p_flux (concat (map (fun i => map (shifted pi root3 asec2rad c (nth i (c_layers c) 0 * c_airmass c) (nth i (c_profile c) 0) (offset_of c i)) base) l))) = lsum (map (fun i => nth i (c_profile c) 0) l) * lsum (map p_flux base)).
    { induction l as [|i l IH]; cbn [map concat lsum]; [ring|]. rewrite map_app, lsum_app, IH, map_map. cbn [shifted p_flux].
      rewrite (map_ext _ (fun p => nth i (c_profile c) 0 * p_flux p)) by (intros; apply Qcmult_comm). rewrite lsum_scale. ring. }
    rewrite G. f_equal. f_equal. rewrite <- L. clear. induction (c_profile c) as [|x l IH]; [reflexivity|]. cbn [length seq map nth]. f_equal. rewrite <- seq_shift, map_map. exact IH.
  - intros k p Hk Ep i Hi.
    assert (G : forall m s, (i < m)%nat -> nth_error (concat (map (fun i => map (shifted pi root3 asec2rad c (nth i (c_layers c) 0 * c_airmass c) (nth i (c_profile c) 0) (offset_of c i)) base) (seq s m))) (i * length base + k)
      = Some (shifted pi root3 asec2rad c (nth (s + i) (c_layers c) 0 * c_airmass c) (nth (s + i) (c_profile c) 0) (offset_of c (s + i)) p)).
    { clear Hi. induction i as [|i IH]; intros m s Hm; (destruct m as [|m]; [lia|]); cbn [seq map concat].
      - rewrite nth_error_app1 by (rewrite map_length; lia). rewrite Nat.add_0_r. apply map_nth_error. exact Ep.
      - rewrite nth_error_app2 by (rewrite map_length; lia). rewrite map_length. replace (S i * length base + k - length base)%nat with (i * length base + k)%nat by lia. rewrite IH by lia. replace (S s + i)%nat with (s + S i)%nat by lia. reflexivity. }
    specialize (G n 0%nat Hi). eexists. split; [exact G|]. cbn [plus shifted p_x p_y p_tx p_ty p_focus p_flux]. repeat split.
Qed.
(* a layer at the height of focus has no focus, a higher one a positive one; without a height of focus the focus is infinite *)
Theorem C124_focus : forall c h, 0 < pi -> 0 < root3 -> 0 < c_wl c -> 0 < c_d c -> 0 < h ->
  (forall f, c_focus c = Some f -> exists q, focus_coeff c h = Fin q /\ (q = 0 <-> h = f * c_airmass c) /\ (0 < q <-> f * c_airmass c < h)) /\
  (c_focus c = None -> focus_coeff c h = Inf true).
Proof.
  intros c h P1 P2 P3 P4 P5. split; [|intros E; unfold ExtSrcModel.focus_coeff, focus_height; rewrite E; reflexivity].
  intros f E. unfold ExtSrcModel.focus_coeff, focus_height. rewrite E. cbn [option_map]. eexists. split; [reflexivity|].
  assert (IV : forall x, 0 < x -> 0 < / x).
  { intros x Hx. apply Qcnot_le_lt. intros L. apply (Qcmult_le_compat_r _ _ x) in L; [|now apply Qclt_le_weak]. rewrite Qcmult_inv_l in L by (now apply pos_neq). rewrite Qcmult_0_l in L. apply L. reflexivity. }
  assert (ML : forall x y : Qc, 0 < x -> 0 < y -> 0 < x * y) by (intros x y Hx Hy; rewrite <- (Qcmult_0_l y); now apply Qcmult_lt_compat_r).
  set (K := / (two * root3 * qz 8 * (h / c_d c * (h / c_d c))) * (two * pi / (c_wl c * nano))).
  assert (HK : 0 < K). { unfold K, Qcdiv. repeat first [apply ML | apply IV | assumption | reflexivity]. }
  replace ((h - f * c_airmass c) / (two * root3 * qz 8 * (h / c_d c * (h / c_d c))) * (two * pi / (c_wl c * nano))) with ((h - f * c_airmass c) * K) by (unfold K, Qcdiv; ring).
  split; split.
  - intros Z. destruct (Qcmult_integral _ _ Z) as [Z'|Z']; [qclra|exfalso; revert Z'; now apply pos_neq].
  - intros ->. ring.
  - intros L. apply Qcnot_le_lt. intros L'. assert (B : (h - f * c_airmass c) * K <= 0 * K) by (apply Qcmult_le_compat_r; [qclra|now apply Qclt_le_weak]). rewrite Qcmult_0_l in B. revert L. now apply Qcle_not_lt.
  - intros L. apply ML; [qclra|exact HK].
Qed.

(* ---------------------------------------------------------------- threshold *)
Definition no_threshold (c : config) : config :=
  mkConfig (c_source c) (c_sampling c) (c_size c) (c_wl c) (c_d c) (c_step c) (c_airmass c) (c_layers c) (c_profile c) (c_focus c) (c_tt c) (c_rings c) 0 (c_scale c) (c_crop c).
Theorem C124_threshold : forall c im l, compute (no_threshold c) im = Ok l -> 0 < c_thr c -> exists pts, compute c im = Ok pts /\
  (forall p, In p pts <-> In p l /\ lsum (map p_flux l) / qn (length l) * c_thr c < p_flux p) /\ (c_thr c < 1 -> 0 < lsum (map p_flux l) -> pts <> []).
Proof.
  intros c im l H HT. unfold ExtSrcModel.compute in H. inv_bind H. change (qlt 0 (c_thr (no_threshold c))) with false in H. apply ok_inj in H; subst.
  exists (threshold (c_thr c) l). split.
  - unfold ExtSrcModel.compute. change ((if is_3d c then deep c im else flat c im) = Ok l) in E. rewrite E. cbn [bind]. replace (qlt 0 (c_thr c)) with true by (symmetry; now apply qlt_true). reflexivity.
  - split; [intros p; unfold threshold; rewrite filter_In, qlt_true; reflexivity|].
    intros H1 HP N. set (m := lsum (map p_flux l) / qn (length l)) in *.
    assert (A : forall p, In p l -> p_flux p <= m * c_thr c).
    { intros p Hp. apply Qcnot_lt_le. intros L. assert (B : In p (threshold (c_thr c) l)) by (unfold threshold; apply filter_In; split; [exact Hp|now apply qlt_true]). rewrite N in B. destruct B. }
    assert (NL : (0 < length l)%nat) by (destruct l; [cbn in HP; discriminate|cbn; lia]). pose proof (qn_pos _ NL) as QN.
    assert (S0 : lsum (map p_flux l) <= m * c_thr c * qn (length l)) by (rewrite <- lsum_const; now apply lsum_le).
    replace (m * c_thr c * qn (length l)) with (c_thr c * lsum (map p_flux l)) in S0 by (unfold m; field; now apply pos_neq).
    apply (Qcmult_lt_compat_r _ _ _ HP) in H1. rewrite Qcmult_1_l in H1. revert H1. now apply Qcle_not_lt.
Qed.

(* ---------------------------------------------------------------- from a PSF *)
(* m rings have 1 + 3 m (m - 1) points *)
Theorem C124_polar_points : forall im scale s l, psf_polar cosa sina interp im scale s = Ok l ->
  exists m, (0 < m)%nat /\ Z.of_nat m = qround ((qz (qround (qn (im_n im) * scale / s)) + 1) / two) /\ length l = (1 + 3 * m * (m - 1))%nat.
Proof.
  intros im scale s l H. unfold psf_polar in H. cbv zeta in H. set (q := qround ((qz (qround (qn (im_n im) * scale / s)) + 1) / two)) in *.
  destruct (Z.leb_spec q 0) as [|L]; [discriminate|]. apply ok_inj in H; subst. exists (Z.to_nat q). split; [lia|]. split; [lia|].
  rewrite map_length. assert (P : (0 < Z.to_nat q)%nat) by lia. destruct (Z.to_nat q) as [|m]; [lia|]. clear P L.
  induction m as [|m IH]; [reflexivity|]. rewrite seq_S, flat_map_app, app_length, IH. cbn [flat_map plus Nat.eqb]. rewrite app_nil_r. unfold ring. rewrite map_length, seq_length. nia.
Qed.

(* ---------------------------------------------------------------- updates *)
Theorem C124_unchanged : forall c st im, c_source c <> "FROM_PSF"%string \/ (exists i, im = Some i /\ forall a b, (a < im_n i)%nat -> (b < im_n i)%nat -> im_v i a b = 0) -> trigger c st im = Ok (st, false).
Proof.
  intros c st im H. unfold ExtSrcModel.trigger. destruct (String.eqb_spec (c_source c) "FROM_PSF") as [E|E]; cbn [negb]; [|reflexivity].
  destruct H as [H|(i & -> & H)]; [contradiction|]. rewrite qs_zero; [reflexivity|]. intros a Ha. apply qs_zero. intros b Hb. rewrite H by assumption. reflexivity.
Qed.
(* with crop_psf, the image keeps its size: the centre of a larger input, a smaller one surrounded by zeros *)
Theorem C124_crop : forall c st i st' b, c_crop c = true -> trigger c st (Some i) = Ok (st', b) -> b = true ->
  im_n (s_image st') = im_n (s_image st) /\ compute c (s_image st') = Ok (s_points st') /\
  (forall d, (im_n i = im_n (s_image st) + 2 * d)%nat -> forall a e, im_v (s_image st') a e = im_v i (d + a)%nat (d + e)%nat) /\
  (forall d, (im_n (s_image st) = im_n i + 2 * d)%nat -> (0 < d)%nat -> forall a e, im_v (s_image st') a e = if ((d <=? a) && (a <? d + im_n i) && (d <=? e) && (e <? d + im_n i))%nat%bool then im_v i (a - d)%nat (e - d)%nat else 0).
Proof.
  intros c st i st' b HC H ->. unfold ExtSrcModel.trigger in H. destruct (c_source c =? "FROM_PSF")%string; cbn [negb] in H; [|discriminate].
  destruct (qlt 0 _); [|discriminate]. rewrite HC in H. set (n := im_n (s_image st)) in *.
  assert (WN : im_n (window n i) = n) by (unfold window; destruct (Nat.eqb_spec (im_n i) n); [assumption|]; destruct (n <? im_n i)%nat; reflexivity).
  unfold copied in H. rewrite WN, Nat.eqb_refl in H. cbn [bind] in H. inv_bind H. apply ok_inj in H. injection H as <-. cbn [s_image s_points]. split; [exact WN|]. split; [exact E|]. split.
  - intros d Hd a0 e. unfold window. destruct (Nat.eqb_spec (im_n i) n) as [E1|E1]; [replace d with 0%nat by lia; reflexivity|].
    destruct (Nat.ltb_spec n (im_n i)) as [L|L]; [|lia]. cbn [im_v]. replace ((im_n i - n) / 2)%nat with d; [reflexivity|]. rewrite Hd. replace (n + 2 * d - n)%nat with (d * 2)%nat by lia. symmetry. apply Nat.div_mul. lia.
  - intros d Hd Hp a0 e. unfold window. destruct (Nat.eqb_spec (im_n i) n) as [E1|E1]; [lia|]. destruct (Nat.ltb_spec n (im_n i)) as [L|L]; [lia|]. cbn [im_v].
    replace ((n - im_n i) / 2)%nat with d; [reflexivity|]. rewrite Hd. replace (im_n i + 2 * d - im_n i)%nat with (d * 2)%nat by lia. symmetry. apply Nat.div_mul. lia.
Qed.
(* without it another size is refused *)
Theorem C124_size_refused : forall c st i, c_source c = "FROM_PSF"%string -> c_crop c = false -> im_n i <> im_n (s_image st) -> im_n i <> 1%nat ->
  (exists a b, (a < im_n i)%nat /\ (b < im_n i)%nat /\ im_v i a b <> 0) -> trigger c st (Some i) = Err ValueError.
Proof.
  intros c st i HS HC N1 N2 (a & b & Ha & Hb & HV). unfold ExtSrcModel.trigger. rewrite HS, HC. cbn [String.eqb negb].
  change (("FROM_PSF" =? "FROM_PSF")%string) with true. cbn [negb].
  assert (AB : forall x, 0 <= qabs x) by (intros x; unfold qabs; destruct (qlt x 0) eqn:Q; [apply qlt_true in Q|apply qlt_false in Q]; qclra).
  assert (AP : 0 < qabs (im_v i a b)).
  { destruct (Qcle_lt_or_eq _ _ (AB (im_v i a b))) as [L|L]; [exact L|]. exfalso. apply HV. unfold qabs in L. destruct (qlt (im_v i a b) 0); qclra. }
  replace (qlt 0 _) with true.
  - cbn [bind]. unfold copied. destruct (Nat.eqb_spec (im_n i) (im_n (s_image st))); [contradiction|]. destruct (Nat.eqb_spec (im_n i) 1); [contradiction|]. reflexivity.
  - symmetry. apply qlt_true. change (0 < qsum (im_n i) (fun a => qsum (im_n i) (fun b => qabs (im_v i a b)))). apply (Qclt_le_trans _ _ _ AP).
    apply (Qcle_trans _ (qsum (im_n i) (fun b => qabs (im_v i a b)))).
    + apply (SlopecProofs.qsum_term (im_n i) (fun b => qabs (im_v i a b)) b); [intros; apply AB|exact Hb].
    + apply (SlopecProofs.qsum_term (im_n i) (fun a => qsum (im_n i) (fun b => qabs (im_v i a b))) a); [intros; apply SlopecProofs.qsum_ge; intros; apply AB|exact Ha].
Qed.
End Props.

(* ---------------------------------------------------------------- concrete cases *)
(* a step of one arcsecond *)
Definition ex_config (source sampling : string) (size : option Qc) (layers profile : list Qc) (focus : option Qc) (thr : Qc) (scale : option Qc) (crop : bool) : config :=
  mkConfig source sampling size (qz 4848) 1 1 1 layers profile focus None 0 thr scale crop.
Definition ex_build := build (Q2Qc (22#7)) (fun _ _ => 1) (fun _ _ => 0) (fun _ _ => 1) 1 1 1 (fun _ _ _ => 1).
Definition ex_image : image := mkImage 3 (fun i j => if ((i =? 1) && (j =? 1))%nat%bool then 1 else 0).
Definition summary (r : res (list point)) : option (list (Qc * Qc * Qc)) := match r with Ok l => Some (map (fun p => (p_x p, p_y p, p_flux p)) l) | Err _ => None end.
Definition rows (l : list (Q * Q * Q)) := map (fun q => let '(a, b, c) := q in (Q2Qc a, Q2Qc b, Q2Qc c)) l.

Example C124_disc_example : summary (ex_build (ex_config "TOPHAT" "CARTESIAN" (Some (qz 4)) [] [] None 0 None false) ex_image)
  = Some (rows [(-2#3, -2#3, 1#4); (2#3, -2#3, 1#4); (-2#3, 2#3, 1#4); (2#3, 2#3, 1#4)]).
Proof. vm_compute. reflexivity. Qed.
Example C124_refused_example : ex_build (ex_config "GAUSS" "POLAR" (Some 1) [] [] None 0 None false) ex_image = Err ValueError /\ ex_build (ex_config "STAR" "POLAR" (Some 1) [] [] None 0 None false) ex_image = Err ValueError.
Proof. split; vm_compute; reflexivity. Qed.
Example C124_layers_example : match ex_build (ex_config "POINT_SOURCE" "POLAR" None [qz 90; qz 100] [Q2Qc (3#4); Q2Qc (1#4)] (Some (qz 90)) 0 None false) ex_image with
  | Ok [a; b] => (match p_focus a with Fin q => is0 q | _ => false end, is0 (p_flux a - Q2Qc (3#4)), is0 (p_flux b - Q2Qc (1#4)), match p_focus b with Fin q => qlt 0 q | _ => false end) = (true, true, true, true)
  | _ => False end.
Proof. vm_compute. reflexivity. Qed.
Example C124_polar_points_example : option_map (@length _) (summary (ex_build (ex_config "FROM_PSF" "POLAR" None [] [] None 0 (Some (Q2Qc (5#3))) false) ex_image)) = Some 19%nat.
Proof. vm_compute. reflexivity. Qed.
Example C124_crop_example : let st := mkState ex_image [] in
  match trigger (Q2Qc (22#7)) (fun _ _ => 1) (fun _ _ => 0) (fun _ _ => 1) 1 1 1 (fun _ _ _ => 1) (ex_config "FROM_PSF" "CARTESIAN" None [] [] None 0 (Some 1) true) st (Some (mkImage 5 (fun i j => qn (10 * i + j)))) with
  | Ok (st', true) => map (fun i => map (im_v (s_image st') i) (seq 0 3)) (seq 0 3) = map (map qn) [[11; 12; 13]; [21; 22; 23]; [31; 32; 33]]%nat
  | _ => False end.
Proof. vm_compute. reflexivity. Qed.

(* A small disc has no point at all, so that its light is lost. *)
Theorem C124_disc_light_refuted : exists c im, c_source c = "TOPHAT"%string /\ c_size c = Some two /\ step c = 1 /\ ex_build c im = Ok [].
Proof. exists (ex_config "TOPHAT" "CARTESIAN" (Some two) [] [] None 0 None false), ex_image. repeat split; try reflexivity; try (apply Qc_is_canon; reflexivity); vm_compute; reflexivity. Qed.
(* The light of the points removed by the threshold is lost: the fluxes do not add to one any more. *)
Theorem C124_threshold_light_refuted : exists c im pts, lsum (c_profile c) = 1 /\ ex_build c im = Ok pts /\ lsum (map p_flux pts) = Q2Qc (3#4).
Proof.
  exists (ex_config "POINT_SOURCE" "POLAR" None [qz 90; qz 100] [Q2Qc (3#4); Q2Qc (1#4)] (Some (qz 90)) 1 None false), ex_image. eexists. split; [apply Qc_is_canon; reflexivity|].
  split; [vm_compute; reflexivity|]. apply Qc_is_canon. vm_compute. reflexivity.
Qed.
(* An image as wide as a step, with its light in the middle, gives one point that is not in the middle. *)
Theorem C124_psf_centre_refuted : exists c p, ex_build c ex_image = Ok [p] /\ c_source c = "FROM_PSF"%string /\ p_x p = - / two /\ p_y p = - / two.
Proof.
  exists (ex_config "FROM_PSF" "CARTESIAN" None [] [] None 0 (Some (Q2Qc (1#3))) false). eexists. split; [vm_compute; reflexivity|].
  split; [reflexivity|]. split; apply Qc_is_canon; vm_compute; reflexivity.
Qed.
Print Assumptions C124_disc_inside.
Print Assumptions C124_disc_balanced.
Print Assumptions C124_disc_empty.
Print Assumptions C124_refused.
Print Assumptions C124_flat.
Print Assumptions C124_layers.
Print Assumptions C124_focus.
Print Assumptions C124_threshold.
Print Assumptions C124_polar_points.
Print Assumptions C124_unchanged.
Print Assumptions C124_crop.
Print Assumptions C124_size_refused.
Print Assumptions C124_disc_light_refuted.
Print Assumptions C124_threshold_light_refuted.
Print Assumptions C124_psf_centre_refuted.
