(* Proofs about the Shack-Hartmann slope computer. *)
From Coq Require Import String List ZArith Bool PeanoNat Lia QArith Qcanon Lqa Field Field_theory.
From Verif Require Import PyBase PyLemmas Arith ArithLemmas SumLemmas FilterSpec NpModel NpSpec NpProofs NpSegments VecModel
  SlopesModel SlopesSpec SlopesProofs RebinModel RebinProofs CutProofs OpticalModel ExtModel QcTac SlopecModel SlopecSpec ShSpec SlopecProofs GenProofs.
Import ListNotations.
Local Open Scope nat_scope.

(* coordinates *)
Lemma qnat_sub a b : b <= a -> qnat (a - b) = (qnat a - qnat b)%Qc.
Proof. intros H. apply Qc_iff. rewrite this_sub. unfold qnat. rewrite !this_q, Nat2Z.inj_sub by exact H. unfold Qminus. rewrite <- inject_Z_opp, <- inject_Z_plus. reflexivity. Qed.
Lemma qnat_add a b : qnat (a + b) = (qnat a + qnat b)%Qc.
Proof. apply Qc_iff. rewrite this_add. unfold qnat. rewrite !this_q, Nat2Z.inj_add, inject_Z_plus. reflexivity. Qed.
Lemma qnat_mul a b : qnat (a * b) = (qnat a * qnat b)%Qc.
Proof. apply Qc_iff. rewrite this_mul. unfold qnat. rewrite !this_q, Nat2Z.inj_mul, inject_Z_mult. reflexivity. Qed.
Lemma qnat_1 : qnat 1 = 1%Qc. Proof. reflexivity. Qed.
Lemma qnat_2 : qnat 2 = (1 + 1)%Qc. Proof. apply Qc_iff. reflexivity. Qed.
Lemma half_nat k : half (Z.of_nat k) = (qnat k / (1 + 1))%Qc.
Proof. apply Qc_iff. rewrite this_div. unfold half, qnat. rewrite !this_q. change (this (1 + 1)%Qc) with 2%Q. unfold Qeq, Qdiv, inject_Z. cbn. lia. Qed.
Lemma half_pred k : 0 < k -> half (Z.of_nat k - 1) = ((qnat k - 1) / (1 + 1))%Qc.
Proof. intros H. replace (Z.of_nat k - 1)%Z with (Z.of_nat (k - 1)) by lia. rewrite half_nat, qnat_sub by lia. reflexivity. Qed.
Lemma two_neq : (1 + 1)%Qc <> 0%Qc. Proof. discriminate. Qed.

Lemma axis_centre np : 2 <= np -> axis np 1%Qc false false = map (centre np) (seq 0 np).
Proof.
  intros H. unfold axis. rewrite Bool.andb_false_r. apply map_ext. intros i. unfold centre. rewrite half_pred, half_nat by lia.
  change (qn i) with (qnat i). rewrite qnat_add, qnat_mul, qnat_1, qnat_2. assert (P := Qc_pos_neq _ (qnat_pos np ltac:(lia))). field.
  split; [exact P|apply two_neq].
Qed.
Lemma make_axis_centre np : 2 <= np -> make_axis np 1%Qc false false false = Ok (map (centre np) (seq 0 np)).
Proof. intros H. unfold make_axis. replace (np <=? 1) with false by (symmetry; apply Nat.leb_gt; lia). cbn [andb]. now rewrite axis_centre. Qed.

Lemma list_tab {V} (l : list V) (f : nat -> V) n d : length l = n -> (forall j, j < n -> nth j l d = f j) -> l = map f (seq 0 n).
Proof. intros L H. rewrite (map_seq_nth' l d n L). apply map_ext_in. intros j Hj. apply in_seq in Hj. apply H. lia. Qed.

Lemma make_xy_tab np : 2 <= np -> exists gx gy, make_xy np 1%Qc false false false = Ok (gx, gy) /\
  concat gx = map (fun j => centre np (j mod np)) (seq 0 (np * np)) /\ concat gy = map (fun j => centre np (j / np)) (seq 0 (np * np)).
Proof.
  intros H. unfold make_xy. rewrite make_axis_centre by exact H. cbn [bind]. rewrite map_length, seq_length. do 2 eexists. split; [reflexivity|]. split.
  - apply (list_tab _ _ _ 0%Qc).
    + rewrite (concat_length_uniform _ np), repeat_length; [reflexivity|]. intros x Hx. apply repeat_spec in Hx. subst. now rewrite map_length, seq_length.
    + intros j Hj. rewrite (nth_concat _ np); [|lia|]. 2:{ intros x Hx. apply repeat_spec in Hx. subst. now rewrite map_length, seq_length. }
      assert (D : j / np < np) by (apply Nat.div_lt_upper_bound; lia). assert (M : j mod np < np) by (apply Nat.mod_upper_bound; lia).
      rewrite (nth_indep _ _ (map (centre np) (seq 0 np))) by (rewrite repeat_length; exact D). rewrite nth_repeat_same. now apply nth_map_seq.
  - rewrite map_map. apply (list_tab _ _ _ 0%Qc).
    + rewrite (concat_length_uniform _ np), map_length, seq_length; [reflexivity|]. intros x Hx. apply in_map_iff in Hx as (v & <- & _). apply repeat_length.
    + intros j Hj. rewrite (nth_concat _ np); [|lia|]. 2:{ intros x Hx. apply in_map_iff in Hx as (v & <- & _). apply repeat_length. }
      assert (D : j / np < np) by (apply Nat.div_lt_upper_bound; lia). assert (M : j mod np < np) by (apply Nat.mod_upper_bound; lia).
      rewrite nth_map_seq by exact D. rewrite (nth_indep _ _ (centre np (j / np))) by (rewrite repeat_length; exact M). apply nth_repeat_same.
Qed.

Lemma qabs_absolute x : qabs x = absolute x.
Proof. unfold qabs, absolute, qlt. destruct (Qclt_le_dec x 0); reflexivity. Qed.
Lemma qpow_power x e : qpow x e = power x e.
Proof. induction e; [reflexivity|]. cbn. now rewrite IHe. Qed.
Lemma signed_pow x e : (if qlt 0%Qc x then qpow x e else (- qpow (qabs x) e)%Qc) = signed_power x e.
Proof. unfold signed_power, qlt. rewrite qabs_absolute, !qpow_power. destruct (Qclt_le_dec 0 x); reflexivity. Qed.

Definition mask_ok (mask : option (list Qc)) (np : nat) : Prop := match mask with Some m => length m = np * np | None => True end.

Lemma weights_tab np e mask : 2 <= np -> mask_ok mask np ->
  sh_weights np e mask = Ok (map (fun j => signed_power (centre np (j mod np)) e * weight mask j)%Qc (seq 0 (np * np)),
                             map (fun j => signed_power (centre np (j / np)) e * weight mask j)%Qc (seq 0 (np * np)),
                             map (weight mask) (seq 0 (np * np))).
Proof.
  intros H M. unfold sh_weights. destruct (make_xy_tab np H) as (gx & gy & -> & Ex & Ey). cbn [bind fst snd]. rewrite Ex, Ey, !map_map.
  assert (W : forall (k : nat -> nat), map (fun x => if qlt 0%Qc (centre np (k x)) then qpow (centre np (k x)) e else (- qpow (qabs (centre np (k x))) e)%Qc) (seq 0 (np * np)) =
     map (fun j => signed_power (centre np (k j)) e) (seq 0 (np * np))) by (intros k; apply map_ext; intros j; apply signed_pow).
  rewrite (W (fun j => j mod np)), (W (fun j => j / np)). destruct mask as [m|].
  - cbn [mask_ok] in M. assert (Em : m = map (weight (Some m)) (seq 0 (np * np))) by (apply (list_tab _ _ _ 0%Qc M); reflexivity).
    assert (B : forall u, bcast (A:=qc) mul (map u (seq 0 (np * np))) m = Ok (map (fun j => u j * weight (Some m) j)%Qc (seq 0 (np * np)))).
    { intros u. transitivity (bcast (A:=qc) mul (map u (seq 0 (np * np))) (map (weight (Some m)) (seq 0 (np * np)))); [now rewrite <- Em|apply bcast_tab]. }
    rewrite !B. cbn [bind]. now rewrite <- Em.
  - f_equal. f_equal; [f_equal|]; [| |rewrite repeat_map_seq; reflexivity]; apply map_ext; intros j; cbn [weight]; ring.
Qed.

(* pixels *)
Lemma take1_map {V} (l : list V) i d : (0 <= i < zlen l)%Z -> take1 l i = Ok (nth (Z.to_nat i) l d).
Proof.
  intros H. assert (Q : take_list l [i] = Ok [nth (Z.to_nat i) l d]) by (rewrite (take_list_map l [i] d); [reflexivity|intros j [<-|[]]; exact H]).
  unfold take_list in Q. cbn [map_res] in Q. unfold take1. destruct (index_pos (zlen l) i) as [p|]; cbn [bind] in *; [|discriminate].
  unfold gather in Q. cbn [map_res] in Q. destruct (at_pos l p); cbn [bind] in *; [congruence|discriminate].
Qed.
Lemma pixels_ok frame nr nc idxs np : rectangular frame nr nc -> subaps_ok idxs np nr nc ->
  sh_pixels frame [nr; nc] idxs = Ok (map (map (pixel frame nc)) idxs).
Proof.
  intros (Lr & Pc & Rc) (_ & I). unfold sh_pixels. apply map_res_pure. intros idx Hi. destruct (I idx Hi) as [_ R].
  unfold unravel_index_2d. replace (nc =? 0)%Z with false by (symmetry; apply Z.eqb_neq; lia). cbn [bind fst snd].
  clear Hi. induction idx as [|i idx IH]; [reflexivity|]. cbn [map combine map_res].
  assert (B := R i (or_introl eq_refl)). assert (D : (0 <= i / nc < nr)%Z) by (split; [apply Z.div_pos; lia|apply Z.div_lt_upper_bound; lia]).
  assert (M : (0 <= i mod nc < nc)%Z) by (apply Z.mod_pos_bound; lia).
  assert (E : take2d frame ((i / nc)%Z, (i - i / nc * nc)%Z) = Ok (pixel frame nc i)).
  { unfold take2d. cbn [fst snd]. rewrite (take1_map frame _ []) by (unfold zlen; lia). cbn [bind].
    replace (i - i / nc * nc)%Z with (i mod nc)%Z by (rewrite Z.mod_eq by lia; lia).
    assert (Hin : In (nth (Z.to_nat (i / nc)) frame []) frame) by (apply nth_In; lia).
    rewrite (take1_map _ _ 0%Qc) by (unfold zlen; rewrite (Rc _ Hin); exact M). reflexivity. }
  rewrite E. cbn [bind]. rewrite IH by (intros; apply R; now right). reflexivity.
Qed.

(* sums of finite values are finite *)
Lemma fold_fin (l : list Qc) a : fold_left eadd (map Fin l) (Fin a) = Fin (fold_left Qcplus l a).
Proof. revert a. induction l as [|x l IH]; intros a; [reflexivity|]. cbn [map fold_left]. apply IH. Qed.
Lemma vsum_fin (l : list Qc) : vsum (A:=extar) (map Fin l) = Fin (vsum (A:=qc) l).
Proof. exact (fold_fin l 0%Qc). Qed.

Lemma fold_res_app {S X} (f : S -> X -> res S) s a b : fold_res f s (a ++ b) = (s' <- fold_res f s a ;; fold_res f s' b).
Proof. revert s. induction a as [|x a IH]; intros s; [reflexivity|]. cbn [app fold_res]. destruct (f s x); [apply IH|reflexivity]. Qed.

Definition mask_nonneg (mask : option (list Qc)) : Prop := match mask with Some m => forall x, In x m -> (0 <= x)%Qc | None => True end.
Lemma weight_ge mask j : mask_nonneg mask -> (0 <= weight mask j)%Qc.
Proof.
  intros H. destruct mask as [m|]; [|discriminate]. cbn [weight mask_nonneg] in *. destruct (Nat.lt_ge_cases j (length m)) as [L|L].
  - apply H. now apply nth_In.
  - rewrite nth_overflow by exact L. apply Qcle_refl.
Qed.
Lemma qmul_ge a b : (0 <= a)%Qc -> (0 <= b)%Qc -> (0 <= a * b)%Qc.
Proof. intros A B. unfold Qcle in *. rewrite this_mul. change (this 0%Qc) with 0%Q in *. nra. Qed.

Section Sh.
Variables (idxs : list (list Z)) (np : nat) (nr nc : Z).
Hypothesis (Hnp : 2 <= np) (S : subaps_ok idxs np nr nc).
Notation n := (length idxs).
Notation tab f := (map f (seq 0 n)).

Lemma n_pos : 0 < n. Proof. destruct S as [N _]. destruct idxs; [contradiction|cbn; lia]. Qed.

Lemma map_tab2 {V} (f : Z -> V) : map (map f) idxs = tab (fun s => map (fun j => f (nth j (nth s idxs []) 0%Z)) (seq 0 (np * np))).
Proof.
  rewrite (map_nth_seq _ idxs []). apply map_ext_in. intros s Hs. apply in_seq in Hs. assert (I : In (nth s idxs []) idxs) by (apply nth_In; lia).
  rewrite (map_nth_seq f _ 0%Z). destruct S as [_ Q]. now rewrite (proj1 (Q _ I)).
Qed.

Lemma map_res_tab {V} (g : nat -> list Qc) (h : list Qc -> res V) (k : nat -> V) : (forall s, s < n -> h (g s) = Ok (k s)) ->
  map_res h (tab g) = Ok (tab k).
Proof.
  intros H. assert (forall a m, (forall s, a <= s < a + m -> h (g s) = Ok (k s)) -> map_res h (map g (seq a m)) = Ok (map k (seq a m))).
  { clear. intros a m. revert a. induction m as [|m IH]; intros a H; [reflexivity|]. cbn [seq map map_res]. rewrite (H a) by lia. cbn [bind].
    rewrite IH by (intros; apply H; lia). reflexivity. }
  apply H0. intros s Hs. apply H. lia.
Qed.
Lemma map_res_tab2 {V} (g : nat -> list Qc) (f : nat -> ext) (h : list Qc * ext -> res V) (k : nat -> V) : (forall s, s < n -> h (g s, f s) = Ok (k s)) ->
  map_res h (combine (tab g) (tab f)) = Ok (tab k).
Proof.
  intros H. assert (forall a m, (forall s, a <= s < a + m -> h (g s, f s) = Ok (k s)) -> map_res h (combine (map g (seq a m)) (map f (seq a m))) = Ok (map k (seq a m))).
  { clear. intros a m. revert a. induction m as [|m IH]; intros a H; [reflexivity|]. cbn [seq map map_res combine]. rewrite (H a) by lia. cbn [bind].
    rewrite IH by (intros; apply H; lia). reflexivity. }
  apply H0. intros s Hs. apply H. lia.
Qed.

Lemma wsum_tab (g w : nat -> Qc) m : wsum (map g (seq 0 m)) (map w (seq 0 m)) = Ok (qsum m (fun j => g j * w j)%Qc).
Proof. unfold wsum. rewrite bcast_tab. cbn [bind]. f_equal. apply qsum_list. Qed.
Lemma centroid_tab (g w : nat -> Qc) m k : centroid (map g (seq 0 m)) (map w (seq 0 m)) (Fin k) = Ok (Fin (qsum m (fun j => g j * w j) * k)%Qc).
Proof.
  unfold centroid. rewrite bcast_tab. cbn [bind]. rewrite map_map. cbn [emul].
  change (map (fun x : nat => Fin (g x * w x * k)%Qc) (seq 0 m)) with (map (fun x => Fin ((fun j => (g j * w j * k)%Qc) x)) (seq 0 m)).
  rewrite <- (map_map (fun j => (g j * w j * k)%Qc) Fin), vsum_fin, qsum_list. do 2 f_equal. exact (sumn_scale_r qc qc_field m k (fun j => (g j * w j)%Qc)).
Qed.

Definition cent (g w : nat -> Qc) m (f : ext) : ext := vsum (A:=extar) (map (fun j => emul (Fin (g j * w j)%Qc) f) (seq 0 m)).
Lemma centroid_any (g w : nat -> Qc) m f : centroid (map g (seq 0 m)) (map w (seq 0 m)) f = Ok (cent g w m f).
Proof. unfold centroid. rewrite bcast_tab. cbn [bind]. rewrite map_map. reflexivity. Qed.
Lemma cent_fin g w m k : cent g w m (Fin k) = Fin (qsum m (fun j => g j * w j) * k)%Qc.
Proof. assert (A := centroid_any g w m (Fin k)). rewrite centroid_tab in A. congruence. Qed.

Variables (px : nat -> nat -> Qc) (thr : Qc) (e : nat) (mask : option (list Qc)).
Hypothesis (M : mask_ok mask np) (MN : mask_nonneg mask).

Notation light_ := (subap_light np px thr mask).
Notation mean_ := (mean_light n np px thr mask).

Lemma light_ge0 s : (0 <= light_ s)%Qc.
Proof. apply qsum_ge. intros j _. apply qmul_ge; [apply pos_ge|now apply weight_ge]. Qed.

Definition factor_of (tot : nat -> Qc) (s : nat) : ext :=
  let lim := ediv (Fin 1%Qc) (emul (ediv (Fin (qsum n tot)) (Fin (qn n))) (Fin (Q2Qc (1 # 1000)))) in
  let f := ediv (Fin 1%Qc) (Fin (tot s)) in if eltb lim f then Fin 0%Qc else f.

Lemma milli_pos : (0 < Q2Qc (1 # 1000))%Qc. Proof. reflexivity. Qed.
Lemma inv_lt a b : (0 < a)%Qc -> (0 < b)%Qc -> qlt (1 / a) (1 / b) = true <-> (b < a)%Qc.
Proof.
  intros A B. rewrite qlt_true, !this_div. change (this 1%Qc) with 1%Q. unfold Qclt in *. change (this 0%Qc) with 0%Q in *.
  assert (Ea : (1 / this a * this a == 1)%Q) by (field; lra). assert (Eb : (1 / this b * this b == 1)%Q) by (field; lra).
  set (u := (1 / this a)%Q) in *. set (v := (1 / this b)%Q) in *. clearbody u v. assert (0 < u)%Q by nra. assert (0 < v)%Q by nra. split; intros; nra.
Qed.

Lemma factor_light s : (0 < mean_)%Qc -> factor_of light_ s = if lit n np px thr mask s then Fin (1 / light_ s)%Qc else Fin 0%Qc.
Proof.
  intros P. unfold factor_of. rewrite ediv_pos by (apply qnat_pos, n_pos). cbn [emul].
  change (qsum n light_ / qn n)%Qc with mean_. set (m := (mean_ * Q2Qc (1 # 1000))%Qc).
  assert (Pm : (0 < m)%Qc). { unfold m. qclra. }
  rewrite ediv_pos by exact Pm. unfold lit. fold m. assert (L0 := light_ge0 s). set (t := light_ s) in *.
  destruct (Qc_eq_dec t 0%Qc) as [Z|N].
  - rewrite Z. cbn [ediv]. replace (is0 0%Qc) with true by reflexivity. replace (is0 1%Qc) with false by reflexivity. cbn [eltb negb is_neg].
    destruct (Qclt_le_dec 0 m) as [_|B]; [reflexivity|]. exfalso. exact (Qclt_not_le _ _ Pm B).
  - assert (Pt : (0 < t)%Qc). { apply Qcle_lt_or_eq in L0 as [?|?]; [assumption|]. exfalso. apply N. symmetry. assumption. }
    rewrite ediv_pos by exact Pt. cbn [eltb]. destruct (Qclt_le_dec t m) as [A|A].
    + now rewrite (proj2 (inv_lt m t Pm Pt) A).
    + destruct (qlt (1 / m) (1 / t)) eqn:Q; [|reflexivity]. exfalso. apply inv_lt in Q; auto. exact (Qclt_not_le _ _ Q A).
Qed.

Lemma positive_thr : (if qlt 0%Qc thr then thr else 0%Qc) = positive_part thr.
Proof. unfold positive_part, qlt. destruct (Qclt_le_dec 0 thr); reflexivity. Qed.

Definition xw_ := map (fun j => signed_power (centre np (j mod np)) e * weight mask j)%Qc (seq 0 (np * np)).
Definition yw_ := map (fun j => signed_power (centre np (j / np)) e * weight mask j)%Qc (seq 0 (np * np)).
Definition mw_ := map (weight mask) (seq 0 (np * np)).
Definition raw_x s : ext := cent (spot px thr s) (fun j => signed_power (centre np (j mod np)) e * weight mask j)%Qc (np * np) (factor_of light_ s).
Definition raw_y s : ext := cent (spot px thr s) (fun j => signed_power (centre np (j / np)) e * weight mask j)%Qc (np * np) (factor_of light_ s).

Lemma raw_lit s : (0 < mean_)%Qc -> raw_x s = Fin (slope_x n np px thr mask e s) /\ raw_y s = Fin (slope_y n np px thr mask e s).
Proof.
  intros P. unfold raw_x, raw_y, slope_x, slope_y. rewrite factor_light by exact P. destruct (lit n np px thr mask s); rewrite !cent_fin; split; f_equal;
  try (unfold moment_x, moment_y, Qcdiv; ring); ring.
Qed.

(* the end of a trigger, from the pixels of the sub-apertures *)
Lemma sh_end_ok o dt window p : out_ok o n n ->
  let flux s := qsum (np * np) (px s) in
  let pixels := tab (fun s => map (px s) (seq 0 (np * np))) in
  exists o', sh_end (mkSh idxs xw_ yw_ mw_ thr dt window p) o pixels = Ok o' /\
    out_ok o' n n /\
    xslopes extar (so_slopes o') = Ok (tab raw_x) /\ yslopes extar (so_slopes o') = Ok (tab raw_y) /\
    so_flux o' = tab flux /\ so_total o' = qsum n flux /\ so_mean o' = Fin (qsum n flux / qnat n)%Qc /\
    sl_inter (so_slopes o') = sl_inter (so_slopes o).
Proof.
  intros O flux pixels. unfold sh_end, pixels, mw_, xw_, yw_. cbn [sh_idxs sh_dt sh_thr sh_mask sh_xw sh_yw]. rewrite !map_map, !map_length, seq_length.
  replace (n =? 0) with false by (symmetry; apply Nat.eqb_neq; assert (Q := n_pos); lia).
  rewrite positive_thr.
  replace (tab (fun x => map (above (positive_part thr)) (map (px x) (seq 0 (np * np)))))
    with (tab (fun x => map (spot px thr x) (seq 0 (np * np)))).
  2:{ apply map_ext. intros x. rewrite map_map. apply map_ext. intros j. unfold spot. now rewrite above_pos. }
  rewrite (map_res_tab _ _ light_) by (intros; apply wsum_tab). cbn [bind]. rewrite !map_length, seq_length, !map_map.
  replace (tab (fun x => vsum (A:=qc) (map (px x) (seq 0 (np * np))))) with (tab flux)
    by (apply map_ext; intros x; symmetry; apply qsum_list).
  rewrite !qsum_list.
  change (tab (fun x => if eltb (ediv (Fin 1) (emul (ediv (Fin (qsum n light_)) (Fin (qn n))) (Fin (Q2Qc (1 # 1000))))) (ediv (Fin 1) (Fin (light_ x))) then Fin 0 else ediv (Fin 1) (Fin (light_ x))))
    with (tab (factor_of light_)).
  rewrite (map_res_tab2 _ _ _ raw_x) by (intros; cbn [fst snd]; apply centroid_any). cbn [bind].
  rewrite (map_res_tab2 _ _ _ raw_y) by (intros; cbn [fst snd]; apply centroid_any). cbn [bind].
  destruct O as (Oh & Ox & Oy & Ov & Of).
  destruct (write_both (so_slopes o) n (tab raw_x) (tab raw_y) Oh Ox Oy Ov
              ltac:(rewrite map_length, seq_length; reflexivity) ltac:(rewrite map_length, seq_length; reflexivity))
    as (s1 & s2 & E1 & E2 & X & Y & Ix & Iy & Lv & Il).
  rewrite E1. cbn [bind]. rewrite E2. cbn [bind]. rewrite assign_all_ok by (rewrite map_length, seq_length; auto). cbn [bind].
  eexists. split; [reflexivity|]. cbn [so_slopes so_flux so_total so_mean]. split.
  { unfold out_ok. cbn [so_slopes so_flux]. rewrite Ix, Iy, map_length, seq_length. auto. }
  split; [exact X|]. split; [exact Y|]. repeat split; auto. now rewrite ediv_pos by (apply qnat_pos, n_pos).
Qed.
End Sh.
