(* Proofs about the weights from accumulated pixels and runs of the Shack-Hartmann slope
   computer. *)
From Coq Require Import String List ZArith Bool PeanoNat Lia QArith Qcanon Lqa Field Field_theory.
From Verif Require Import PyBase PyLemmas Arith ArithLemmas SumLemmas FilterSpec NpModel NpSpec NpProofs NpSegments VecModel
  SlopesModel SlopesSpec SlopesProofs RebinModel RebinProofs CutProofs OpticalModel ExtModel QcTac SlopecModel SlopecSpec ShSpec SlopecProofs GenProofs ShProofs
  AccSpec AccProofs.
Import ListNotations.
Local Open Scope nat_scope.

(* minimum and maximum *)
Lemma fold_min (l : list Qc) a : let r := fold_left (fun a b => if qlt b a then b else a) l a in
  (r = a \/ In r l) /\ (r <= a)%Qc /\ forall x, In x l -> (r <= x)%Qc.
Proof.
  revert a. induction l as [|b l IH]; intros a; cbn zeta; [cbn; split; [now left|split; [apply Qcle_refl|contradiction]]|].
  cbn [fold_left]. destruct (qlt b a) eqn:E.
  - destruct (IH b) as (M & L & F). split; [destruct M as [->|M]; right; [now left|now right]|]. split; [qclra|]. intros x [<-|Hx]; [exact L|now apply F].
  - destruct (IH a) as (M & L & F). split; [destruct M as [->|M]; [now left|right; now right]|]. split; [exact L|]. intros x [<-|Hx]; [qclra|now apply F].
Qed.
Lemma fold_max (l : list Qc) a : let r := fold_left (fun a b => if qlt a b then b else a) l a in
  (r = a \/ In r l) /\ (a <= r)%Qc /\ forall x, In x l -> (x <= r)%Qc.
Proof.
  revert a. induction l as [|b l IH]; intros a; cbn zeta; [cbn; split; [now left|split; [apply Qcle_refl|contradiction]]|].
  cbn [fold_left]. destruct (qlt a b) eqn:E.
  - destruct (IH b) as (M & L & F). split; [destruct M as [->|M]; right; [now left|now right]|]. split; [qclra|]. intros x [<-|Hx]; [exact L|now apply F].
  - destruct (IH a) as (M & L & F). split; [destruct M as [->|M]; [now left|right; now right]|]. split; [exact L|]. intros x [<-|Hx]; [qclra|now apply F].
Qed.
Lemma lmin_ok m a : 0 < m -> is_min m a (lmin (map a (seq 0 m))).
Proof.
  intros H. destruct m as [|m]; [lia|]. cbn [seq map lmin]. destruct (fold_min (map a (seq 1 m)) (a 0)) as (M & L & F). cbn zeta in *.
  set (r := fold_left _ _ _) in *. split.
  - destruct M as [->|M]; [exists 0; auto|]. apply in_map_iff in M as (j & E & Hj). apply in_seq in Hj. exists j. split; [lia|exact E].
  - intros j Hj. destruct j; [exact L|]. apply F, in_map, in_seq. lia.
Qed.
Lemma lmax_ok m a : 0 < m -> is_max m a (lmax (map a (seq 0 m))).
Proof.
  intros H. destruct m as [|m]; [lia|]. cbn [seq map lmax]. destruct (fold_max (map a (seq 1 m)) (a 0)) as (M & L & F). cbn zeta in *.
  set (r := fold_left _ _ _) in *. split.
  - destruct M as [->|M]; [exists 0; auto|]. apply in_map_iff in M as (j & E & Hj). apply in_seq in Hj. exists j. split; [lia|exact E].
  - intros j Hj. destruct j; [exact L|]. apply F, in_map, in_seq. lia.
Qed.
Lemma is_max_unique m a x y : is_max m a x -> is_max m a y -> x = y.
Proof. intros ((i & Hi & <-) & Fx) ((j & Hj & <-) & Fy). apply Qcle_antisym; auto. Qed.

Lemma rev_tab {V} (f : nat -> V) m : rev (map f (seq 0 m)) = map (fun j => f (m - 1 - j)) (seq 0 m).
Proof.
  destruct m as [|m']; [reflexivity|]. set (m := S m'). apply (list_tab _ _ _ (f 0)).
  - now rewrite rev_length, map_length, seq_length.
  - intros j Hj. rewrite rev_nth by (rewrite map_length, seq_length; exact Hj). rewrite map_length, seq_length.
    rewrite nth_map_seq by lia. f_equal. lia.
Qed.

(* the weights of one sub-aperture *)
Definition one_weight (window : option Qc) (w : list Qc) : list Qc :=
  if qlt 0%Qc (lmax w) then
    match window with
    | Some thr => map2 (fun a b => if negb (qlt a thr) || negb (qlt b thr) then 1%Qc else 0%Qc) w (rev w)
    | None => map (fun x => (x / lmax w)%Qc) w
    end
  else map (fun _ => 1%Qc) w.
Lemma int_weights_each window acc : int_weights window acc = map (fun w => one_weight window (map (fun x => (x - lmin w)%Qc) w)) acc.
Proof.
  unfold int_weights. set (d := map (fun w => map (fun x => (x - lmin w)%Qc) w) acc).
  replace (map (fun w => one_weight window (map (fun x => (x - lmin w)%Qc) w)) acc) with (map (one_weight window) d) by (unfold d; now rewrite map_map).
  destruct (existsb (fun w => qlt 0%Qc (lmax w)) d) eqn:E; [reflexivity|]. apply map_ext_in. intros w Hw. unfold one_weight.
  replace (qlt 0%Qc (lmax w)) with false; [reflexivity|]. symmetry. destruct (qlt 0%Qc (lmax w)) eqn:Q; [|reflexivity].
  assert (existsb (fun w => qlt 0%Qc (lmax w)) d = true) by (apply existsb_exists; eauto). congruence.
Qed.

Lemma one_weight_ok window m a : 0 < m -> exists w, one_weight window (map (fun x => (x - lmin (map a (seq 0 m)))%Qc) (map a (seq 0 m))) = map w (seq 0 m) /\
  weights_from window m a w.
Proof.
  intros H. set (lo := lmin (map a (seq 0 m))). assert (Lo := lmin_ok m a H : is_min m a lo). rewrite map_map.
  set (hi := lmax (map a (seq 0 m))). assert (Hi := lmax_ok m a H : is_max m a hi).
  assert (D : lmax (map (fun x => (a x - lo)%Qc) (seq 0 m)) = (hi - lo)%Qc).
  { apply (is_max_unique m (fun x => (a x - lo)%Qc)); [now apply lmax_ok|]. destruct Hi as ((j & Hj & E) & F). split.
    - exists j. split; [exact Hj|]. now rewrite E.
    - intros i Hi. assert (Q := F i Hi). qclra. }
  unfold one_weight. rewrite D. destruct (Qclt_le_dec lo hi) as [B|B].
  - replace (qlt 0 (hi - lo)) with true by (symmetry; qclra). destruct window as [thr|].
    + rewrite rev_tab, map2_map. eexists. split; [reflexivity|]. exists lo, hi. split; [exact Lo|]. split; [exact Hi|].
      destruct (Qclt_le_dec lo hi) as [_|C]; [|exfalso; exact (Qclt_not_le _ _ B C)]. intros j Hj.
      assert (G : forall x y : Qc, negb (qlt x y) = true <-> (y <= x)%Qc) by (intros x y; rewrite negb_true_iff, qlt_false; reflexivity).
      split.
      * intros [C|C]; [rewrite (proj2 (G _ _) C); reflexivity|rewrite (proj2 (G _ _) C), orb_true_r; reflexivity].
      * intros [C1 C2]. destruct (negb (qlt (a j - lo) thr)) eqn:Q1; [exfalso; apply C1; now apply G|].
        destruct (negb (qlt (a (m - 1 - j) - lo) thr)) eqn:Q2; [exfalso; apply C2; now apply G|]. reflexivity.
    + rewrite map_map. eexists. split; [reflexivity|]. exists lo, hi. split; [exact Lo|]. split; [exact Hi|].
      destruct (Qclt_le_dec lo hi) as [_|C]; [|exfalso; exact (Qclt_not_le _ _ B C)]. reflexivity.
  - replace (qlt 0 (hi - lo)) with false by (symmetry; qclra). rewrite map_map. eexists. split; [reflexivity|]. exists lo, hi. split; [exact Lo|].
    split; [exact Hi|]. destruct (Qclt_le_dec lo hi) as [C|_]; [exfalso; exact (Qclt_not_le _ _ C B)|]. reflexivity.
Qed.

(* the weights lie between 0 and 1 *)
Lemma weights_range window m a w j : weights_from window m a w -> j < m -> (0 <= w j)%Qc /\ (w j <= 1)%Qc.
Proof.
  intros (lo & hi & Lo & Hi & W) Hj. destruct (Qclt_le_dec lo hi) as [B|B].
  - destruct window as [thr|].
    + destruct (W j Hj) as [W1 W0]. destruct (Qclt_le_dec (a j - lo) thr) as [C|C]; [|rewrite W1 by (now left); split; discriminate].
      destruct (Qclt_le_dec (a (m - 1 - j) - lo) thr) as [C'|C']; [|rewrite W1 by (now right); split; discriminate].
      rewrite W0; [split; discriminate|]. split; apply Qclt_not_le; assumption.
    + rewrite (W j Hj). destruct Lo as [_ Lo]. destruct Hi as [_ Hi]. assert (L := Lo j Hj). assert (H := Hi j Hj).
      assert (D : (0 < hi - lo)%Qc) by qclra. unfold Qcle. rewrite this_div. unfold Qcle, Qclt in *. rewrite !this_sub in *. change (this 0%Qc) with 0%Q in *.
      change (this 1%Qc) with 1%Q. split; [apply Qle_shift_div_l; lra|apply Qle_shift_div_r; lra].
  - rewrite (W j Hj). split; discriminate.
Qed.

Lemma NoDup_app_l {X} (a b : list X) : NoDup (a ++ b) -> NoDup a.
Proof.
  induction a as [|x a IH]; intros H; [constructor|]. inversion H as [|? ? N D]; subst. constructor; [|now apply IH]. intros Q. apply N, in_or_app. now left.
Qed.

Section Runs.
Variables (idxs : list (list Z)) (np : nat) (nr nc : Z).
Hypothesis (Hnp : 2 <= np) (S : subaps_ok idxs np nr nc).
Variables (thr : Qc) (e : nat) (mask : option (list Qc)) (dt : Z) (window : option Qc).
Hypothesis (M : mask_ok mask np) (MN : mask_nonneg mask).
Notation n := (length idxs).
Notation none := (mkPost None None None None).
Notation cfg := (mkSh idxs (xw_ np e mask) (yw_ np e mask) (mw_ np mask) thr dt window none).
Notation size := (Z.to_nat (nr * nc)).

Definition flat (x : Z * list (list Qc)) : Z * vec qc := (fst x, concat (snd x)).

Lemma flat_size frame : rectangular frame nr nc -> length (concat frame) = size.
Proof.
  intros (Lr & Pc & Rc). rewrite (concat_length_uniform _ (Z.to_nat nc)) by (intros x Hx; rewrite <- (Rc x Hx); lia). nia.
Qed.
Lemma flat_pixel frame i : rectangular frame nr nc -> (0 <= i < nr * nc)%Z -> nth (Z.to_nat i) (concat frame) 0%Qc = pixel frame nc i.
Proof.
  intros (Lr & Pc & Rc) Hi. rewrite (nth_concat _ (Z.to_nat nc)); [|lia|intros x Hx; rewrite <- (Rc x Hx); lia]. unfold pixel.
  rewrite Z2Nat.inj_mod, Z2Nat.inj_div by lia. reflexivity.
Qed.
Lemma idx_in s j : s < n -> j < np * np -> (0 <= nth j (nth s idxs []) 0 < nr * nc)%Z.
Proof.
  intros Hs Hj. destruct S as [_ Q]. assert (I : In (nth s idxs []) idxs) by (apply nth_In; exact Hs). destruct (Q _ I) as [L R]. apply R, nth_In. lia.
Qed.

Definition tab2 (f : nat -> nat -> Qc) : list (list Qc) := map (fun s => map (f s) (seq 0 (np * np))) (seq 0 n).
Lemma tab2_ext f g : (forall s j, s < n -> j < np * np -> f s j = g s j) -> tab2 f = tab2 g.
Proof. intros H. apply map_ext_in. intros s Hs. apply map_ext_in. intros j Hj. apply in_seq in Hs, Hj. apply H; lia. Qed.
Lemma tab2_mul f g : map2 (map2 Qcmult) (tab2 f) (tab2 g) = tab2 (fun s j => f s j * g s j)%Qc.
Proof. unfold tab2. rewrite map2_map. apply map_ext. intros s. apply map2_map. Qed.

(* the invariant of a run *)
Definition run_state (frames : list (Z * list (list Qc))) (st : sh_st) : Prop :=
  out_ok (ss_out st) n n /\
  ((dt <= 0)%Z \/ acc_state qc dt size (map flat frames) (ss_acc st)) /\
  exists w, weights_in_force dt window idxs np nc frames w /\ ((0 < dt)%Z -> frames <> [] -> ss_w st = Some (tab2 w)) /\ (frames = [] -> ss_w st = None).

Lemma map_app_split {X Y} (g : X -> Y) l : forall a y b, map g l = a ++ y :: b -> exists a' x b', l = a' ++ x :: b' /\ map g a' = a /\ g x = y /\ map g b' = b.
Proof.
  induction l as [|x l IH]; intros a y b E; [destruct a; discriminate|]. destruct a as [|z a]; cbn [map app] in E; injection E as E1 E2.
  - exists [], x, l. auto.
  - destruct (IH a y b E2) as (a' & x' & b' & -> & Ea & Ex & Eb). exists (x :: a'), x', b'. cbn. repeat split; auto. now f_equal.
Qed.
Lemma map_app_inv {X Y} (g : X -> Y) l : forall a b, map g l = a ++ b -> exists a' b', l = a' ++ b' /\ map g a' = a /\ map g b' = b.
Proof.
  induction l as [|x l IH]; intros a b E; cbn [map] in E.
  - symmetry in E. apply app_eq_nil in E as [-> ->]. exists [], []. auto.
  - destruct a as [|y a]; cbn [app] in E.
    + exists [], (x :: l). auto.
    + injection E as E1 E2. destruct (IH a b E2) as (a' & b' & -> & Ea & Eb). exists (x :: a'), b'. cbn. repeat split; auto. now f_equal.
Qed.
(* the window of the flattened frames is the flattened window *)
Lemma window_flat frames cur : current_window dt (map flat frames) cur -> exists cur', current_window dt frames cur' /\ cur = map flat cur'.
Proof.
  intros (before & E & N & B & C). apply map_app_inv in E as (b' & cur' & -> & Eb & Ec). exists cur'. split; [|auto].
  exists b'. split; [reflexivity|]. split; [intros ->; apply N; rewrite <- Ec; reflexivity|]. split.
  - destruct B as [B|(b & x & B & W)]; [left; rewrite B in Eb; now apply map_eq_nil in Eb|]. right. rewrite B in Eb.
    apply map_app_split in Eb as (a' & x' & r & -> & _ & Ex & Er). apply map_eq_nil in Er. subst r. exists a', x'. split; [reflexivity|]. rewrite <- Ex in W. exact W.
  - intros c x Ecur y Hy. assert (Q := C (map flat c) (flat x)). rewrite Ecur, map_app in Ec. symmetry in Ec. specialize (Q Ec (flat y) (in_map flat _ _ Hy)). exact Q.
Qed.

Lemma summed_flat cur s j : (forall x, In x cur -> rectangular (snd x) nr nc) -> s < n -> j < np * np ->
  summed (A:=qc) (map flat cur) (Z.to_nat (nth j (nth s idxs []) 0%Z)) = summed_pixel idxs nc cur s j.
Proof.
  intros R Hs Hj. unfold summed, summed_pixel, qsum. rewrite map_length. apply (sumn_ext (A:=qc)). intros k Hk.
  change (0%Z, []) with (flat (0%Z, [])) at 1. rewrite map_nth. cbn [flat snd]. apply flat_pixel; [|now apply idx_in]. apply R, nth_In. exact Hk.
Qed.

Lemma new_weights_acc cur a : (forall x, In x cur -> rectangular (snd x) nr nc) -> length a = size ->
  (forall k, k < size -> nth k a 0%Qc = summed (A:=qc) (map flat cur) k) ->
  exists w, map_res (fun idx => take_list a idx) idxs = Ok (tab2 (fun s j => summed_pixel idxs nc cur s j)) /\
    int_weights window (tab2 (fun s j => summed_pixel idxs nc cur s j)) = tab2 w /\
    forall s, s < n -> weights_from window (np * np) (summed_pixel idxs nc cur s) (w s).
Proof.
  intros R La Sa.
  assert (T : map_res (fun idx => take_list a idx) idxs = Ok (tab2 (fun s j => summed_pixel idxs nc cur s j))).
  { rewrite (map_res_pure _ (map (fun i => nth (Z.to_nat i) a 0%Qc))).
    - f_equal. rewrite (map_tab2 idxs np nr nc Hnp S). apply map_ext_in. intros s Hs. apply map_ext_in. intros j Hj. apply in_seq in Hs, Hj.
      assert (B := idx_in s j ltac:(lia) ltac:(lia)). rewrite Sa by (apply Z2Nat.inj_lt; lia). apply summed_flat; auto; lia.
    - intros idx Hi. apply take_list_map. intros i Hin. destruct S as [_ Q]. unfold zlen. rewrite La. assert (B := proj2 (Q idx Hi) i Hin). lia. }
  assert (E : exists w, int_weights window (tab2 (fun s j => summed_pixel idxs nc cur s j)) = tab2 w /\
     forall s, s < n -> weights_from window (np * np) (summed_pixel idxs nc cur s) (w s)).
  { rewrite int_weights_each. unfold tab2. rewrite map_map.
    assert (P : 0 < np * np) by nia.
    set (ow := fun s => one_weight window (map (fun x => (x - lmin (map (summed_pixel idxs nc cur s) (seq 0 (np * np))))%Qc) (map (summed_pixel idxs nc cur s) (seq 0 (np * np))))).
    exists (fun s j => nth j (ow s) 0%Qc). split.
    - apply map_ext. intros s. destruct (one_weight_ok window (np * np) (summed_pixel idxs nc cur s) P) as (w & E & _). fold (ow s) in E. fold (ow s).
      apply (map_seq_nth' (ow s) 0%Qc). rewrite E. now rewrite map_length, seq_length.
    - intros s _. destruct (one_weight_ok window (np * np) (summed_pixel idxs nc cur s) P) as (w & E & (lo & hi & Lo & Hi & W)). fold (ow s) in E.
      assert (Ew : forall j, j < np * np -> nth j (ow s) 0%Qc = w j) by (intros j Hj; rewrite E; now apply nth_map_seq).
      exists lo, hi. split; [exact Lo|]. split; [exact Hi|]. destruct (Qclt_le_dec lo hi).
      + destruct window; intros j Hj; rewrite Ew by exact Hj; now apply W.
      + intros j Hj. rewrite Ew by exact Hj. now apply W. }
  destruct E as (w & E1 & E2). eauto.
Qed.

Lemma init_ok inter : exists st, sh_init idxs none thr e mask dt window inter = Ok (cfg, st) /\ run_state [] st /\ sl_inter (so_slopes (ss_out st)) = inter.
Proof.
  assert (Hs : Nat.sqrt (length (hd [] idxs)) = np).
  { destruct S as [Ne Q]. destruct idxs as [|i0 r]; [contradiction|]. cbn [hd]. rewrite (proj1 (Q i0 (or_introl eq_refl))). apply Nat.sqrt_square. }
  unfold sh_init. rewrite Hs, (weights_tab np e mask Hnp M). cbn [bind]. eexists. split; [reflexivity|]. split; [|reflexivity]. split; [|split].
  - cbn [ss_out]. apply new_out_ok.
  - right. left. split; reflexivity.
  - exists (fun _ _ => 1%Qc). split; [left; split; [right; intros x []|reflexivity]|]. split; [intros _ Q; now destruct Q|reflexivity].
Qed.

Lemma distinct_end (frames : list (Z * list (list Qc))) (t : Z) (frame : list (list Qc)) f x r :
  NoDup (map fst (frames ++ [(t, frame)])) -> frames ++ [(t, frame)] = f ++ x :: r -> r <> [] -> fst x <> t.
Proof.
  intros D E N Q. destruct (snoc_cases r) as [->|(r' & z & ->)]; [now apply N|]. rewrite app_comm_cons, app_assoc in E. apply app_inj_tail in E as [E Ez].
  subst z. rewrite E, map_app in D. apply NoDup_remove_2 in D. apply D. rewrite app_nil_r, map_app. apply in_or_app. right. cbn [map]. now left.
Qed.

Lemma trigger_ok frames t frame st : run_state frames st -> (forall x, In x frames -> rectangular (snd x) nr nc) -> rectangular frame nr nc ->
  NoDup (map fst (frames ++ [(t, frame)])) -> (0 <= t)%Z ->
  exists st' w, sh_trigger cfg st t frame [nr; nc] = Ok st' /\ run_state (frames ++ [(t, frame)]) st' /\
    weights_in_force dt window idxs np nc (frames ++ [(t, frame)]) w /\
    let px s j := (subap_pixel idxs frame nc s j * w s j)%Qc in
    let flux s := qsum (np * np) (px s) in
    xslopes extar (so_slopes (ss_out st')) = Ok (map (raw_x idxs np px thr e mask) (seq 0 n)) /\
    yslopes extar (so_slopes (ss_out st')) = Ok (map (raw_y idxs np px thr e mask) (seq 0 n)) /\
    so_flux (ss_out st') = map flux (seq 0 n) /\ so_total (ss_out st') = qsum n flux /\ so_mean (ss_out st') = Fin (qsum n flux / qnat n)%Qc /\
    sl_inter (so_slopes (ss_out st')) = sl_inter (so_slopes (ss_out st)).
Proof.
  intros (O & Ac & (w0 & W0 & Ws & Wn)) Rh Rf D Ht.
  assert (Rall : forall x, In x (frames ++ [(t, frame)]) -> rectangular (snd x) nr nc).
  { intros x Hx. apply in_app_iff in Hx as [Hx|[<-|[]]]; [now apply Rh|exact Rf]. }
  (* accumulation *)
  assert (A1 : exists a', accumulate qc dt (ss_acc st) t (concat frame) = Ok a' /\ ((dt <= 0)%Z \/ acc_state qc dt size (map flat (frames ++ [(t, frame)])) a')).
  { destruct (Z_le_gt_dec dt 0) as [L|L].
    - exists (ss_acc st). unfold accumulate. replace (dt <=? 0)%Z with true by (symmetry; apply Z.leb_le; lia). auto.
    - destruct Ac as [Ac|Ac]; [lia|]. destruct (accumulate_step qc qc_field dt size (map flat frames) (ss_acc st) t (concat frame) ltac:(lia) Ac (flat_size frame Rf)) as (a' & E & I).
      exists a'. split; [exact E|]. right. rewrite map_app. exact I. }
  destruct A1 as (a' & Ea & Ia).
  unfold sh_trigger. cbn [sh_dt]. rewrite Ea. cbn [bind]. unfold sh_code. cbn [sh_idxs sh_dt].
  rewrite (pixels_ok frame nr nc idxs np Rf S). cbn [bind].
  assert (Px : map (map (pixel frame nc)) idxs = tab2 (subap_pixel idxs frame nc)) by apply (map_tab2 idxs np nr nc Hnp S).
  rewrite Px.
  (* weights *)
  assert (K : exists w, weights_in_force dt window idxs np nc (frames ++ [(t, frame)]) w /\
     (if (0 <? dt)%Z then
        w <- sh_new_weights cfg (mkShSt (ss_out st) a' (ss_w st)) t (tab2 (subap_pixel idxs frame nc)) ;; Ok (Some w, map2 (map2 Qcmult) (tab2 (subap_pixel idxs frame nc)) w)
      else Ok (ss_w st, tab2 (subap_pixel idxs frame nc))) =
     Ok (if (0 <? dt)%Z then Some (tab2 w) else ss_w st, tab2 (fun s j => subap_pixel idxs frame nc s j * w s j)%Qc)).
  { destruct (Z_le_gt_dec dt 0) as [L|L].
    - replace (0 <? dt)%Z with false by (symmetry; apply Z.ltb_ge; lia). exists (fun _ _ => 1%Qc). split; [left; split; [now left|reflexivity]|].
      do 2 f_equal. apply tab2_ext. intros. ring.
    - replace (0 <? dt)%Z with true by (symmetry; apply Z.ltb_lt; lia). destruct Ia as [Ia|Ia]; [lia|].
      destruct Ia as [[Ia _]|(cur & a & C & Ep & La & Sa & Re & Gt)]; [rewrite map_app in Ia; apply app_eq_nil in Ia as [_ Ia]; discriminate|].
      unfold sh_new_weights. cbn [ss_acc ss_w sh_idxs sh_window]. rewrite Ep.
      destruct Gt as [(f & x & r & E & We & Gx & Nr)|[Nw Gx]].
      + apply map_app_split in E as (f' & x' & r' & E & Ef & Ex & Er). assert (Gx' : ac_gt a' = fst x') by (rewrite Gx, <- Ex; reflexivity).
        assert (We' : window_end dt (fst x')) by (rewrite <- Ex in We; exact We).
        assert (Nr' : forall y, In y r' -> ~ window_end dt (fst y)) by (intros y Hy; apply (Nr (flat y)); rewrite <- Er; now apply in_map).
        destruct r' as [|r1 r'].
        * (* the window has just ended *)
          apply app_inj_tail in E as [-> <-]. cbn [fst] in *. rewrite Gx', Z.eqb_refl.
          destruct (window_flat _ _ C) as (cur' & C' & ->).
          assert (Rc : forall x, In x cur' -> rectangular (snd x) nr nc).
          { destruct C' as (b & Eb & _). intros x0 Hx. apply Rall. rewrite Eb. apply in_or_app. now right. }
          destruct (new_weights_acc cur' a Rc La Sa) as (w & T & Iw & Wf). exists w. split.
          -- right. split; [lia|]. exists f', (t, frame), [], cur'. repeat (split; [auto|]). exact Wf.
          -- match goal with |- context [map_res ?f idxs] => change (map_res f idxs) with (map_res (fun idx => @take_list Qc a idx) idxs) end. rewrite T. cbn [bind]. rewrite Iw, tab2_mul. reflexivity.
        * (* weights of an earlier window *)
          assert (Nt : fst x' <> t) by (apply (distinct_end frames t frame f' x' (r1 :: r') D E); discriminate).
          rewrite Gx'. replace (fst x' =? t)%Z with false by (symmetry; apply Z.eqb_neq; exact Nt).
          assert (Nf : frames <> []).
          { intros ->. destruct f' as [|f1 f']; cbn in E; [injection E as E1 E2; discriminate|]. injection E as E1 E2. destruct f'; discriminate. }
          exists w0. assert (W1 : weights_in_force dt window idxs np nc (frames ++ [(t, frame)]) w0).
          { destruct (snoc_cases (r1 :: r')) as [Q|(rr & z & Er')]; [discriminate|]. rewrite Er' in E, Nr'. rewrite app_comm_cons, app_assoc in E.
            apply app_inj_tail in E as [E Ez]. destruct W0 as [[W0 V0]|(_ & f0 & x0 & r0 & cur0 & E0 & We0 & Nr0 & C0 & V0)].
            - exfalso. destruct W0 as [W0|W0]; [lia|]. apply (W0 x'); [rewrite E; apply in_or_app; right; now left|exact We'].
            - right. split; [lia|]. exists f0, x0, (r0 ++ [(t, frame)]), cur0. split; [rewrite E0, <- app_assoc; reflexivity|]. split; [exact We0|]. split.
              + intros y Hy. apply in_app_iff in Hy as [Hy|[<-|[]]]; [now apply Nr0|]. apply Nr'. apply in_or_app. right. left. now rewrite Ez.
              + split; [exact C0|exact V0]. }
          split; [exact W1|]. rewrite (Ws ltac:(lia) Nf). cbn [bind]. rewrite tab2_mul. reflexivity.
      + (* no window has ended *)
        rewrite Gx. replace (-1 =? t)%Z with false by (symmetry; apply Z.eqb_neq; lia).
        assert (Nw' : forall y, In y (frames ++ [(t, frame)]) -> ~ window_end dt (fst y)) by (intros y Hy; apply (Nw (flat y)); now apply in_map).
        exists (fun _ _ => 1%Qc). split; [left; split; [now right|reflexivity]|].
        assert (Eo : match ss_w st with Some w => w | None => map (map (fun _ : Qc => 1%Qc)) (tab2 (subap_pixel idxs frame nc)) end = tab2 (fun _ _ => 1%Qc)).
        { destruct frames as [|x0 fr].
          - rewrite (Wn eq_refl). unfold tab2. rewrite map_map. apply map_ext. intros s. now rewrite map_map.
          - rewrite (Ws ltac:(lia) ltac:(discriminate)). apply tab2_ext. destruct W0 as [[_ V0]|(_ & f0 & x0' & r0 & cur0 & E0 & We0 & _)]; [exact V0|].
            exfalso. apply (Nw' x0'); [|exact We0]. rewrite E0. apply in_or_app. left. apply in_or_app. right. now left. }
        cbn [bind]. rewrite Eo, tab2_mul. reflexivity. }
  destruct K as (w & Wf & Ek). cbn [ss_w ss_out ss_acc]. rewrite Ek. cbn [bind ss_out ss_acc].
  destruct (sh_end_ok idxs np nr nc Hnp S (fun s j => subap_pixel idxs frame nc s j * w s j)%Qc thr e mask (ss_out st) dt window none O) as (o' & E1 & O1 & X & Y & Fl & To & Me & Il).
  cbn zeta in E1. unfold tab2. rewrite E1. cbn [bind ss_out ss_acc ss_w sh_post]. rewrite finish_none. cbn [bind].
  eexists. exists w. split; [reflexivity|]. split; [|split; [exact Wf|]].
  - split; [exact O1|]. split; [exact Ia|]. exists w. split; [exact Wf|]. cbn [ss_w]. split.
    + intros L _. replace (0 <? dt)%Z with true by (symmetry; apply Z.ltb_lt; exact L). reflexivity.
    + intros Q. destruct frames; discriminate.
  - cbn [ss_out]. cbn zeta. exact (conj X (conj Y (conj Fl (conj To (conj Me Il))))).
Qed.

Lemma run_ok inter hist t frame : (forall x, In x (hist ++ [(t, frame)]) -> rectangular (snd x) nr nc /\ (0 <= fst x)%Z) ->
  NoDup (map fst (hist ++ [(t, frame)])) ->
  exists st w, sh_session idxs none thr e mask dt window inter [nr; nc] (hist ++ [(t, frame)]) = Ok st /\
    weights_in_force dt window idxs np nc (hist ++ [(t, frame)]) w /\
    let px s j := (subap_pixel idxs frame nc s j * w s j)%Qc in
    let flux s := qsum (np * np) (px s) in
    xslopes extar (so_slopes (ss_out st)) = Ok (map (raw_x idxs np px thr e mask) (seq 0 n)) /\
    yslopes extar (so_slopes (ss_out st)) = Ok (map (raw_y idxs np px thr e mask) (seq 0 n)) /\
    so_flux (ss_out st) = map flux (seq 0 n) /\ so_total (ss_out st) = qsum n flux /\ so_mean (ss_out st) = Fin (qsum n flux / qnat n)%Qc /\
    sl_inter (so_slopes (ss_out st)) = inter.
Proof.
  intros R D. unfold sh_session. destruct (init_ok inter) as (st0 & E0 & I0 & Il0). rewrite E0. cbn [bind fst snd].
  assert (G : forall l pre s, run_state pre s -> (forall x, In x (pre ++ l) -> rectangular (snd x) nr nc /\ (0 <= fst x)%Z) -> NoDup (map fst (pre ++ l)) ->
    exists s', sh_run cfg s [nr; nc] l = Ok s' /\ run_state (pre ++ l) s' /\ sl_inter (so_slopes (ss_out s')) = sl_inter (so_slopes (ss_out s))).
  { induction l as [|[t1 f1] l IH]; intros pre s I Rl Dl.
    - exists s. rewrite app_nil_r. unfold sh_run. cbn [fold_res]. auto.
    - replace (pre ++ (t1, f1) :: l) with ((pre ++ [(t1, f1)]) ++ l) in Rl, Dl by (rewrite <- app_assoc; reflexivity).
      destruct (trigger_ok pre t1 f1 s I) as (s1 & w1 & E1 & I1 & _ & _ & _ & _ & _ & _ & Il1).
      + intros x Hx. apply Rl. apply in_or_app. left. apply in_or_app. now left.
      + apply (Rl (t1, f1)). apply in_or_app. left. apply in_or_app. right. now left.
      + rewrite map_app in Dl. now apply NoDup_app_l in Dl.
      + apply (Rl (t1, f1)). apply in_or_app. left. apply in_or_app. right. now left.
      + destruct (IH (pre ++ [(t1, f1)]) s1 I1 Rl Dl) as (s2 & E2 & I2 & Il2). exists s2.
        replace (pre ++ (t1, f1) :: l) with ((pre ++ [(t1, f1)]) ++ l) by (rewrite <- app_assoc; reflexivity).
        unfold sh_run. cbn [fold_res fst snd]. rewrite E1. cbn [bind]. split; [exact E2|]. split; [exact I2|]. congruence. }
  destruct (G hist [] st0 I0) as (s1 & E1 & I1 & Il1).
  { intros x Hx. apply R. apply in_or_app. now left. }
  { rewrite map_app in D. cbn [app]. now apply NoDup_app_l in D. }
  cbn [app] in I1. destruct (trigger_ok hist t frame s1 I1) as (s2 & w & E2 & I2 & Wf & X & Y & Fl & To & Me & Il).
  - intros x Hx. apply R. apply in_or_app. now left.
  - apply (R (t, frame)). apply in_or_app. right. now left.
  - exact D.
  - apply (R (t, frame)). apply in_or_app. right. now left.
  - exists s2, w. unfold sh_run in *. rewrite ShProofs.fold_res_app, E1. cbn [bind fold_res fst snd]. rewrite E2. cbn [bind].
    split; [reflexivity|]. split; [exact Wf|]. cbn zeta in *. repeat (split; [assumption|]). congruence.
Qed.
End Runs.
