(* C74: slopes of the Shack-Hartmann sensor. *)
From Coq Require Import String List ZArith Bool PeanoNat Lia QArith Qcanon Lqa Field.
From Verif Require Import PyBase PyLemmas Arith ArithLemmas SumLemmas FilterSpec NpModel NpSpec NpProofs NpSegments VecModel
  SlopesModel SlopesSpec SlopesProofs RebinProofs OpticalModel ExtModel QcTac SlopecModel SlopecSpec ShSpec AccSpec SlopecProofs ShProofs
  AccProofs ShWeights Properties_Filter Properties_Pyramid.
Import ListNotations.
Local Open Scope nat_scope.

(* Frames at different, non-negative times, all of the same shape *)
Definition frames_ok (nr nc : Z) (frames : list (Z * list (list Qc))) : Prop :=
  NoDup (map fst frames) /\ forall x, In x frames -> rectangular (snd x) nr nc /\ (0 <= fst x)%Z.

Lemma qsum_scale n a f : qsum n (fun j => a * f j)%Qc = (a * qsum n f)%Qc.
Proof. exact (sumn_scale qc qc_field n a f). Qed.
Lemma qsum_opp n f : qsum n (fun j => - f j)%Qc = (- qsum n f)%Qc.
Proof.
  transitivity (qsum n (fun j => (- (1)) * f j)%Qc); [apply (sumn_ext (A:=qc)); intros j _; qceq; ring|]. rewrite qsum_scale. ring.
Qed.
Lemma Qceq_le (a b : Qc) : a = b -> (a <= b)%Qc. Proof. intros ->. apply Qcle_refl. Qed.

(* Sums over a square *)
Lemma sum_square np (f : nat -> Qc) : qsum (np * np) f = qsum np (fun r => qsum np (fun c => f (r * np + c))).
Proof.
  assert (G : forall m, qsum (m * np) f = qsum m (fun r => qsum np (fun c => f (r * np + c)))); [|apply G].
  induction m as [|m IH]; [reflexivity|]. replace (S m * np) with (m * np + np) by lia. unfold qsum in *.
  rewrite (sumn_app qc qc_field). cbn [sumn]. now rewrite IH.
Qed.
Lemma square_split np j : 0 < np -> j = j / np * np + j mod np.
Proof. intros H. rewrite (Nat.mul_comm _ np). apply Nat.div_mod. lia. Qed.
Lemma square_at np r c : c < np -> (r * np + c) / np = r /\ (r * np + c) mod np = c.
Proof.
  intros H. split.
  - rewrite Nat.div_add_l by lia. rewrite Nat.div_small by lia. lia.
  - rewrite Nat.add_comm, Nat.mod_add by lia. now apply Nat.mod_small.
Qed.
Definition transposed (np j : nat) : nat := j mod np * np + j / np.
Lemma sum_transposed np (f : nat -> Qc) : qsum (np * np) f = qsum (np * np) (fun j => f (transposed np j)).
Proof.
  rewrite !sum_square. unfold qsum. rewrite (sumn_swap qc qc_field). apply (sumn_ext (A:=qc)). intros r Hr. apply (sumn_ext (A:=qc)). intros c Hc. unfold transposed.
  destruct (square_at np r c Hc) as [-> ->]. reflexivity.
Qed.

(* Facts about the positions *)
Lemma centre_opposite np k : k < np -> centre np (np - 1 - k) = (- centre np k)%Qc.
Proof.
  intros H. unfold centre. replace (2 * (np - 1 - k) + 1) with (2 * np - (2 * k + 1)) by lia. rewrite qnat_sub by lia. rewrite (qnat_mul 2 np), qnat_2.
  field. apply Qc_pos_neq, qnat_pos. lia.
Qed.
Lemma absolute_opp x : absolute (- x)%Qc = absolute x.
Proof. unfold absolute. destruct (Qclt_le_dec (- x) 0), (Qclt_le_dec x 0); try ring; [exfalso; qclra|]. qceq. qclra. Qed.
Lemma power_ge x e : (0 <= x)%Qc -> (0 <= power x e)%Qc.
Proof. intros H. induction e as [|e IH]; [discriminate|]. now apply qmul_ge. Qed.
Lemma power_le x y e : (0 <= x)%Qc -> (x <= y)%Qc -> (power x e <= power y e)%Qc.
Proof.
  intros H L. induction e as [|e IH]; [apply Qcle_refl|]. cbn [power]. assert (P := power_ge x e H).
  unfold Qcle in *. rewrite !this_mul. change (this 0%Qc) with 0%Q in *. nra.
Qed.
Lemma absolute_ge x : (0 <= absolute x)%Qc.
Proof. unfold absolute. destruct (Qclt_le_dec x 0); [qclra|assumption]. Qed.
Lemma absolute_pos x : (0 <= x)%Qc -> absolute x = x.
Proof. intros H. unfold absolute. destruct (Qclt_le_dec x 0); [|reflexivity]. exfalso. qclra. Qed.
Lemma signed_abs x e : absolute (signed_power x e) = power (absolute x) e.
Proof.
  unfold signed_power. destruct (Qclt_le_dec 0 x) as [H|H].
  - assert (0 <= x)%Qc by (now apply Qclt_le_weak). rewrite (absolute_pos x) by assumption. apply absolute_pos. now apply power_ge.
  - rewrite absolute_opp. apply absolute_pos, power_ge, absolute_ge.
Qed.
Lemma power_zero e : 0 < e -> power 0%Qc e = 0%Qc.
Proof. destruct e; [lia|]. intros _. cbn [power]. ring. Qed.
Lemma signed_opp x e : 0 < e -> signed_power (- x)%Qc e = (- signed_power x e)%Qc.
Proof.
  intros He. unfold signed_power. rewrite absolute_opp. destruct (Qclt_le_dec 0 (- x)) as [A|A], (Qclt_le_dec 0 x) as [B|B].
  - exfalso. qclra.
  - rewrite <- absolute_opp, absolute_pos by (now apply Qclt_le_weak). ring.
  - now rewrite absolute_pos by (now apply Qclt_le_weak).
  - assert (x = 0%Qc) by (qceq; qclra). subst x. change (absolute 0%Qc) with 0%Qc. rewrite power_zero by exact He. ring.
Qed.
Lemma centre_bound np k : k < np -> (absolute (centre np k) <= (qnat np - 1) / qnat np)%Qc.
Proof.
  intros H. assert (N : (0 < qnat np)%Qc) by (apply qnat_pos; lia). unfold centre. rewrite abs_div by exact N. apply div_le; [exact N|].
  assert (A : (qnat (2 * k + 1) + 1 <= qnat np + qnat np)%Qc).
  { replace (qnat (2 * k + 1) + 1)%Qc with (qnat (2 * k + 2)) by (replace (2 * k + 2) with (2 * k + 1 + 1) by lia; now rewrite (qnat_add (2 * k + 1) 1), qnat_1).
    rewrite <- qnat_add. assert (Q := qnat_ge (np + np - (2 * k + 2))). rewrite qnat_sub in Q by lia. qclra. }
  assert (B : (1 <= qnat (2 * k + 1))%Qc).
  { assert (Q := qnat_ge (2 * k)). rewrite (qnat_add (2 * k) 1), qnat_1. qclra. }
  apply abs_le; qclra.
Qed.

Section T.
Variables (n np : nat) (thr : Qc) (mask : option (list Qc)) (e : nat).
Hypotheses (Hnp : 2 <= np) (MN : mask_nonneg mask).
Notation light_ px := (subap_light np px thr mask).
Notation mean_ px := (mean_light n np px thr mask).

Lemma lit_pos px s : (0 < mean_ px)%Qc -> lit n np px thr mask s = true -> (0 < light_ px s)%Qc.
Proof.
  intros P. unfold lit. destruct (Qclt_le_dec (light_ px s) (mean_ px * Q2Qc (1 # 1000))) as [|L]; [discriminate|]. intros _.
  eapply Qclt_le_trans; [|exact L]. qclra.
Qed.

End T.

Section P.
Variables (idxs : list (list Z)) (np : nat) (nr nc : Z).
Hypotheses (Hnp : 2 <= np) (S : subaps_ok idxs np nr nc).
Variables (thr : Qc) (e : nat) (mask : option (list Qc)).
Hypotheses (M : mask_ok mask np) (MN : mask_nonneg mask).
Notation n := (length idxs).

(* After any history, the slopes are the centroids of the last frame times the weights in
   force, if the frame has any light. *)
Theorem C74_weighted dt window inter hist t frame : frames_ok nr nc (hist ++ [(t, frame)]) ->
  exists st w, sh_session idxs no_post thr e mask dt window inter [nr; nc] (hist ++ [(t, frame)]) = Ok st /\
    weights_in_force dt window idxs np nc (hist ++ [(t, frame)]) w /\
    let px s j := (subap_pixel idxs frame nc s j * w s j)%Qc in
    let flux s := qsum (np * np) (px s) in
    so_flux (ss_out st) = map flux (seq 0 n) /\ so_total (ss_out st) = qsum n flux /\ so_mean (ss_out st) = Fin (qsum n flux / qnat n)%Qc /\
    sl_inter (so_slopes (ss_out st)) = inter /\
    ((0 < mean_light n np px thr mask)%Qc ->
      xslopes extar (so_slopes (ss_out st)) = Ok (map (fun s => Fin (slope_x n np px thr mask e s)) (seq 0 n)) /\
      yslopes extar (so_slopes (ss_out st)) = Ok (map (fun s => Fin (slope_y n np px thr mask e s)) (seq 0 n))).
Proof.
  intros (D & R). destruct (run_ok idxs np nr nc Hnp S thr e mask dt window M inter hist t frame R D) as (st & w & E & Wf & X & Y & Fl & To & Me & Il).
  exists st, w. split; [exact E|]. split; [exact Wf|]. cbn zeta in *. repeat (split; [assumption|]). intros P.
  rewrite X, Y. split; f_equal; apply map_ext; intros s; apply (raw_lit idxs np nr nc Hnp S _ thr e mask MN s P).
Qed.

(* Without accumulation, the slopes depend on the last frame only. *)
Theorem C74_slopes dt window inter hist t frame : frames_ok nr nc (hist ++ [(t, frame)]) -> (dt <= 0)%Z ->
  let px := subap_pixel idxs frame nc in
  let flux s := qsum (np * np) (px s) in
  exists st, sh_session idxs no_post thr e mask dt window inter [nr; nc] (hist ++ [(t, frame)]) = Ok st /\
    so_flux (ss_out st) = map flux (seq 0 n) /\ so_total (ss_out st) = qsum n flux /\ so_mean (ss_out st) = Fin (qsum n flux / qnat n)%Qc /\
    sl_inter (so_slopes (ss_out st)) = inter /\
    ((0 < mean_light n np px thr mask)%Qc ->
      xslopes extar (so_slopes (ss_out st)) = Ok (map (fun s => Fin (slope_x n np px thr mask e s)) (seq 0 n)) /\
      yslopes extar (so_slopes (ss_out st)) = Ok (map (fun s => Fin (slope_y n np px thr mask e s)) (seq 0 n))) /\
    (mean_light n np px thr mask = 0%Qc ->
      xslopes extar (so_slopes (ss_out st)) = Ok (repeat NaN n) /\ yslopes extar (so_slopes (ss_out st)) = Ok (repeat NaN n)).
Proof.
  intros (D & R) L px flux. destruct (run_ok idxs np nr nc Hnp S thr e mask dt window M inter hist t frame R D) as (st & w & E & Wf & X & Y & Fl & To & Me & Il).
  exists st. split; [exact E|]. cbn zeta in *.
  assert (W1 : forall s j, s < n -> j < np * np -> (subap_pixel idxs frame nc s j * w s j)%Qc = px s j).
  { intros s j Hs Hj. destruct Wf as [[_ Wf]|[Q _]]; [|lia]. rewrite Wf by assumption. unfold px. ring. }
  assert (Fx : forall s, s < n -> qsum (np * np) (fun j => (subap_pixel idxs frame nc s j * w s j)%Qc) = flux s).
  { intros s Hs. apply (sumn_ext (A:=qc)). intros j Hj. now apply W1. }
  assert (Sx : forall s j, s < n -> j < np * np -> spot (fun s j => (subap_pixel idxs frame nc s j * w s j)%Qc) thr s j = spot px thr s j).
  { intros s j Hs Hj. unfold spot. now rewrite W1. }
  assert (Lx : forall s, s < n -> subap_light np (fun s j => (subap_pixel idxs frame nc s j * w s j)%Qc) thr mask s = subap_light np px thr mask s).
  { intros s Hs. apply (sumn_ext (A:=qc)). intros j Hj. now rewrite Sx. }
  assert (Mx : mean_light n np (fun s j => (subap_pixel idxs frame nc s j * w s j)%Qc) thr mask = mean_light n np px thr mask).
  { unfold mean_light. f_equal. apply (sumn_ext (A:=qc)). intros s Hs. now apply Lx. }
  split; [rewrite Fl; apply map_ext_in; intros s Hs; apply in_seq in Hs; apply Fx; lia|].
  assert (Tx : qsum n (fun s => qsum (np * np) (fun j => (subap_pixel idxs frame nc s j * w s j)%Qc)) = qsum n flux) by (apply (sumn_ext (A:=qc)); exact Fx).
  split; [now rewrite To|]. split; [now rewrite Me, Tx|]. split; [exact Il|]. split.
  - intros P. rewrite X, Y. rewrite <- Mx in P. split; f_equal; apply map_ext_in; intros s Hs; apply in_seq in Hs.
    + rewrite (proj1 (raw_lit idxs np nr nc Hnp S _ thr e mask MN s P)). unfold slope_x, lit. rewrite Mx, Lx by lia.
      destruct (Qclt_le_dec _ _); [reflexivity|]. do 2 f_equal. apply (sumn_ext (A:=qc)). intros j Hj. now rewrite Sx by lia.
    + rewrite (proj2 (raw_lit idxs np nr nc Hnp S _ thr e mask MN s P)). unfold slope_y, lit. rewrite Mx, Lx by lia.
      destruct (Qclt_le_dec _ _); [reflexivity|]. do 2 f_equal. apply (sumn_ext (A:=qc)). intros j Hj. now rewrite Sx by lia.
  - intros Z. rewrite X, Y, repeat_map_seq.
    assert (Sum0 : qsum n (subap_light np px thr mask) = 0%Qc).
    { unfold mean_light in Z. assert (N := qnat_pos n (n_pos idxs np nr nc Hnp S)). apply Qc_pos_neq in N.
      replace (qsum n (subap_light np px thr mask)) with (qsum n (subap_light np px thr mask) / qnat n * qnat n)%Qc by (field; exact N). rewrite Z. ring. }
    assert (L0 : forall s, s < n -> subap_light np px thr mask s = 0%Qc).
    { intros s Hs. apply Qcle_antisym; [|now apply light_ge0]. rewrite <- Sum0. apply qsum_term; [|exact Hs]. intros i _. now apply light_ge0. }
    assert (S0 : forall s j, s < n -> j < np * np -> (spot px thr s j * weight mask j)%Qc = 0%Qc).
    { intros s j Hs Hj. assert (G : forall k, (0 <= spot px thr s k * weight mask k)%Qc) by (intros k; apply qmul_ge; [apply pos_ge|now apply weight_ge]).
      apply Qcle_antisym; [|apply G]. rewrite <- (L0 s Hs). apply (qsum_term (np * np) (fun j => spot px thr s j * weight mask j)%Qc); [|exact Hj]. intros k _. apply G. }
    assert (C : forall s (k : nat -> Qc), s < n -> cent (spot (fun s j => (subap_pixel idxs frame nc s j * w s j)%Qc) thr s)
       (fun j => k j * weight mask j)%Qc (np * np) (factor_of idxs (subap_light np (fun s j => (subap_pixel idxs frame nc s j * w s j)%Qc) thr mask) s) = NaN).
    { intros s k Hs. assert (Fa : factor_of idxs (subap_light np (fun s j => (subap_pixel idxs frame nc s j * w s j)%Qc) thr mask) s = Inf false).
      { unfold factor_of. rewrite Lx, L0 by exact Hs. replace (qsum n _) with 0%Qc.
        2:{ rewrite <- Sum0. apply (sumn_ext (A:=qc)). intros i Hi. symmetry. now apply Lx. }
        rewrite ediv_pos by (apply qnat_pos, (n_pos idxs np nr nc Hnp S)). cbn [emul].
        replace (0 / qn n * Q2Qc (1 # 1000))%Qc with 0%Qc by (unfold Qcdiv; ring). reflexivity. }
      rewrite Fa. unfold cent.
      replace (map (fun j => emul (Fin (spot (fun s j => (subap_pixel idxs frame nc s j * w s j)%Qc) thr s j * (k j * weight mask j))%Qc) (Inf false)) (seq 0 (np * np)))
        with (repeat NaN (np * np)).
      - assert (Nn : 0 < np * np) by nia. destruct (np * np) as [|m]; [lia|]. unfold vsum. cbn [repeat fold_left]. cbn.
        clear. induction m as [|m IH]; [reflexivity|]. cbn. exact IH.
      - rewrite repeat_map_seq. apply map_ext_in. intros j Hj. apply in_seq in Hj. rewrite Sx by lia.
        replace (spot px thr s j * (k j * weight mask j))%Qc with (k j * (spot px thr s j * weight mask j))%Qc by ring. rewrite S0 by lia.
        replace (k j * 0)%Qc with 0%Qc by ring. reflexivity. }
    split; f_equal; apply map_ext_in; intros s Hs; apply in_seq in Hs; unfold raw_x, raw_y; apply C; lia.
Qed.

(* The slopes of the last frame without accumulation, as numbers *)
Definition gives hist t frame (x y : nat -> Qc) : Prop := forall dt window inter, (dt <= 0)%Z ->
  exists st, sh_session idxs no_post thr e mask dt window inter [nr; nc] (hist ++ [(t, frame)]) = Ok st /\
    xslopes extar (so_slopes (ss_out st)) = Ok (map (fun s => Fin (x s)) (seq 0 n)) /\
    yslopes extar (so_slopes (ss_out st)) = Ok (map (fun s => Fin (y s)) (seq 0 n)).
Lemma gives_slopes hist t frame : frames_ok nr nc (hist ++ [(t, frame)]) ->
  (0 < mean_light n np (subap_pixel idxs frame nc) thr mask)%Qc ->
  gives hist t frame (slope_x n np (subap_pixel idxs frame nc) thr mask e) (slope_y n np (subap_pixel idxs frame nc) thr mask e).
Proof.
  intros F P dt window inter L. destruct (C74_slopes dt window inter hist t frame F L) as (st & E & _ & _ & _ & _ & X & _).
  exists st. split; [exact E|now apply X].
Qed.
Lemma gives_ext hist t frame x y x' y' : gives hist t frame x y -> (forall s, s < n -> x s = x' s) -> (forall s, s < n -> y s = y' s) -> gives hist t frame x' y'.
Proof.
  intros G Ex Ey dt window inter L. destruct (G dt window inter L) as (st & E & X & Y). exists st. split; [exact E|]. rewrite X, Y.
  split; f_equal; apply map_ext_in; intros s Hs; apply in_seq in Hs; f_equal; [apply Ex|apply Ey]; lia.
Qed.

Definition bound : Qc := power ((qnat np - 1) / qnat np)%Qc e.
Lemma moment_bound px s (k : nat -> nat) : (forall j, j < np * np -> k j < np) ->
  (absolute (qsum (np * np) (fun j => spot px thr s j * (signed_power (centre np (k j)) e * weight mask j))) <= bound * subap_light np px thr mask s)%Qc.
Proof.
  intros Hk. set (f := fun j => (spot px thr s j * (signed_power (centre np (k j)) e * weight mask j))%Qc).
  assert (B : forall j, j < np * np -> (- (bound * (spot px thr s j * weight mask j)) <= f j)%Qc /\ (f j <= bound * (spot px thr s j * weight mask j))%Qc).
  { intros j Hj. unfold f. set (a := spot px thr s j). assert (Ha : (0 <= a)%Qc) by apply pos_ge. assert (Hw := weight_ge mask j MN). set (v := weight mask j) in *.
    set (p := signed_power (centre np (k j)) e). assert (Hp : (absolute p <= bound)%Qc).
    { unfold p, bound. rewrite signed_abs. apply power_le; [apply absolute_ge|]. now apply centre_bound, Hk. }
    assert (Pav : (0 <= a * v)%Qc) by (now apply qmul_ge). assert (Q : (- bound <= p)%Qc /\ (p <= bound)%Qc).
    { unfold absolute in Hp. destruct (Qclt_le_dec p 0) as [Z|Z]; split; qclra. }
    replace (a * (p * v))%Qc with (p * (a * v))%Qc by ring. set (av := (a * v)%Qc) in *. destruct Q as [Q1 Q2]. clearbody av p. clear - Pav Q1 Q2.
    unfold Qcle in *. rewrite this_opp, !this_mul. rewrite this_opp in Q1. change (this 0%Qc) with 0%Q in *. split; nra. }
  unfold subap_light. rewrite <- qsum_scale. apply abs_le.
  - apply qsum_le. intros j Hj. now apply B.
  - rewrite <- qsum_opp. apply qsum_le. intros j Hj. now apply B.
Qed.
Lemma slope_bound px s : (0 < mean_light n np px thr mask)%Qc ->
  (absolute (slope_x n np px thr mask e s) <= bound)%Qc /\ (absolute (slope_y n np px thr mask e s) <= bound)%Qc.
Proof.
  intros P. assert (Hb : (0 <= bound)%Qc).
  { apply power_ge. assert (N : (0 < qnat np)%Qc) by (apply qnat_pos; lia). replace 0%Qc with (0 / qnat np)%Qc by (field; now apply Qc_pos_neq).
    apply div_le; [exact N|]. rewrite <- qnat_1, <- qnat_sub by lia. apply qnat_ge. }
  unfold slope_x, slope_y. destruct (lit n np px thr mask s) eqn:E; [|split; exact Hb].
  assert (L := lit_pos n np thr mask px s P E). rewrite !abs_div by exact L.
  assert (K : forall a, (a <= bound * subap_light np px thr mask s)%Qc -> (a / subap_light np px thr mask s <= bound)%Qc).
  { intros a Ha. apply (div_le _ _ (subap_light np px thr mask s) L) in Ha. eapply Qcle_trans; [exact Ha|]. apply Qceq_le. field. now apply Qc_pos_neq. }
  split; apply K.
  - apply (moment_bound px s (fun j => j mod np)). intros j _. apply Nat.mod_upper_bound. lia.
  - apply (moment_bound px s (fun j => j / np)). intros j Hj. apply Nat.div_lt_upper_bound; lia.
Qed.

(* Bounds, with and without accumulation: no slope exceeds the position of the centre of the
   outermost pixels. *)
Theorem C74_bounds dt window inter hist t frame : frames_ok nr nc (hist ++ [(t, frame)]) ->
  exists st w, sh_session idxs no_post thr e mask dt window inter [nr; nc] (hist ++ [(t, frame)]) = Ok st /\
    weights_in_force dt window idxs np nc (hist ++ [(t, frame)]) w /\
    ((0 < mean_light n np (fun s j => (subap_pixel idxs frame nc s j * w s j)%Qc) thr mask)%Qc -> exists x y,
      xslopes extar (so_slopes (ss_out st)) = Ok (map (fun s => Fin (x s)) (seq 0 n)) /\
      yslopes extar (so_slopes (ss_out st)) = Ok (map (fun s => Fin (y s)) (seq 0 n)) /\
      forall s, s < n -> (absolute (x s) <= power ((qnat np - 1) / qnat np) e)%Qc /\ (absolute (y s) <= power ((qnat np - 1) / qnat np) e)%Qc).
Proof.
  intros F. destruct (C74_weighted dt window inter hist t frame F) as (st & w & E & Wf & _ & _ & _ & _ & X).
  exists st, w. split; [exact E|]. split; [exact Wf|]. intros P. destruct (X P) as [Ex Ey]. do 2 eexists. split; [exact Ex|]. split; [exact Ey|].
  intros s _. now apply slope_bound.
Qed.

(* A sub-aperture with little light: zero slopes. *)
Theorem C74_dark_subaperture hist t frame : frames_ok nr nc (hist ++ [(t, frame)]) ->
  (0 < mean_light n np (subap_pixel idxs frame nc) thr mask)%Qc -> exists x y, gives hist t frame x y /\
  forall s, s < n -> (subap_light np (subap_pixel idxs frame nc) thr mask s < mean_light n np (subap_pixel idxs frame nc) thr mask * Q2Qc (1 # 1000))%Qc ->
    x s = 0%Qc /\ y s = 0%Qc.
Proof.
  intros F P. do 2 eexists. split; [exact (gives_slopes hist t frame F P)|]. intros s Hs L. unfold slope_x, slope_y, lit.
  destruct (Qclt_le_dec _ _) as [Q|Q]; [auto|]. exfalso. exact (Qclt_not_le _ _ L Q).
Qed.

(* All the light of a sub-aperture in one pixel: the slopes are the position of its centre. *)
Theorem C74_one_pixel hist t frame : frames_ok nr nc (hist ++ [(t, frame)]) ->
  (0 < mean_light n np (subap_pixel idxs frame nc) thr mask)%Qc -> exists x y, gives hist t frame x y /\
  forall s r c, s < n -> r < np -> c < np ->
    (forall j, j < np * np -> j <> r * np + c -> spot (subap_pixel idxs frame nc) thr s j = 0%Qc) ->
    (mean_light n np (subap_pixel idxs frame nc) thr mask * Q2Qc (1 # 1000) <= subap_light np (subap_pixel idxs frame nc) thr mask s)%Qc ->
    x s = signed_power (centre np c) e /\ y s = signed_power (centre np r) e.
Proof.
  intros F P. do 2 eexists. split; [exact (gives_slopes hist t frame F P)|]. intros s r c Hs Hr Hc Z L.
  assert (E : lit n np (subap_pixel idxs frame nc) thr mask s = true).
  { unfold lit. destruct (Qclt_le_dec _ _) as [Q|Q]; [|reflexivity]. exfalso. exact (Qclt_not_le _ _ Q L). }
  assert (Lp := lit_pos n np thr mask _ s P E). unfold slope_x, slope_y. rewrite E.
  assert (Hj : r * np + c < np * np) by nia. destruct (square_at np r c Hc) as [Dr Dc].
  assert (One : forall k : nat -> Qc, qsum (np * np) (fun j => spot (subap_pixel idxs frame nc) thr s j * k j)%Qc = (spot (subap_pixel idxs frame nc) thr s (r * np + c) * k (r * np + c)%nat)%Qc).
  { intros k. apply (sumn_single qc qc_field (np * np) (r * np + c) (fun j => spot (subap_pixel idxs frame nc) thr s j * k j)%Qc Hj). intros j Hj' Nj. rewrite Z by assumption. qceq. ring. }
  unfold moment_x, moment_y, subap_light in *. rewrite !One in *. rewrite Dr, Dc. apply Qc_pos_neq in Lp.
  split; field; split; intros Q; apply Lp; rewrite Q; ring.
Qed.

(* Frames related by a permutation [p] of the pixels of every sub-aperture that keeps the
   mask: the same light *)
Lemma permuted px px' (p : nat -> nat) (g thr' : Qc) : (0 < g)%Qc ->
  (forall f : nat -> Qc, qsum (np * np) f = qsum (np * np) (fun j => f (p j))) ->
  (forall s j, s < n -> j < np * np -> spot px' thr' s j = (g * spot px thr s (p j))%Qc) -> (forall j, j < np * np -> weight mask (p j) = weight mask j) ->
  (0 < mean_light n np px thr mask)%Qc ->
  (0 < mean_light n np px' thr' mask)%Qc /\
  (forall s, s < n -> lit n np px' thr' mask s = lit n np px thr mask s) /\
  (forall s, s < n -> subap_light np px' thr' mask s = (g * subap_light np px thr mask s)%Qc) /\
  (forall s (k : nat -> Qc), s < n -> qsum (np * np) (fun j => spot px' thr' s j * (k j * weight mask j))%Qc =
     (g * qsum (np * np) (fun j => spot px thr s (p j) * (k j * weight mask (p j))))%Qc).
Proof.
  intros G Pm Sp W P.
  assert (L : forall s, s < n -> subap_light np px' thr' mask s = (g * subap_light np px thr mask s)%Qc).
  { intros s Hs. unfold subap_light. rewrite (Pm (fun j => spot px thr s j * weight mask j)%Qc), <- qsum_scale.
    apply (sumn_ext (A:=qc)). intros j Hj. rewrite (Sp s j Hs Hj), (W j Hj). qceq. ring. }
  assert (Mn : mean_light n np px' thr' mask = (g * mean_light n np px thr mask)%Qc).
  { unfold mean_light. replace (qsum n (subap_light np px' thr' mask)) with (g * qsum n (subap_light np px thr mask))%Qc; [unfold Qcdiv; ring|].
    rewrite <- qsum_scale. apply (sumn_ext (A:=qc)). intros s Hs. symmetry. now apply L. }
  split; [|split; [|split; [exact L|]]].
  - rewrite Mn. unfold Qclt in *. rewrite this_mul. change (this 0%Qc) with 0%Q in *. nra.
  - intros s Hs. unfold lit. rewrite Mn, L by exact Hs. set (m := mean_light n np px thr mask) in *. set (l := subap_light np px thr mask s).
    destruct (Qclt_le_dec (g * l) (g * m * Q2Qc (1 # 1000))) as [A|A], (Qclt_le_dec l (m * Q2Qc (1 # 1000))) as [B|B]; try reflexivity; exfalso;
    clearbody m l; clear - G P A B; unfold Qclt, Qcle in *; rewrite ?this_mul, ?this_q in *; change (this 0%Qc) with 0%Q in *; nra.
  - intros s k Hs. rewrite <- qsum_scale. apply (sumn_ext (A:=qc)). intros j Hj. rewrite (Sp s j Hs Hj), (W j Hj). qceq. ring.
Qed.

(* More or less light in all the pixels, without a threshold: the same slopes. *)
Theorem C74_scale hist t frame hist' t' frame' g : (0 < g)%Qc -> frames_ok nr nc (hist ++ [(t, frame)]) -> frames_ok nr nc (hist' ++ [(t', frame')]) ->
  (thr <= 0)%Qc ->
  (forall s j, s < n -> j < np * np -> subap_pixel idxs frame' nc s j = (g * subap_pixel idxs frame nc s j)%Qc) ->
  (0 < mean_light n np (subap_pixel idxs frame nc) thr mask)%Qc ->
  exists x y, gives hist t frame x y /\ gives hist' t' frame' x y.
Proof.
  intros G F F' T Eq P. assert (Z : positive_part thr = 0%Qc) by (unfold positive_part; destruct (Qclt_le_dec 0 thr) as [Q|Q]; [exfalso; qclra|reflexivity]).
  destruct (permuted (subap_pixel idxs frame nc) (subap_pixel idxs frame' nc) (fun j => j) g thr G) as (P' & Lt & L & K); auto.
  { intros s j Hs Hj. unfold spot. rewrite (Eq s j Hs Hj), Z. set (u := subap_pixel idxs frame nc s j). unfold positive_part.
    destruct (Qclt_le_dec 0 (g * u - 0)) as [A|A], (Qclt_le_dec 0 (u - 0)) as [B|B]; try ring; exfalso;
    clearbody u; clear - G A B; unfold Qclt, Qcle in *; rewrite ?this_sub, ?this_mul in *; change (this 0%Qc) with 0%Q in *; nra. }
  do 2 eexists. split; [exact (gives_slopes hist t frame F P)|]. eapply gives_ext; [exact (gives_slopes hist' t' frame' F' P')| |]; intros s Hs.
  - unfold slope_x. rewrite Lt by exact Hs. destruct (lit n np (subap_pixel idxs frame nc) thr mask s) eqn:El; [|reflexivity].
    assert (Lp := lit_pos n np thr mask _ s P El). apply Qc_pos_neq in Lp. apply Qc_pos_neq in G. rewrite L by exact Hs.
    unfold moment_x. rewrite (K s (fun j => signed_power (centre np (j mod np)) e) Hs). field. auto.
  - unfold slope_y. rewrite Lt by exact Hs. destruct (lit n np (subap_pixel idxs frame nc) thr mask s) eqn:El; [|reflexivity].
    assert (Lp := lit_pos n np thr mask _ s P El). apply Qc_pos_neq in Lp. apply Qc_pos_neq in G. rewrite L by exact Hs.
    unfold moment_y. rewrite (K s (fun j => signed_power (centre np (j / np)) e) Hs). field. auto.
Qed.

Lemma spot_same px px' p : (forall s j, s < n -> j < np * np -> px' s j = px s (p j)) ->
  forall s j, s < n -> j < np * np -> spot px' thr s j = (1 * spot px thr s (p j))%Qc.
Proof. intros H s j Hs Hj. unfold spot. rewrite (H s j Hs Hj). ring. Qed.

(* Every sub-aperture transposed, with a mask equal to its transpose: the slopes exchange. *)
Theorem C74_transpose hist t frame hist' t' frame' : frames_ok nr nc (hist ++ [(t, frame)]) -> frames_ok nr nc (hist' ++ [(t', frame')]) ->
  (forall s r c, s < n -> r < np -> c < np -> subap_pixel idxs frame' nc s (r * np + c) = subap_pixel idxs frame nc s (c * np + r)) ->
  (forall r c, r < np -> c < np -> weight mask (r * np + c) = weight mask (c * np + r)) ->
  (0 < mean_light n np (subap_pixel idxs frame nc) thr mask)%Qc ->
  exists x y, gives hist t frame x y /\ gives hist' t' frame' y x.
Proof.
  intros F F' Eq W P.
  assert (B : forall j, j < np * np -> j / np < np /\ j mod np < np /\ j = j / np * np + j mod np).
  { intros j Hj. split; [apply Nat.div_lt_upper_bound; lia|]. split; [apply Nat.mod_upper_bound; lia|]. apply square_split. lia. }
  destruct (permuted (subap_pixel idxs frame nc) (subap_pixel idxs frame' nc) (transposed np) 1%Qc thr eq_refl) as (P' & Lt & L & K); auto.
  { apply sum_transposed. }
  { apply spot_same. intros s j Hs Hj. destruct (B j Hj) as (H1 & H2 & H3). rewrite H3 at 1. rewrite Eq by assumption. reflexivity. }
  { intros j Hj. destruct (B j Hj) as (H1 & H2 & H3). rewrite H3 at 2. rewrite W by assumption. reflexivity. }
  do 2 eexists. split; [exact (gives_slopes hist t frame F P)|]. eapply gives_ext; [exact (gives_slopes hist' t' frame' F' P')| |]; intros s Hs.
  - unfold slope_x, slope_y. rewrite Lt by exact Hs. destruct (lit n np (subap_pixel idxs frame nc) thr mask s) eqn:El; [|reflexivity].
    assert (Lp := lit_pos n np thr mask _ s P El). apply Qc_pos_neq in Lp. rewrite L by exact Hs.
    unfold moment_x, moment_y. rewrite (K s (fun j => signed_power (centre np (j mod np)) e) Hs).
    rewrite (sum_transposed np (fun j => spot (subap_pixel idxs frame nc) thr s j * (signed_power (centre np (j / np)) e * weight mask j))%Qc).
    replace (qsum (np * np) (fun j => spot (subap_pixel idxs frame nc) thr s (transposed np j) * (signed_power (centre np (transposed np j / np)) e * weight mask (transposed np j)))%Qc)
      with (qsum (np * np) (fun j => spot (subap_pixel idxs frame nc) thr s (transposed np j) * (signed_power (centre np (j mod np)) e * weight mask (transposed np j)))%Qc).
    { field. exact Lp. }
    apply (sumn_ext (A:=qc)). intros j Hj. destruct (B j Hj) as (H1 & H2 & H3). unfold transposed at 4. now rewrite (proj1 (square_at np _ _ H1)).
  - unfold slope_x, slope_y. rewrite Lt by exact Hs. destruct (lit n np (subap_pixel idxs frame nc) thr mask s) eqn:El; [|reflexivity].
    assert (Lp := lit_pos n np thr mask _ s P El). apply Qc_pos_neq in Lp. rewrite L by exact Hs.
    unfold moment_x, moment_y. rewrite (K s (fun j => signed_power (centre np (j / np)) e) Hs).
    rewrite (sum_transposed np (fun j => spot (subap_pixel idxs frame nc) thr s j * (signed_power (centre np (j mod np)) e * weight mask j))%Qc).
    replace (qsum (np * np) (fun j => spot (subap_pixel idxs frame nc) thr s (transposed np j) * (signed_power (centre np (transposed np j mod np)) e * weight mask (transposed np j)))%Qc)
      with (qsum (np * np) (fun j => spot (subap_pixel idxs frame nc) thr s (transposed np j) * (signed_power (centre np (j / np)) e * weight mask (transposed np j)))%Qc).
    { field. exact Lp. }
    apply (sumn_ext (A:=qc)). intros j Hj. destruct (B j Hj) as (H1 & H2 & H3). unfold transposed at 4. now rewrite (proj2 (square_at np _ _ H1)).
Qed.

(* Every sub-aperture turned by half a turn, with a mask that is symmetric: the slopes change
   sign. *)
Lemma opposite j : j < np * np -> (np * np - 1 - j) / np = np - 1 - j / np /\ (np * np - 1 - j) mod np = np - 1 - j mod np.
Proof.
  intros Hj. assert (E := square_split np j ltac:(lia)). assert (B := Nat.mod_upper_bound j np ltac:(lia)).
  assert (D : j / np < np) by (apply Nat.div_lt_upper_bound; lia).
  assert (Q : np * np - 1 - j = (np - 1 - j / np) * np + (np - 1 - j mod np)). { rewrite E at 1. nia. }
  rewrite Q. apply square_at. lia.
Qed.
Theorem C74_rotate hist t frame hist' t' frame' : 0 < e -> frames_ok nr nc (hist ++ [(t, frame)]) -> frames_ok nr nc (hist' ++ [(t', frame')]) ->
  (forall s j, s < n -> j < np * np -> subap_pixel idxs frame' nc s j = subap_pixel idxs frame nc s (np * np - 1 - j)) ->
  (forall j, j < np * np -> weight mask (np * np - 1 - j) = weight mask j) ->
  (0 < mean_light n np (subap_pixel idxs frame nc) thr mask)%Qc ->
  exists x y, gives hist t frame x y /\ gives hist' t' frame' (fun s => - x s)%Qc (fun s => - y s)%Qc.
Proof.
  intros He F F' Eq W P.
  assert (R : forall f : nat -> Qc, qsum (np * np) f = qsum (np * np) (fun j => f (np * np - 1 - j))) by (intros f; exact (sumn_rev qc qc_field (np * np) f)).
  destruct (permuted (subap_pixel idxs frame nc) (subap_pixel idxs frame' nc) (fun j => np * np - 1 - j) 1%Qc thr eq_refl) as (P' & Lt & L & K); auto.
  { now apply spot_same. }
  do 2 eexists. split; [exact (gives_slopes hist t frame F P)|]. eapply gives_ext; [exact (gives_slopes hist' t' frame' F' P')| |]; intros s Hs; cbv beta.
  - unfold slope_x. rewrite Lt by exact Hs. destruct (lit n np (subap_pixel idxs frame nc) thr mask s) eqn:El; [|ring].
    assert (Lp := lit_pos n np thr mask _ s P El). apply Qc_pos_neq in Lp. rewrite L by exact Hs.
    unfold moment_x. rewrite (K s (fun j => signed_power (centre np (j mod np)) e) Hs).
    rewrite (R (fun j => spot (subap_pixel idxs frame nc) thr s j * (signed_power (centre np (j mod np)) e * weight mask j))%Qc).
    replace (qsum (np * np) (fun j => spot (subap_pixel idxs frame nc) thr s (np * np - 1 - j) * (signed_power (centre np ((np * np - 1 - j) mod np)) e * weight mask (np * np - 1 - j)%nat))%Qc)
      with (- qsum (np * np) (fun j => spot (subap_pixel idxs frame nc) thr s (np * np - 1 - j) * (signed_power (centre np (j mod np)) e * weight mask (np * np - 1 - j)%nat)))%Qc.
    { field. exact Lp. }
    rewrite <- qsum_opp. apply (sumn_ext (A:=qc)). intros j Hj. rewrite (proj2 (opposite j Hj)).
    rewrite centre_opposite by (apply Nat.mod_upper_bound; lia). rewrite signed_opp by exact He. qceq. ring.
  - unfold slope_y. rewrite Lt by exact Hs. destruct (lit n np (subap_pixel idxs frame nc) thr mask s) eqn:El; [|ring].
    assert (Lp := lit_pos n np thr mask _ s P El). apply Qc_pos_neq in Lp. rewrite L by exact Hs.
    unfold moment_y. rewrite (K s (fun j => signed_power (centre np (j / np)) e) Hs).
    rewrite (R (fun j => spot (subap_pixel idxs frame nc) thr s j * (signed_power (centre np (j / np)) e * weight mask j))%Qc).
    replace (qsum (np * np) (fun j => spot (subap_pixel idxs frame nc) thr s (np * np - 1 - j) * (signed_power (centre np ((np * np - 1 - j) / np)) e * weight mask (np * np - 1 - j)%nat))%Qc)
      with (- qsum (np * np) (fun j => spot (subap_pixel idxs frame nc) thr s (np * np - 1 - j) * (signed_power (centre np (j / np)) e * weight mask (np * np - 1 - j)%nat)))%Qc.
    { field. exact Lp. }
    rewrite <- qsum_opp. apply (sumn_ext (A:=qc)). intros j Hj. rewrite (proj1 (opposite j Hj)).
    rewrite centre_opposite by (apply Nat.div_lt_upper_bound; lia). rewrite signed_opp by exact He. qceq. ring.
Qed.

(* Symmetric light in every sub-aperture, uniform light for example: zero slopes. *)
Theorem C74_symmetric hist t frame : 0 < e -> frames_ok nr nc (hist ++ [(t, frame)]) ->
  (forall s j, s < n -> j < np * np -> subap_pixel idxs frame nc s (np * np - 1 - j) = subap_pixel idxs frame nc s j) ->
  (forall j, j < np * np -> weight mask (np * np - 1 - j) = weight mask j) ->
  (0 < mean_light n np (subap_pixel idxs frame nc) thr mask)%Qc ->
  gives hist t frame (fun _ => 0%Qc) (fun _ => 0%Qc).
Proof.
  intros He F Eq W P. destruct (C74_rotate hist t frame hist t frame He F F (fun s j Hs Hj => eq_sym (Eq s j Hs Hj)) W P) as (x & y & G1 & G2).
  assert (Z : forall s, s < n -> x s = 0%Qc /\ y s = 0%Qc).
  { destruct (G1 0%Z None false (Z.le_refl 0)) as (st & E & X & Y). destruct (G2 0%Z None false (Z.le_refl 0)) as (st' & E' & X' & Y').
    rewrite E in E'. injection E' as <-. rewrite X in X'. rewrite Y in Y'. injection X' as X'. injection Y' as Y'. intros s Hs.
    assert (Zq : forall q : Qc, Fin q = Fin (- q)%Qc -> q = 0%Qc) by (intros q H; injection H as H; qclra).
    split; apply Zq.
    - assert (Q := f_equal (fun l => nth s l NaN) X'). cbv beta in Q. rewrite !nth_map_seq in Q by exact Hs. exact Q.
    - assert (Q := f_equal (fun l => nth s l NaN) Y'). cbv beta in Q. rewrite !nth_map_seq in Q by exact Hs. exact Q. }
  eapply gives_ext; [exact G1| |]; intros s Hs; apply (Z s Hs).
Qed.
End P.

(* Sub-apertures of one pixel are rejected. *)
Theorem C74_one_pixel_rejected idxs p thr e mask dt window inter shape frames : length (hd [] idxs) = 1 ->
  sh_session idxs p thr e mask dt window inter shape frames = Err ValueError.
Proof. intros H. unfold sh_session, sh_init. rewrite H. reflexivity. Qed.

(* Two sub-apertures of two by two pixels side by side *)
Definition two_subaps : list (list Z) := [[0; 1; 4; 5]; [2; 3; 6; 7]]%Z.
Lemma two_subaps_ok : subaps_ok two_subaps 2 2 4.
Proof. split; [discriminate|]. intros r [<-|[<-|[]]]; (split; [reflexivity|]); cbn; intros i H; repeat (destruct H as [<-|H]; [lia|]); contradiction. Qed.
Definition fr (l : list (list Z)) : list (list Qc) := map (map qi) l.
Definition see_sh (r : res sh_st) : res (list seen * list Q * Q * seen) := see_out (s <- r ;; Ok (ss_out s)).

Example C74_example :
  see_sh (sh_session two_subaps no_post 0%Qc 1 None 0%Z None false [2; 4]%Z [(0%Z, fr [[1; 3; 1; 0]; [1; 3; 0; 0]]%Z)]) =
    Ok ([F (1 # 4); F (-1 # 2); F 0; F (-1 # 2)], [8; 1]%Q, 9%Q, F (9 # 2)) /\
  (* a threshold, and interleaved slopes *)
  see_sh (sh_session two_subaps no_post 1%Qc 1 None 0%Z None true [2; 4]%Z [(0%Z, fr [[1; 3; 1; 0]; [1; 2; 9; 0]]%Z)]) =
    Ok ([F (1 # 2); F (-1 # 6); F (-1 # 2); F (1 # 2)], [7; 10]%Q, 17%Q, F (17 # 2)) /\
  (* weights from the frames of the first window, which ends at time 10 *)
  see_sh (sh_session two_subaps no_post 0%Qc 1 None 10%Z None false [2; 4]%Z
            [(5%Z, fr [[0; 1; 1; 1]; [0; 0; 1; 1]]%Z); (10%Z, fr [[0; 1; 1; 1]; [1; 0; 1; 1]]%Z)]) =
    Ok ([F (1 # 6); F 0; F (-1 # 6); F 0], [3 # 2; 4]%Q, (11 # 2)%Q, F (11 # 4)).
Proof. vm_compute. repeat split. Qed.

(* Claim: a frame without light gives zero slopes. *)
Theorem C74_dark_refuted : exists idxs frame st, subaps_ok idxs 2 2 4 /\ rectangular frame 2 4 /\
  sh_session idxs no_post 0%Qc 1 None 0%Z None false [2; 4]%Z [(0%Z, frame)] = Ok st /\ sl_val (so_slopes (ss_out st)) = [NaN; NaN; NaN; NaN].
Proof.
  exists two_subaps, (fr [[0; 0; 0; 0]; [0; 0; 0; 0]]%Z). eexists. split; [exact two_subaps_ok|]. split.
  - split; [reflexivity|]. split; [lia|]. intros r [<-|[<-|[]]]; reflexivity.
  - split; vm_compute; reflexivity.
Qed.

(* Claim: the slopes of a sub-aperture depend on its pixels only.  They become zero if
   another sub-aperture is much brighter. *)
Theorem C74_neighbour_refuted : exists idxs f1 f2 st1 st2, subaps_ok idxs 2 2 4 /\ rectangular f1 2 4 /\ rectangular f2 2 4 /\
  (forall j, j < 4 -> subap_pixel idxs f1 4 0 j = subap_pixel idxs f2 4 0 j) /\
  sh_session idxs no_post 0%Qc 1 None 0%Z None false [2; 4]%Z [(0%Z, f1)] = Ok st1 /\
  sh_session idxs no_post 0%Qc 1 None 0%Z None false [2; 4]%Z [(0%Z, f2)] = Ok st2 /\
  hd NaN (sl_val (so_slopes (ss_out st1))) <> hd NaN (sl_val (so_slopes (ss_out st2))).
Proof.
  exists two_subaps, (fr [[0; 1; 1; 1]; [0; 1; 1; 1]]%Z), (fr [[0; 1; 1000; 1000]; [0; 1; 1000; 1000]]%Z). do 2 eexists. split; [exact two_subaps_ok|].
  assert (R : forall a b, length a = 4 -> length b = 4 -> rectangular [a; b] 2 4).
  { intros a b Ha Hb. split; [reflexivity|]. split; [lia|]. intros r [<-|[<-|[]]]; lia. }
  split; [apply R; reflexivity|]. split; [apply R; reflexivity|]. split.
  - intros j Hj. do 4 (destruct j as [|j]; [reflexivity|]). lia.
  - split; [vm_compute; reflexivity|]. split; [vm_compute; reflexivity|]. vm_compute. discriminate.
Qed.

Print Assumptions C74_weighted.
Print Assumptions C74_slopes.
Print Assumptions C74_bounds.
Print Assumptions C74_dark_subaperture.
Print Assumptions C74_one_pixel.
Print Assumptions C74_scale.
Print Assumptions C74_transpose.
Print Assumptions C74_rotate.
Print Assumptions C74_symmetric.
Print Assumptions C74_one_pixel_rejected.
Print Assumptions C74_dark_refuted.
Print Assumptions C74_neighbour_refuted.
