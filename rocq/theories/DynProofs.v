(* Proofs about the filters with changing gain and resets. *)
From Coq Require Import List Bool PeanoNat Lia Field_theory Ring_theory Ring Field.
From Verif Require Import PyBase PyLemmas Arith ArithLemmas FilterModel FilterSpec SumLemmas FilterProofs IirProofs FilterFacts
  FilterFacts2 DynModel DynSpec.
Import ListNotations.
Local Open Scope ar_scope.

Section Dyn.
Variable A : arith.
Hypothesis HF : is_field A.
Let HF' : field_theory (@zer A) one add mul sub opp dvd inv eq := HF.
Add Field fA20 : HF'.
Variable isz : A -> bool.
Variable finite : A -> bool.
Notation D0 := (idata A).
Notation set_gain := (set_gain finite).
Notation X := (D0 * (mat A * mat A))%type.

(* ---- coefficients ---- *)
Definition dshape (D : D0) n ni no :=
  shape (dt_num D) n (S ni) /\ shape (dt_norm D) n (S ni) /\ length (dt_gain D) = n /\ shape (dt_den D) n (S no).

Lemma settle_length o (r : vec A) : length (settle isz o r) = length r.
Proof.
  unfold settle. destruct (_ && _) eqn:E; auto. apply andb_true_iff in E as [E _]. apply Nat.ltb_lt in E.
  rewrite app_length, skipn_length, firstn_length. lia.
Qed.

Lemma settle_shape os (m : mat A) n w : length os = n -> shape m n w -> shape (map2 (settle isz) os m) n w.
Proof.
  intros Lo [L W]. split; [rewrite map2_length; lia|]. intros r Hr.
  revert os m L W Hr Lo. clear. induction n; intros [|o os] [|x m]; simpl; intros; try lia; try contradiction.
  destruct Hr as [<-|Hr]; [rewrite settle_length; apply W; auto|]. eapply (IHn os m); eauto.
Qed.

Lemma make_shape on od (num den : mat A) n ni no ig :
  length on = n -> length od = n -> shape num n (S ni) -> shape den n (S no) ->
  dshape (make_data isz on od num den ig) n ni no.
Proof.
  intros L1 L2 S1 S2. unfold make_data, dshape. cbn [dt_num dt_norm dt_gain dt_den].
  pose proof (settle_shape on num n _ L1 S1) as [L W]. split; [split; auto|]. split; [|split; [rewrite map_length; auto|apply settle_shape; auto]].
  split; [rewrite map2_length, map_length; lia|].
  revert L W. generalize (map2 (settle isz) on num). clear. intros m L W r Hr.
  assert (exists r0, In r0 m /\ length r = length r0) as (r0 & I & ->); [|auto].
  clear L W. induction m; simpl in *; [contradiction|]. destruct Hr as [<-|Hr].
  - exists a. split; auto. apply map_length.
  - destruct (IHm Hr) as (q & ? & ?). exists q; auto.
Qed.

Lemma renew_length (a b : vec A) : length (renew finite a b) = length b.
Proof. revert b. induction a; intros [|y b]; simpl; auto. Qed.

Lemma renew_nth (a b : vec A) i : (i < length b)%nat ->
  nth i (renew finite a b) 0 = match gain_for finite (Gains a) i with Some x => x | None => nth i b 0 end.
Proof.
  revert b i. induction a as [|x a IH]; intros [|y b] i Hi; simpl in *; try lia.
  - destruct i; reflexivity.
  - destruct i; simpl; [destruct (finite x); reflexivity|]. rewrite IH by lia. reflexivity.
Qed.

Lemma set_shape D g n ni no : dshape D n ni no -> dshape (set_gain D g) n ni no.
Proof.
  intros ((L1 & W1) & (L2 & W2) & L3 & S4). unfold set_gain, dshape. cbn [dt_num dt_norm dt_gain dt_den].
  split; [|split; [split; auto|split; [rewrite renew_length; auto|auto]]].
  split; [rewrite map2_length, renew_length; lia|]. intros r Hr.
  assert (exists r0, In r0 (dt_norm D) /\ length r = length r0) as (r0 & I & ->); [|auto].
  revert Hr. generalize (renew finite (spread (length (dt_num D)) g) (dt_gain D)). generalize (dt_norm D) as m. clear.
  induction m as [|a m IH]; intros [|b l] Hr; simpl in *; try contradiction. destruct Hr as [<-|Hr].
  - exists a. split; auto. apply map_length.
  - destruct (IH l Hr) as (q & ? & ?). exists q; auto.
Qed.

Lemma set_num_row D g n ni no i : dshape D n ni no -> (i < n)%nat ->
  nth i (dt_num (set_gain D g)) [] = map (fun x => x * nth i (dt_gain (set_gain D g)) 0) (nth i (dt_norm D) []).
Proof.
  intros ((L1 & _) & (L2 & _) & L3 & _) Hi. unfold set_gain. cbn [dt_num dt_gain].
  rewrite map2_nth with (a := []) (b := 0); auto; try lia. rewrite renew_length; lia.
Qed.

Definition as_new (g : option (gval A)) : newgain A :=
  match g with None => NoGain | Some (GNum x) => OneGain x | Some (GVec v) => Gains v end.

Lemma set_gain_val D g n ni no i : dshape D n ni no -> (i < n)%nat ->
  nth i (dt_gain (set_gain D g)) 0 = match gain_for finite (as_new (Some g)) i with Some x => x | None => nth i (dt_gain D) 0 end.
Proof.
  intros ((L1 & _) & (L2 & _) & L3 & _) Hi. unfold set_gain. cbn [dt_gain]. rewrite renew_nth by lia.
  destruct g as [x|v]; cbn [as_new spread]; [|reflexivity]. unfold gain_for at 1.
  rewrite L1, nth_error_repeat by auto. reflexivity.
Qed.

(* ---- one step as a step of the plain filter ---- *)
Definition dinv n ni no (Y : X) := dshape (fst Y) n ni no /\ iinv n ni no (snd Y).
Lemma dyn_law_ok n ni no (Y : X) u g : dinv n ni no Y -> length u = n -> length g = n ->
  dinv n ni no (fst (dyn_law Y u g)) /\ length (snd (dyn_law Y u g)) = n.
Proof.
  intros [HD HI] Lu Lg. unfold dyn_law. destruct Y as [D x]. cbn [fst snd] in *.
  destruct HD as (H1 & H2 & H3 & H4).
  pose proof (iir_law_ok (iir_of D) n ni no H1 H4 x u g HI Lu Lg) as [Ha Hb].
  destruct (iir_law (iir_of D) x u g) as [x' y]. cbn [fst snd] in *. split; auto. split; auto. split; auto.
Qed.

Section Run.
Variables (n ni no : nat) (d : delay A) (scalar : bool).
Notation step := (dstep finite n d scalar).
Notation run := (drun finite n d scalar).

Definition gain_of (e : event A) : res (option (gval A)) :=
  match ev_gain e with
  | None => Ok None
  | Some g => if scalar then match to_num g with Some x => Ok (Some (GNum x)) | None => Err AttributeError end else Ok (Some g)
  end.
Definition upd (D : D0) (g : option (gval A)) : D0 := match g with None => D | Some g => set_gain D g end.
Definition adjust (s : fstate A X) (r : bool) (g : option (gval A)) : fstate A X :=
  let s2 := if r then freset (fun Y => (fst Y, iir_rx (snd Y))) s else s in
  mkF (upd (fst (fx s2)) g, snd (fx s2)) (fbuf s2) (fdelta s) (fgain s) (fout s) (fnd s).

Lemma shr_const (r : vec A) : map (fun _ => 0) (shr r) = shr (map (fun _ : A => (0 : A)) r).
Proof.
  destruct r as [|a r]; auto. unfold shr. cbn [map]. f_equal. revert a. induction r as [|b r IH]; intros a; auto.
  change (removelast (a :: b :: r)) with (a :: removelast (b :: r)). cbn [map]. rewrite IH. reflexivity.
Qed.

Lemma step_adjust s e : step s e =
  match fprepare n d s (ev_in e), gain_of e with
  | Err x, _ => Err x
  | Ok _, Err x => Err x
  | Ok _, Ok g => fstep n d dyn_law (adjust s (ev_reset e) g) (ev_in e)
  end.
Proof.
  unfold dstep, dprepare, fstep, fprepare. destruct (fit n (fst (ev_in e))) as [u|]; [|reflexivity]. cbn [bind].
  destruct (match snd (ev_in e) with Some g => fit n g | None => Ok (ones n) end) as [m|]; [|reflexivity]. cbn [bind].
  unfold gain_of.
  assert (B : map (map (fun _ : A => (0:A))) (map shr (fbuf s)) = map shr (map (map (fun _ => 0)) (fbuf s))).
  { rewrite !map_map. apply map_ext. intros r. apply shr_const. }
  assert (W : forall g : option (gval A),
    (fpost d (ftrigger dyn_law
       (let s2 := if ev_reset e then freset (fun Y : X => (fst Y, iir_rx (snd Y))) (mkF (fx s) (if dpos d then map shr (fbuf s) else fbuf s) u m (fout s) (fnd s))
                  else mkF (fx s) (if dpos d then map shr (fbuf s) else fbuf s) u m (fout s) (fnd s) in
        mkF (upd (fst (fx s2)) g, snd (fx s2)) (fbuf s2) (fdelta s2) (fgain s2) (fout s2) (fnd s2)))) =
    fpost d (ftrigger dyn_law
       (mkF (fx (adjust s (ev_reset e) g)) (if dpos d then map shr (fbuf (adjust s (ev_reset e) g)) else fbuf (adjust s (ev_reset e) g)) u m
          (fout (adjust s (ev_reset e) g)) (fnd (adjust s (ev_reset e) g))))).
  { intros g. unfold adjust. destruct (ev_reset e); unfold freset; cbn [fx fbuf fdelta fgain fout fnd fst snd]; auto.
    destruct (dpos d); rewrite ?B; reflexivity. }
  destruct (ev_gain e) as [g|].
  - destruct scalar; [destruct (to_num g) as [x|]; [|reflexivity]|]; cbn [bind]; f_equal; [exact (W (Some (GNum x)))|exact (W (Some g))].
  - cbn [bind]. f_equal. rewrite <- (W None). f_equal.
Qed.

(* the state in terms of what has happened since the last reset *)
Definition drep (s : fstate A X) D hu hy :=
  rep X n d s hy /\ xrep n ni no (snd (fx s)) hu hy /\ fst (fx s) = D /\ dshape D n ni no.

Lemma drep_init D : dshape D n ni no -> drep (finit n d (dyn_x0 D)) D [] [].
Proof.
  intros H. pose proof H as (H1 & H2 & H3 & H4). split; [apply rep_init|]. split; [|split; auto].
  cbn [fx finit dyn_x0 snd]. apply xrep_init; auto.
Qed.

Lemma drep_adjust s D hu hy r g : drep s D hu hy ->
  drep (adjust s r g) (upd D g) (if r then [] else hu) (if r then [] else hy).
Proof.
  intros (R & Hx & E & S). assert (S' : dshape (upd D g) n ni no) by (destruct g; cbn [upd]; auto; apply set_shape; auto).
  unfold adjust. destruct r; (split; [|split; [|split; auto]]); cbn [fx fbuf fst snd freset].
  - unfold rep. cbn [fbuf]. exact (rep_reset n d (fun Y => (fst Y, iir_rx (snd Y))) s hy R).
  - eapply xrep_reset; eauto.
  - rewrite E. reflexivity.
  - exact R.
  - exact Hx.
  - rewrite E. reflexivity.
Qed.

Definition new_y (D : D0) (m : vec A) (hu hy : list (vec A)) : vec A :=
  map (fun i => iir_y (iir_of D) ni no (nth i (dt_num D) []) (nth i (dt_den D) []) (nth i m 0) (chan i hu) (chan i hy)) (seq 0 n).

Lemma step_rep s D hu hy e s' : drep s D hu hy -> step s e = Ok s' ->
  exists g v, gain_of e = Ok g /\ fitted n (ev_in e) v /\
  let hu' := fst v :: (if ev_reset e then [] else hu) in
  let y := new_y (upd D g) (snd v) hu' (if ev_reset e then [] else hy) in
  let hy' := y :: (if ev_reset e then [] else hy) in
  drep s' (upd D g) hu' hy' /\ fouts s' = (delayed n d hy', y).
Proof.
  intros R E. rewrite step_adjust in E.
  destruct (fprepare n d s (ev_in e)) as [s1|] eqn:Ep; [|discriminate].
  destruct (gain_of e) as [g|] eqn:Eg; [|discriminate].
  assert (exists v, fitted n (ev_in e) v) as [v Hv].
  { unfold fprepare in Ep. inv_bind Ep. inv_bind Ep. exists (a, a0). split; auto. }
  exists g, v. split; auto. split; auto. cbv zeta.
  pose proof (drep_adjust _ _ _ _ (ev_reset e) g R) as R2. set (hu2 := if ev_reset e then [] else hu) in *.
  set (hy2 := if ev_reset e then [] else hy) in *. set (s2 := adjust s (ev_reset e) g) in *.
  destruct R2 as (R2 & X2 & E2 & S2). destruct (fitted_length _ _ _ Hv) as [L1 L2].
  assert (I2 : dinv n ni no (fx s2)). { split; [rewrite E2; auto|]. exists hu2, hy2. exact X2. }
  destruct (step_ok X n d dyn_law (dinv n ni no) (dyn_law_ok n ni no) s2 hy2 (ev_in e) v R2 I2 Hv) as (s3 & E3 & E4 & R3 & I3 & O3).
  rewrite E3 in E. injection E as <-.
  unfold dyn_law in E4, O3, R3. rewrite E2 in *. pose proof S2 as (N1 & N2 & N3 & N4).
  pose proof (iir_law_rep (iir_of (upd D g)) n ni no N1 N4 (snd (fx s2)) hu2 hy2 (fst v) (snd v) X2 L1 L2) as El.
  cbv zeta in El. rewrite El in E4, O3, R3. clear El. cbn [fst snd] in *. injection E4 as E4. split; [|rewrite O3; reflexivity].
  split; [exact R3|]. rewrite E4. cbn [fst snd]. split; [split; reflexivity|]. split; auto.
Qed.

(* after a reset nothing of the past is left but the coefficients *)
Lemma step_reset s D hu hy e : drep s D hu hy -> ev_reset e = true ->
  step s e = step (finit n d (dyn_x0 D)) e.
Proof.
  intros R Er. pose proof R as (R1 & X1 & E1 & S1). pose proof (drep_init D S1) as R0.
  rewrite !step_adjust, Er. unfold fprepare.
  destruct (fit n (fst (ev_in e))) as [u|] eqn:Eu; [|reflexivity]. cbn [bind].
  destruct (match snd (ev_in e) with Some g => fit n g | None => Ok (ones n) end) as [m|] eqn:Em; [|reflexivity]. cbn [bind].
  destruct (gain_of e) as [g|]; [|reflexivity].
  pose proof (drep_adjust _ _ _ _ true g R) as (Ra & Xa & Ea & _).
  pose proof (drep_adjust _ _ _ _ true g R0) as (Rb & Xb & Eb & _). cbv iota in *.
  assert (Ef : fx (adjust s true g) = fx (adjust (finit n d (dyn_x0 D)) true g)).
  { destruct (fx (adjust s true g)) as [d1 [x1 z1]], (fx (adjust (finit n d (dyn_x0 D)) true g)) as [d2 [x2 z2]].
    cbn [fst snd] in *. destruct Xa as [Xa1 Xa2], Xb as [Xb1 Xb2]. cbn [fst snd] in *. congruence. }
  assert (Ebf : fbuf (adjust s true g) = fbuf (adjust (finit n d (dyn_x0 D)) true g)).
  { unfold rep in Ra, Rb. congruence. }
  unfold fstep, fprepare. rewrite Eu, Em. cbn [bind]. f_equal. rewrite Ef, Ebf. unfold ftrigger, fpost.
  cbn [fx fbuf fdelta fgain]. destruct (dyn_law _ u m). reflexivity.
Qed.

Lemma step_succeeds s D hu hy e : drep s D hu hy ->
  ((exists s', step s e = Ok s') <-> input_fits n (ev_in e) /\ exists g, gain_of e = Ok g).
Proof.
  intros R. split.
  - intros [s' E]. destruct (step_rep _ _ _ _ _ _ R E) as (g & v & Eg & Fv & _). split; [|eauto].
    assert (Forall (input_fits n) [ev_in e]) as F by (apply fitted_iff; exists [v]; auto). inversion F; auto.
  - intros [F [g Eg]]. rewrite step_adjust, Eg.
    assert (Forall (input_fits n) [ev_in e]) as F' by auto. apply fitted_iff in F' as [vs Fv]. inversion Fv as [|? v ? ? Hv _]; subst.
    pose proof Hv as [H1 H2]. unfold fprepare. rewrite H1. cbn [bind]. rewrite H2. cbn [bind].
    pose proof (drep_adjust _ _ _ _ (ev_reset e) g R) as (R2 & X2 & E2 & S2).
    assert (I2 : dinv n ni no (fx (adjust s (ev_reset e) g))). { split; [rewrite E2; auto|]. eexists _, _. exact X2. }
    destruct (step_ok X n d dyn_law (dinv n ni no) (dyn_law_ok n ni no) _ _ (ev_in e) v R2 I2 Hv) as (s3 & E3 & _). eauto.
Qed.

Lemma run_succeeds es : forall s D hu hy, drep s D hu hy ->
  ((exists s' ys, run s es = Ok (s', ys)) <-> Forall (fun e => input_fits n (ev_in e) /\ exists g, gain_of e = Ok g) es).
Proof.
  induction es as [|e r IH]; intros s D hu hy R; cbn [drun].
  - split; eauto.
  - destruct (step s e) as [s1|] eqn:E.
    + destruct (step_rep _ _ _ _ _ _ R E) as (g & v & Eg & Fv & R' & _). cbv zeta in R'. cbn [bind].
      assert (O : input_fits n (ev_in e) /\ exists g, gain_of e = Ok g) by (apply (step_succeeds _ _ _ _ e R); eauto).
      pose proof (IH _ _ _ _ R') as Q. split.
      * intros (s' & ys & Q1). constructor; auto. apply Q. inv_bind Q1. destruct a. eauto.
      * intros F. inversion F; subst. apply Q in H2 as (s' & ys & ->). cbn [bind]. eauto.
    + cbn [bind]. split; [intros (? & ? & [=])|]. intros F. inversion F; subst.
      apply (step_succeeds _ _ _ _ e R) in H1 as [s' Q]. congruence.
Qed.

Lemma run_drep es : forall s D hu hy s' ys, drep s D hu hy -> run s es = Ok (s', ys) -> exists D' hu' hy', drep s' D' hu' hy'.
Proof.
  induction es as [|e r IH]; intros s D hu hy s' ys R E; cbn [drun] in E.
  - injection E as <- <-. eauto.
  - inv_bind E. inv_bind E. destruct (step_rep _ _ _ _ _ _ R E0) as (g & v & Eg & Fv & R' & _). cbv zeta in R'.
    destruct a0 as [t ys']. injection E as <- <-. eauto.
Qed.

Definition e0 : event A := mkEv ([], None) false None.
Lemma run_at es : forall s s' ys, run s es = Ok (s', ys) ->
  length ys = length es /\
  forall k, (k < length es)%nat -> exists sk sk', run s (firstn k es) = Ok (sk, firstn k ys) /\
    step sk (nth k es e0) = Ok sk' /\ nth k ys ([], []) = fouts sk' /\
    run s (firstn (S k) es) = Ok (sk', firstn (S k) ys).
Proof.
  induction es as [|e r IH]; intros s s' ys E; cbn [drun] in E.
  - injection E as <- <-. split; auto. simpl. lia.
  - inv_bind E. inv_bind E. destruct a0 as [t ys']. cbn [fst snd] in E. injection E as <- <-.
    destruct (IH _ _ _ E1) as [L H]. split; [simpl; auto|]. intros [|k] Hk.
    + exists s, a. cbn [firstn drun]. rewrite E0. cbn [bind]. auto.
    + destruct (H k ltac:(simpl in Hk; lia)) as (sk & sk' & H1 & H2 & H3 & H4). exists sk, sk'.
      cbn [nth]. rewrite !firstn_cons. cbn [drun]. rewrite E0. cbn [bind]. rewrite H1, H4. auto.
Qed.

Definition said (g : option (gval A)) : newgain A :=
  match g with
  | None => NoGain
  | Some (GNum x) => OneGain x
  | Some (GVec v) => if scalar then OneGain (nth 0 v 0) else Gains v
  end.
Lemma gain_of_said e g : gain_of e = Ok g -> as_new g = said (ev_gain e).
Proof.
  unfold gain_of. destruct (ev_gain e) as [[x|v]|]; cbn [to_num said].
  - destruct scalar; intros [= <-]; reflexivity.
  - destruct scalar; [destruct v as [|x [|]]|]; intros [= <-]; reflexivity.
  - intros [= <-]. reflexivity.
Qed.

Variable D : D0.
Hypothesis SD : dshape D n ni no.
Variable es : list (event A).
Variables (s' : fstate A X) (ys : list (vec A * vec A)).
Hypothesis RUN : run (finit n d (dyn_x0 D)) es = Ok (s', ys).

Definition rs (k : nat) : bool := ev_reset (nth k es e0).
Definition prev (x : nat -> A) (k j : nat) : A := match k with 0%nat => 0 | S k' => back rs x k' j end.
Definition given (i k : nat) : option A := gain_for finite (said (ev_gain (nth k es e0))) i.
Definition ins := map (fun e : event A => ev_in e) es.

(* the coefficients after k events *)
Definition coef (Dk : D0) k := dshape Dk n ni no /\ dt_norm Dk = dt_norm D /\ dt_den Dk = dt_den D /\ dt_integ Dk = dt_integ D /\
  forall i, (i < n)%nat -> nth i (dt_gain Dk) 0 = in_force (nth i (dt_gain D) 0) (given i) k /\
    (nth i (dt_num Dk) [] = nth i (dt_num D) [] /\ (forall m, (m < k)%nat -> ev_gain (nth m es e0) = None) \/
     nth i (dt_num Dk) [] = map (fun x => x * nth i (dt_gain Dk) 0) (nth i (dt_norm D) [])).

Lemma back_prev x k j : back rs x k (S j) = if rs k then 0 else prev x k j.
Proof. destruct k; reflexivity. Qed.

Lemma inv_at k : (k <= length es)%nat -> exists sk Dk hu hy,
  run (finit n d (dyn_x0 D)) (firstn k es) = Ok (sk, firstn k ys) /\ drep sk Dk hu hy /\ coef Dk k /\
  (forall i j, (i < n)%nat -> nth j (chan i hu) 0 = prev (fun k => in_at n ins k i) k j) /\
  (forall i j, (i < n)%nat -> nth j (chan i hy) 0 = prev (fun k => nd_at ys k i) k j) /\
  (forall k', k = S k' -> forall i, (i < n)%nat ->
     nd_at ys k' i = iir_y (iir_of Dk) ni no (nth i (dt_num Dk) []) (nth i (dt_den Dk) []) (gain_at n ins k' i) (chan i hu) (tl (chan i hy)) /\
     nth k' ys ([], []) = (delayed n d hy, hd [] hy)).
Proof.
  destruct (run_at _ _ _ _ RUN) as [Ly AT].
  induction k as [|k IH]; intros Hk.
  - exists (finit n d (dyn_x0 D)), D, [], []. split; [reflexivity|]. split; [apply drep_init; auto|].
    split. { split; auto. split; auto. split; auto. split; auto. intros i Hi. split; [reflexivity|]. left. split; auto. intros; lia. }
    split; [intros i [|j] _; reflexivity|]. split; [intros i [|j] _; reflexivity|]. intros k' [=].
  - destruct (IH ltac:(lia)) as (sk & Dk & hu & hy & E & R & C & Hu & Hy & _).
    destruct (AT k Hk) as (sk2 & sk' & E2 & E3 & E4 & E5). rewrite E in E2. injection E2 as <-.
    destruct (step_rep _ _ _ _ _ _ R E3) as (g & v & Eg & Fv & R' & O'). cbv zeta in R', O'.
    set (e := nth k es e0) in *. set (hu2 := if ev_reset e then [] else hu) in *. set (hy2 := if ev_reset e then [] else hy) in *.
    set (y := new_y (upd Dk g) (snd v) (fst v :: hu2) hy2) in *.
    exists sk', (upd Dk g), (fst v :: hu2), (y :: hy2). split; [exact E5|]. split; [exact R'|].
    assert (Ein : nth k ins ([], None) = ev_in e).
    { unfold ins. rewrite (nth_indep _ _ (ev_in e0)) by (rewrite map_length; lia). apply map_nth. }
    destruct C as (C1 & C2 & C3 & C4 & C5).
    assert (C' : coef (upd Dk g) (S k)).
    { split; [apply (proj2 (proj2 (proj2 R')))|]. destruct g as [g|]; cbn [upd].
      - split; [exact C2|]. split; [exact C3|]. split; [exact C4|]. intros i Hi. split.
        + rewrite (set_gain_val _ _ n ni no) by auto. cbn [in_force]. unfold given at 1. fold e. rewrite <- (gain_of_said _ _ Eg).
          destruct (gain_for finite (as_new (Some g)) i); auto. apply C5; auto.
        + right. rewrite (set_num_row _ _ n ni no) by auto. rewrite C2. reflexivity.
      - split; [exact C2|]. split; [exact C3|]. split; [exact C4|]. intros i Hi. destruct (C5 i Hi) as [G1 G2]. split.
        + cbn [in_force]. unfold given at 1. fold e. rewrite <- (gain_of_said _ _ Eg). cbn [as_new gain_for]. exact G1.
        + destruct G2 as [[G2 G3]|G2]; [left|right; auto]. split; auto. intros m Hm.
          assert (Hc : (m < k \/ m = k)%nat) by lia. destruct Hc as [Hc| ->]; [auto|]. fold e.
          unfold gain_of in Eg. destruct (ev_gain e) as [[x|w]|]; auto; cbn [to_num] in Eg; destruct scalar; try discriminate.
          destruct w as [|? [|]]; discriminate. }
    split; [exact C'|].
    assert (Hin : forall i, (i < n)%nat -> nth i (fst v) 0 = in_at n ins k i).
    { intros i Hi. unfold in_at. rewrite Ein. apply fit_chan; auto. apply Fv. }
    assert (Hgn : forall i, (i < n)%nat -> nth i (snd v) 0 = gain_at n ins k i).
    { intros i Hi. unfold gain_at. rewrite Ein. destruct Fv as [_ F]. destruct (snd (ev_in e)).
      - apply fit_chan; auto.
      - injection F as <-. unfold ones. rewrite repeat_map_seq, nth_map_seq; auto. }
    assert (Hny : forall i, nth i y 0 = nd_at ys k i).
    { intros i. unfold nd_at. rewrite E4, O'. reflexivity. }
    assert (Hu' : forall i j, (i < n)%nat -> nth j (chan i (fst v :: hu2)) 0 = prev (fun k => in_at n ins k i) (S k) j).
    { intros i [|j] Hi; cbn [chan map nth].
      - exact (Hin i Hi).
      - cbn [prev]. rewrite back_prev. unfold hu2, rs. fold e. destruct (ev_reset e); [destruct j; reflexivity|]. apply Hu; auto. }
    assert (Hy2 : forall i j, (i < n)%nat -> nth j (chan i hy2) 0 = back rs (fun k => nd_at ys k i) k (S j)).
    { intros i j Hi. rewrite back_prev. unfold hy2, rs. fold e. destruct (ev_reset e); [destruct j; reflexivity|]. apply Hy; auto. }
    split; [exact Hu'|]. split.
    { intros i [|j] Hi; cbn [chan map nth].
      - exact (Hny i).
      - apply Hy2; auto. }
    intros k' [= <-] i Hi. split; [|rewrite E4, O'; reflexivity].
    rewrite <- Hny. unfold y, new_y. rewrite nth_map_seq by auto. rewrite Hgn by auto. reflexivity.
Qed.

Lemma dyn_rec k i : (k < length es)%nat -> (i < n)%nat -> exists Dk, coef Dk (S k) /\
  nd_at ys k i = (1 / nth no (nth i (dt_den D) []) 0) *
   (sumn (S ni) (fun j => nth (ni - j) (nth i (dt_num Dk) []) 0 * gain_at n ins k i * back rs (fun k => in_at n ins k i) k j) -
    sumn no (fun j => nth (no - 1 - j) (nth i (dt_den D) []) 0 * (if dt_integ D then 1 else 0) * back rs (fun k => nd_at ys k i) k (S j))).
Proof.
  intros Hk Hi. destruct (inv_at (S k) Hk) as (sk & Dk & hu & hy & _ & R & C & Hu & Hy & H). exists Dk. split; auto.
  destruct (H k eq_refl i Hi) as [H1 _]. pose proof C as ((S1 & S2 & S3 & S4) & C2 & C3 & C4 & C5).
  pose proof (iir_y_sum A HF (iir_of Dk) n ni no S1 S4 i (gain_at n ins k i) (chan i hu) (tl (chan i hy)) Hi) as Y.
  unfold nrow, drow in Y. cbn [iir_of inum iden iinteg] in Y. rewrite <- H1, C3, C4 in Y. rewrite Y. f_equal. f_equal.
  - apply sumn_ext. intros j Hj. f_equal. rewrite Hu by auto. reflexivity.
  - apply sumn_ext. intros j Hj. f_equal.
    change (back rs (fun k0 => nd_at ys k0 i) k (S j)) with (prev (fun k => nd_at ys k i) (S k) (S j)).
    rewrite <- Hy by auto. destruct (chan i hy); [destruct j; reflexivity|]. reflexivity.
Qed.

Lemma dyn_out k i : (k < length es)%nat -> (i < n)%nat ->
  out_at ys k i = match d with
    | DInt m => back rs (fun k => nd_at ys k i) k m
    | DFrac m f => f * back rs (fun k => nd_at ys k i) k (S m) + (1 - f) * back rs (fun k => nd_at ys k i) k m
    end.
Proof.
  intros Hk Hi. destruct (inv_at (S k) Hk) as (sk & Dk & hu & hy & _ & R & C & Hu & Hy & H).
  destruct (H k eq_refl i Hi) as [_ H1]. unfold out_at. rewrite H1. cbn [fst]. unfold delayed. rewrite nth_map_seq by auto.
  unfold delayed_val. destruct d; rewrite !Hy by auto; reflexivity.
Qed.
End Run.

(* ---- facts about the data ---- *)
Hypothesis IZ : forall x : A, isz x = true <-> x = 0.

Lemma make_last on od num den ig n ni i : length on = n -> shape num n (S ni) -> (i < n)%nat ->
  let D := make_data isz on od num den ig in
  nth i (dt_gain D) 0 = nth ni (nth i (dt_num D) []) 0 /\
  nth i (dt_norm D) [] = map (fun x => x / safe isz (nth i (dt_gain D) 0)) (nth i (dt_num D) []).
Proof.
  intros L S Hi D. pose proof (settle_shape on num n _ L S) as [L1 W1].
  unfold D, make_data. cbn [dt_gain dt_num dt_norm]. set (m := map2 (settle isz) on num) in *.
  assert (G : nth i (map (fun r => last r 0) m) 0 = last (nth i m []) 0).
  { exact (map_nth (fun r => last r 0) m [] i). }
  split.
  - rewrite G. apply last_nth. apply W1, nth_In. lia.
  - rewrite map2_nth with (a := []) (b := 0); auto; try lia. rewrite map_length. lia.
Qed.

(* coefficients made from a set of numbers; the entry j of channel i in terms of the gain *)
Lemma scaled (g : A) (r : vec A) j : g <> 0 -> nth j (map (fun x => x * g) (map (fun x => x / g) r)) 0 = nth j r 0.
Proof. intros Hg. rewrite map_map. rewrite (nth_map0 A (fun x => x / g * g)) by (field; auto). field. auto. Qed.

Lemma safe_ne x : safe isz x <> 0.
Proof.
  unfold safe. destruct (isz x) eqn:E; [exact (F_1_neq_0 HF')|]. intros ->. assert (isz 0 = true) by (apply IZ; auto). congruence.
Qed.
Lemma safe_id x : x <> 0 -> safe isz x = x.
Proof. intros H. unfold safe. destruct (isz x) eqn:E; auto. apply IZ in E. contradiction. Qed.

(* entry j of the numerator in use after k events *)
Lemma coef_entry on od num den ig n ni no sc es Dk k i j :
  length on = n -> length od = n -> shape num n (S ni) -> shape den n (S no) -> (i < n)%nat ->
  let D := make_data isz on od num den ig in
  coef n ni no sc D es Dk k ->
  let G := nth ni (nth i (dt_num D) []) 0 in
  G <> 0 ->
  nth j (nth i (dt_num Dk) []) 0 = nth j (nth i (dt_num D) []) 0 * (in_force G (given sc es i) k / G).
Proof.
  intros L1 L2 S1 S2 Hi D (C1 & C2 & C3 & C4 & C5) G HG. destruct (C5 i Hi) as [G1 G2].
  destruct (make_last on od num den ig n ni i L1 S1 Hi) as [M1 M2]. fold D in M1, M2. fold G in M1.
  rewrite M1 in G1. rewrite <- G1. destruct G2 as [[G2 G3]|G2].
  - assert (E : in_force G (given sc es i) k = G).
    { clear -G3. induction k as [|k IH]; [reflexivity|]. cbn [in_force]. unfold given at 1. rewrite G3 by lia. cbn [said gain_for].
      apply IH. intros; apply G3; lia. }
    rewrite G2, G1, E. field. auto.
  - rewrite G2, M2, M1, safe_id by auto. rewrite map_map.
    rewrite (nth_map0 A (fun x => x / G * nth i (dt_gain Dk) 0)) by (field; auto). field. auto.
Qed.

Lemma coef_dead on od num den ig n ni no sc es Dk k i j :
  length on = n -> length od = n -> shape num n (S ni) -> shape den n (S no) -> (i < n)%nat ->
  let D := make_data isz on od num den ig in
  coef n ni no sc D es Dk k ->
  (forall j, nth j (nth i (dt_num D) []) 0 = 0) -> nth j (nth i (dt_num Dk) []) 0 = 0.
Proof.
  intros L1 L2 S1 S2 Hi D (C1 & C2 & C3 & C4 & C5) HZ. destruct (C5 i Hi) as [G1 G2].
  destruct (make_last on od num den ig n ni i L1 S1 Hi) as [M1 M2]. fold D in M1, M2.
  pose proof (safe_ne (nth i (dt_gain D) 0)) as NE.
  destruct G2 as [[G2 G3]|G2].
  - rewrite G2. auto.
  - rewrite G2, M2, map_map. rewrite (nth_map0 A (fun x => x / safe isz (nth i (dt_gain D) 0) * nth i (dt_gain Dk) 0)) by (field; auto).
    rewrite HZ. field. auto.
Qed.

Lemma settle_entry o (r : vec A) j : (j < length r)%nat ->
  nth j (settle isz o r) 0 =
  if Nat.ltb o (length r) && forallb isz (skipn o r)
  then (if Nat.ltb j (length r - o) then 0 else nth (j - (length r - o)) r 0) else nth j r 0.
Proof.
  intros Hj. unfold settle. destruct (_ && _) eqn:E; auto. apply andb_true_iff in E as [E1 E2]. apply Nat.ltb_lt in E1.
  destruct (Nat.ltb_spec j (length r - o)).
  - rewrite app_nth1 by (rewrite skipn_length; lia). rewrite forallb_forall in E2.
    apply IZ, E2, nth_In. rewrite skipn_length. lia.
  - rewrite app_nth2 by (rewrite skipn_length; lia). rewrite skipn_length.
    assert (Q : forall m, (m < o)%nat -> nth m (firstn o r) 0 = nth m r 0).
    { intros m Hm. rewrite <- (firstn_skipn o r) at 2. rewrite app_nth1; auto. rewrite firstn_length. lia. }
    apply Q. lia.
Qed.

Lemma settle_full (m : mat A) n : shape m n 2 -> map2 (settle isz) (map (fun _ => 2%nat) m) m = m.
Proof.
  intros [_ W]. induction m as [|r m IH]; auto. cbn [map map2]. f_equal.
  - unfold settle. rewrite (W r) by (left; auto). reflexivity.
  - apply IH. intros; apply W. right; auto.
Qed.

Lemma integ_data modes g ff ig D : dyn_integrator isz modes g ff ig = Ok D ->
  let n := n_channels modes g in
  exists on od num den, D = make_data isz on od num den ig /\ length on = n /\ length od = n /\ shape num n 2 /\ shape den n 2 /\
  dt_num D = num /\ dt_den D = den /\
  forall b i, in_group modes b i -> (i < n)%nat -> nth i num [] = [0; nth b g 0] /\ nth i den [] = [opp (ff_at A g ff b); 1].
Proof.
  intros E n. unfold dyn_integrator in E. inv_bind E. injection E as <-.
  destruct (integrator_shape A modes g ff ig a E0) as (_ & S1 & S2 & R).
  eexists _, _, (inum a), (iden a). split; [reflexivity|]. pose proof S1 as [L1 _]. pose proof S2 as [L2 _].
  split; [rewrite map_length; auto|]. split; [rewrite map_length; auto|]. split; auto. split; auto.
  unfold make_data. cbn [dt_num dt_den]. rewrite (settle_full _ _ S1), (settle_full _ _ S2). auto.
Qed.

Definition data_of (D : D0) n ni no := exists on od num den ig,
  D = make_data isz on od num den ig /\ length on = n /\ length od = n /\ shape num n (S ni) /\ shape den n (S no).

Lemma data_shape D n ni no : data_of D n ni no -> dshape D n ni no.
Proof. intros (on & od & num & den & ig & -> & ?). apply make_shape; intuition. Qed.
Lemma run_n D n ni no d sc es s ys : dshape D n ni no -> dyn_run finite D d sc es = Ok (s, ys) ->
  drun finite n d sc (finit n d (dyn_x0 D)) es = Ok (s, ys).
Proof. intros ((L & _) & _) E. unfold dyn_run in E. rewrite L in E. exact E. Qed.

Lemma cancel (a b c : A) : c <> 0 -> c * (1 / c * (a - b)) = a - b.
Proof. intros. field. auto. Qed.

Section Facts.
Variables (D : D0) (n ni no : nat) (d : delay A) (sc : bool) (es : list (event A)) (s : fstate A X) (ys : list (vec A * vec A)).
Hypothesis HD : data_of D n ni no.
Hypothesis E : dyn_run finite D d sc es = Ok (s, ys).
Variables k i : nat.
Hypothesis Hk : (k < length es)%nat.
Hypothesis Hi : (i < n)%nat.
Let num j := nth j (nth i (dt_num D) []) 0.
Let den j := nth j (nth i (dt_den D) []) 0.
Hypothesis Hd : den no <> 0.
Let y := fun k => nd_at ys k i.
Let u := fun k => in_at n (ins es) k i.

Lemma dyn_solve : num ni <> 0 ->
  den no * y k =
  sumn (S ni) (fun j => num (ni - j) * (in_force (num ni) (given sc es i) (S k) / num ni)
                        * gain_at n (ins es) k i * back (rs es) u k j)
  - (if dt_integ D then sumn no (fun j => den (no - S j) * back (rs es) y k (S j)) else 0).
Proof.
  intros Hn. pose proof (data_shape D n ni no HD) as SD. pose proof (run_n _ _ _ _ _ _ _ _ _ SD E) as E'.
  destruct (dyn_rec n ni no d sc D SD es s ys E' k i Hk Hi) as (Dk & C & R).
  destruct HD as (on & od & num0 & den0 & ig & ED & L1 & L2 & S1 & S2).
  assert (Q : forall j, nth j (nth i (dt_num Dk) []) 0 = num j * (in_force (num ni) (given sc es i) (S k) / num ni)).
  { intros j. unfold num in *. rewrite ED in C, Hn |- *. exact (coef_entry on od num0 den0 ig n ni no sc es Dk (S k) i j L1 L2 S1 S2 Hi C Hn). }
  unfold y. rewrite R. fold (den no).
  rewrite (sumn_ext (S ni) _ (fun j => num (ni - j) * (in_force (num ni) (given sc es i) (S k) / num ni)
                        * gain_at n (ins es) k i * back (rs es) u k j)) by (intros j Hj; rewrite Q; reflexivity).
  assert (T : sumn no (fun j => nth (no - 1 - j) (nth i (dt_den D) []) 0 * (if dt_integ D then 1 else 0) * back (rs es) (fun k0 => nd_at ys k0 i) k (S j))
      = if dt_integ D then sumn no (fun j => den (no - S j) * back (rs es) y k (S j)) else 0).
  { destruct (dt_integ D).
    - apply sumn_ext. intros j Hj. unfold den, y. replace (no - 1 - j)%nat with (no - S j)%nat by lia. ring.
    - apply (sumn_zero A HF). intros; ring. }
  rewrite T. apply cancel. exact Hd.
Qed.

Lemma dyn_equation : num ni <> 0 -> dt_integ D = true ->
  sumn (S no) (fun j => den (no - j) * back (rs es) y k j) =
  sumn (S ni) (fun j => num (ni - j) * (in_force (num ni) (given sc es i) (S k) / num ni)
                        * gain_at n (ins es) k i * back (rs es) u k j).
Proof.
  intros Hn Hig. pose proof (dyn_solve Hn) as H. rewrite Hig in H. rewrite (sumn_first A HF). rewrite Nat.sub_0_r.
  change (back (rs es) y k 0) with (y k). rewrite H. ring.
Qed.
End Facts.

(* an integrator *)
Lemma dyn_integ modes g ff ig D d es s ys b i k : dyn_integrator isz modes g ff ig = Ok D ->
  dyn_run finite D d true es = Ok (s, ys) -> in_group modes b i -> (i < n_channels modes g)%nat -> (k < length es)%nat ->
  let n := n_channels modes g in
  nth b g 0 <> 0 ->
  nd_at ys k i = (if ig then ff_at A g ff b * back (rs es) (fun k => nd_at ys k i) k 1 else 0)
                 + in_force (nth b g 0) (given true es i) (S k) * gain_at n (ins es) k i * in_at n (ins es) k i.
Proof.
  intros ED E Hb Hi Hk n Hg. destruct (integ_data _ _ _ _ _ ED) as (on & od & num & den & ED' & L1 & L2 & S1 & S2 & N1 & N2 & R).
  destruct (R b i Hb Hi) as [R1 R2]. rewrite <- N1 in R1. rewrite <- N2 in R2.
  assert (HD : data_of D n 1 1) by (exists on, od, num, den, ig; auto).
  pose proof (dyn_solve D n 1 1 d true es s ys HD E k i Hk Hi) as H.
  assert (Hig : dt_integ D = ig) by (rewrite ED'; reflexivity). rewrite Hig in H.
  rewrite R1, R2 in H. cbn [nth sumn Nat.sub] in H. specialize (H (F_1_neq_0 HF') Hg). cbn [back] in H |- *.
  destruct ig.
  - transitivity (1 * nd_at ys k i); [ring|]. rewrite H. field. auto.
  - transitivity (1 * nd_at ys k i); [ring|]. rewrite H. field. auto.
Qed.

(* an integrator started with gain zero never moves *)
Lemma dyn_integ_dead modes g ff ig D d es s ys b i k : dyn_integrator isz modes g ff ig = Ok D ->
  dyn_run finite D d true es = Ok (s, ys) -> in_group modes b i -> (i < n_channels modes g)%nat -> (k < length es)%nat ->
  nth b g 0 = 0 -> nd_at ys k i = 0.
Proof.
  intros ED E Hb Hi Hk Hg. set (n := n_channels modes g) in *.
  destruct (integ_data _ _ _ _ _ ED) as (on & od & num & den & ED' & L1 & L2 & S1 & S2 & N1 & N2 & R). fold n in L1, L2, S1, S2, R.
  destruct (R b i Hb Hi) as [R1 R2].
  assert (HD : data_of D n 1 1) by (exists on, od, num, den, ig; auto).
  pose proof (data_shape _ _ _ _ HD) as SD. pose proof (run_n _ _ _ _ _ _ _ _ _ SD E) as E'.
  assert (P : forall m, (m < length es)%nat -> nd_at ys m i = ff_at A g ff b * (if dt_integ D then 1 else 0) * back (rs es) (fun k => nd_at ys k i) m 1).
  { intros m Hm. destruct (dyn_rec n 1 1 d true D SD es s ys E' m i Hm Hi) as (Dk & C & Q).
    rewrite N2, R2 in Q. cbn [nth sumn Nat.sub] in Q.
    assert (Z : forall j, nth j (nth i (dt_num Dk) []) 0 = 0).
    { intros j. rewrite ED' in C. apply (coef_dead on od num den ig n 1 1 true es Dk (S m) i j L1 L2 S1 S2 Hi C).
      intros j'. rewrite <- ED', N1, R1, Hg. destruct j' as [|[|[|]]]; reflexivity. }
    rewrite !Z in Q. rewrite Q. field. exact (F_1_neq_0 HF'). }
  induction k as [|k IH]; rewrite P by auto; cbn [back].
  - destruct (rs es 0); ring.
  - destruct (rs es (S k)); [ring|]. rewrite IH by lia. ring.
Qed.

Lemma sub_zero (a : A) : a - 0 = a.
Proof. ring. Qed.

Lemma set_gain_entry D n ni no g i j : data_of D n ni no -> (i < n)%nat -> nth ni (nth i (dt_num D) []) 0 <> 0 ->
  nth j (nth i (dt_num (set_gain D g)) []) 0 =
  match gain_for finite (as_new (Some g)) i with
  | Some x => nth j (nth i (dt_num D) []) 0 * (x / nth ni (nth i (dt_num D) []) 0)
  | None => nth j (nth i (dt_num D) []) 0
  end.
Proof.
  intros HD Hi Hn. pose proof (data_shape _ _ _ _ HD) as SD. rewrite (set_num_row _ _ n ni no) by auto.
  rewrite (set_gain_val _ _ n ni no) by auto. destruct HD as (on & od & num & den & ig & E & L1 & L2 & S1 & S2).
  destruct (make_last on od num den ig n ni i L1 S1 Hi) as [M1 M2]. rewrite <- E in M1, M2. rewrite M2, M1, safe_id by auto.
  set (G := nth ni (nth i (dt_num D) []) 0) in *. rewrite map_map.
  destruct (gain_for finite (as_new (Some g)) i) as [x|].
  - rewrite (nth_map0 A (fun z => z / G * x)) by (field; auto). field. auto.
  - rewrite (nth_map0 A (fun z => z / G * G)) by (field; auto). field. auto.
Qed.
End Dyn.
