(* C55: optical gain estimates.  C70: demodulation periods. *)
From Coq Require Import List ZArith Bool Lia PeanoNat QArith Qcanon.
From Verif Require Import PyBase PyLemmas Arith ArithLemmas NpModel NpSpec NpProofs NpSegments VecModel VecProofs2 OpticalModel OpticalSpec
  Properties_Filter.
Import ListNotations.
Local Open Scope nat_scope.

(* ------------------------------------------------------------------------- C55 *)
Lemma bcast_one (f : qc -> qc -> qc) x v : bcast f [x] v = Ok (map (f x) v).
Proof.
  unfold bcast. destruct v as [|y [|z v]]; reflexivity.
Qed.
Lemma qmin_le x y : (qmin x y <= y)%Qc.
Proof. unfold qmin, qlt. destruct (Qclt_le_dec y x); [apply Qcle_refl|exact q]. Qed.

Lemma og_step gain s f : (forall d, In d [of_delta f; of_cmd f] -> length d = 1) ->
  exists s', og_trigger gain s f = Ok s' /\
    og_gain s' = map (fun x => match ratio_of f with Some q => (x * (1 - gain * (1 - q)))%Qc | None => x end) (og_gain s) /\
    og_out s' = map (fun x => qmin x 1%Qc) (og_gain s') /\ og_ot s' = of_t f /\
    og_gt s' = match ratio_of f with Some _ => of_t f | None => og_gt s end.
Proof.
  intros H. destruct (of_delta f) as [|d [|]] eqn:Ed; [specialize (H [] (or_introl eq_refl)); discriminate| |specialize (H _ (or_introl eq_refl)); discriminate].
  destruct (of_cmd f) as [|c [|]] eqn:Ec; [specialize (H [] (or_intror (or_introl eq_refl))); discriminate| |specialize (H _ (or_intror (or_introl eq_refl))); discriminate].
  unfold og_trigger, og_update, ratio_of. rewrite Ed, Ec.
  destruct ((of_dgen f =? of_t f)%Z && (of_cgen f =? of_t f)%Z); cbn [andb].
  - destruct (qlt tiny (qabs c)).
    + rewrite bcast_one. cbn [bind map]. rewrite bcast_one. cbn [bind].
      rewrite bcast_same by now rewrite map_length. cbn [bind]. rewrite assign_all_ok by (rewrite map2_length, map_length; lia). cbn [bind].
      eexists. split; [reflexivity|]. cbn [og_gain og_out og_ot og_gt]. split; [|auto].
      induction (og_gain s) as [|x v IH]; [reflexivity|]. cbn [map map2]. rewrite IH. f_equal. cbn [car qc dvd mul sub]. ring.
    + cbn [bind]. eexists. split; [reflexivity|]. cbn [og_gain og_out og_ot og_gt]. rewrite map_id. auto.
  - cbn [bind]. eexists. split; [reflexivity|]. cbn [og_gain og_out og_ot og_gt]. rewrite map_id. auto.
Qed.

(* After every history of scalar signals the estimate is the initial one times the
   product of the factors, and the reported output is its minimum with one. *)
Lemma tracked_snoc gain hist f : tracked gain (hist ++ [f]) =
  match ratio_of f with Some q => (tracked gain hist * (1 - gain * (1 - q)))%Qc | None => tracked gain hist end.
Proof.
  induction hist as [|a hist IH]; cbn [app tracked]; [destruct (ratio_of f); ring|]. rewrite IH.
  destruct (ratio_of a), (ratio_of f); ring.
Qed.
Theorem C55_estimate : forall gain g0 t0 hist,
  (forall f, In f hist -> length (of_delta f) = 1 /\ length (of_cmd f) = 1) ->
  exists s, og_run gain g0 t0 hist = Ok s /\
    og_gain s = map (fun x => (x * tracked gain hist)%Qc) g0 /\
    (hist <> [] -> og_out s = map (fun x => qmin (x * tracked gain hist)%Qc 1%Qc) g0).
Proof.
  intros gain g0 t0 hist. induction hist as [|f hist IH] using rev_ind; intros H.
  - exists (og_init g0 t0). split; [reflexivity|]. split; [|congruence]. cbn [tracked og_init og_gain].
    rewrite <- (map_id g0) at 1. apply map_ext. intros x. ring.
  - destruct IH as (s & E & G & _); [intros a Ha; apply H; apply in_or_app; now left|].
    destruct (H f) as (H1 & H2); [apply in_or_app; right; now left|].
    destruct (og_step gain s f) as (s' & E' & G' & O' & _); [intros d [<-|[<-|[]]]; assumption|].
    exists s'. unfold og_run in *. rewrite fold_res_snoc, E. cbn [bind]. split; [exact E'|].
    assert (Q : og_gain s' = map (fun x => (x * tracked gain (hist ++ [f]))%Qc) g0).
    { rewrite G', G, map_map. apply map_ext. intros x. rewrite tracked_snoc. destruct (ratio_of f); [ring|reflexivity]. }
    split; [exact Q|]. intros _. rewrite O', Q, map_map. reflexivity.
Qed.
Print Assumptions C55_estimate.

(* The reported output never exceeds one, whatever the signals. *)
Theorem C55_at_most_one : forall gain g0 t0 hist s, hist <> [] -> og_run gain g0 t0 hist = Ok s ->
  forall x, In x (og_out s) -> (x <= 1)%Qc.
Proof.
  intros gain g0 t0 hist s Hne E x Hx. destruct (exists_last Hne) as (h & f & ->). unfold og_run in E. rewrite fold_res_snoc in E.
  inv_bind E. unfold og_trigger in E. inv_bind E. injection E as <-. cbn [og_out] in Hx. apply in_map_iff in Hx as (y & <- & _). apply qmin_le.
Qed.
Print Assumptions C55_at_most_one.

(* With a gain between 0 and 1 and non-negative ratios the estimate keeps its sign: the
   factors are at least 1 - gain, and at most one while the ratios are at most one. *)
Theorem C55_bounds : forall gain hist, (0 <= gain)%Qc -> (gain <= 1)%Qc ->
  (forall f q, In f hist -> ratio_of f = Some q -> (0 <= q)%Qc) ->
  (0 <= tracked gain hist)%Qc /\
  ((forall f q, In f hist -> ratio_of f = Some q -> (q <= 1)%Qc) -> (tracked gain hist <= 1)%Qc).
Proof.
  intros gain hist H0 H1. induction hist as [|f hist IH]; intros H; cbn [tracked].
  - split; [discriminate|]. intros _. apply Qcle_refl.
  - destruct IH as [IH1 IH2]; [intros a q Ha; apply H; now right|].
    destruct (ratio_of f) as [q|] eqn:E; [|split; [exact IH1|]; intros K; apply IH2; intros a q Ha; apply K; now right].
    assert (Hq : (0 <= q)%Qc) by (apply (H f); [now left|exact E]).
    assert (F0 : (0 <= 1 - gain * (1 - q))%Qc).
    { replace (1 - gain * (1 - q))%Qc with ((1 - gain) + gain * q)%Qc by ring. rewrite <- (Qcplus_0_l 0%Qc).
      apply Qcplus_le_compat; [apply -> Qcle_minus_iff in H1; exact H1|]. rewrite <- (Qcmult_0_l q). now apply Qcmult_le_compat_r. }
    split.
    + rewrite <- (Qcmult_0_l (tracked gain hist)). now apply Qcmult_le_compat_r.
    + intros K. assert (K1 : (q <= 1)%Qc) by (apply (K f); [now left|exact E]).
      assert (F1 : (1 - gain * (1 - q) <= 1)%Qc).
      { apply Qcle_minus_iff. replace (1 + - (1 - gain * (1 - q)))%Qc with (gain * (1 - q))%Qc by ring.
        rewrite <- (Qcmult_0_l (1 - q)%Qc). apply Qcmult_le_compat_r; [exact H0|]. apply -> Qcle_minus_iff in K1. exact K1. }
      apply Qcle_trans with (1 * tracked gain hist)%Qc; [now apply Qcmult_le_compat_r|]. rewrite Qcmult_1_l. apply IH2.
      intros a q' Ha. apply K. now right.
Qed.
Print Assumptions C55_bounds.

(* Unit ratios, stale signals and tiny commands leave the estimate unchanged. *)
Theorem C55_unchanged : forall gain g0 t0 hist,
  (forall f, In f hist -> length (of_delta f) = 1 /\ length (of_cmd f) = 1) ->
  (forall f, In f hist -> of_dgen f <> of_t f \/ of_cgen f <> of_t f \/
     (exists c, of_cmd f = [c] /\ (- tiny <= c <= tiny)%Qc) \/ of_delta f = of_cmd f) ->
  exists s, og_run gain g0 t0 hist = Ok s /\ og_gain s = g0.
Proof.
  intros gain g0 t0 hist H K. destruct (C55_estimate gain g0 t0 hist H) as (s & E & G & _). exists s. split; [exact E|].
  rewrite G. replace (tracked gain hist) with 1%Qc; [transitivity (map (fun x : Qc => x) g0); [apply map_ext; intros x; ring|apply map_id]|].
  symmetry. clear E G s. induction hist as [|f hist IH]; [reflexivity|]. cbn [tracked]. rewrite IH by (intros a Ha; first [apply H|apply K]; now right).
  destruct (ratio_of f) as [q|] eqn:Er; [|reflexivity]. specialize (K f (or_introl eq_refl)). specialize (H f (or_introl eq_refl)). clear IH.
  unfold ratio_of in Er. destruct (of_delta f) as [|d [|]]; try discriminate. destruct (of_cmd f) as [|c [|]]; try discriminate.
  destruct (Z.eqb_spec (of_dgen f) (of_t f)) as [e1|]; [|discriminate]. destruct (Z.eqb_spec (of_cgen f) (of_t f)) as [e2|]; [|discriminate].
  cbn [andb] in Er. destruct (qlt tiny (qabs c)) eqn:L; [|discriminate]. injection Er as <-.
  destruct K as [K|[K|[(c' & K & K1 & K2)|K]]]; [congruence|congruence| |].
  - exfalso. injection K as <-. unfold qlt, qabs in L. destruct (qlt c 0%Qc) eqn:L2.
    + destruct (Qclt_le_dec tiny (- c)) as [l|]; [|discriminate]. apply (Qclt_not_le _ _ l).
      apply Qcle_minus_iff. replace (tiny + - - c)%Qc with (c + - - tiny)%Qc by ring. now apply -> Qcle_minus_iff.
    + destruct (Qclt_le_dec tiny c) as [l|]; [|discriminate]. now apply (Qclt_not_le _ _ l).
  - injection K as ->. assert (c <> 0%Qc).
    { intros ->. discriminate L. }
    replace (c / c)%Qc with 1%Qc by (symmetry; now apply Qcmult_inv_r). ring.
Qed.
Print Assumptions C55_unchanged.

(* Commands that are not scalars are an error. *)
Theorem C55_scalar_command : forall gain s f, of_dgen f = of_t f -> of_cgen f = of_t f -> length (of_cmd f) <> 1 ->
  og_trigger gain s f = Err ValueError.
Proof.
  intros gain s f H1 H2 H3. unfold og_trigger, og_update. rewrite H1, H2, Z.eqb_refl. cbn [andb].
  destruct (of_cmd f) as [|c [|]]; [reflexivity|cbn in H3; lia|reflexivity].
Qed.
Print Assumptions C55_scalar_command.

(* The estimate itself, which is an output too, is not limited to one. *)
Theorem C55_estimate_above_one_refuted : exists gain hist s, og_run gain [qi 1] 0%Z hist = Ok s /\ map this (og_gain s) = [3 # 2] /\ map this (og_out s) = [1%Q].
Proof.
  exists (qf 1 2). exists [mkOgf 1%Z [qi 2] 1%Z [qi 1] 1%Z].
  destruct (og_run (qf 1 2) [qi 1] 0%Z [mkOgf 1%Z [qi 2] 1%Z [qi 1] 1%Z]) as [s|] eqn:E; [|vm_compute in E; discriminate].
  exists s. split; [reflexivity|].
  assert (P : match og_run (qf 1 2) [qi 1] 0%Z [mkOgf 1%Z [qi 2] 1%Z [qi 1] 1%Z] with Ok s => map this (og_gain s) = [3 # 2] /\ map this (og_out s) = [1%Q] | Err _ => False end)
    by (vm_compute; split; reflexivity).
  rewrite E in P. exact P.
Qed.
Print Assumptions C55_estimate_above_one_refuted.

Example C55_example :
  match og_run (qf 1 2) [qi 1] 0%Z [mkOgf 1%Z [qi 1] 1%Z [qi 2] 1%Z; mkOgf 2%Z [qi 9] 1%Z [qi 2] 2%Z; mkOgf 3%Z [qi 3] 3%Z [qi 3] 3%Z;
                                     mkOgf 4%Z [qi 1] 4%Z [qi 2] 4%Z; mkOgf 5%Z [qi 1] 5%Z [qi 0] 5%Z] with
  | Ok s => map this (og_gain s) = [9 # 16] /\ map this (og_out s) = [9 # 16] /\ og_gt s = 4%Z /\ og_ot s = 5%Z
  | Err _ => False end.
Proof. vm_compute. repeat split; reflexivity. Qed.

(* ------------------------------------------------------------------------- C70 *)
Lemma map_res_map {X Y} (f : X -> res Y) (g : X -> Y) l : (forall x, In x l -> f x = Ok (g x)) -> map_res f l = Ok (map g l).
Proof.
  induction l as [|x l IH]; intros H; [reflexivity|]. cbn [map_res map]. rewrite (H x (or_introl eq_refl)). cbn [bind].
  rewrite IH by (intros y Hy; apply H; now right). reflexivity.
Qed.
Section D.
Context {A F : Type} (zero : A) (demod : list A -> F -> A).

Lemma ends_dec (c : dmcfg (F:=F)) t : dm_dt c <> 0%Z -> ((t + dm_loop c - dm_dt c) mod dm_dt c =? 0)%Z = true <-> ends (dm_loop c) (dm_dt c) t.
Proof.
  intros H. rewrite Z.eqb_eq. unfold ends. split.
  - intros M. apply Z.mod_divide in M; [|exact H]. destruct M as [k Hk]. exists (k + 1)%Z. lia.
  - intros [k Hk]. replace (t + dm_loop c - dm_dt c)%Z with ((k - 1) * dm_dt c)%Z by lia. now apply Z.mod_mul.
Qed.

Variables (c : dmcfg (F:=F)) (n : nat).
Hypothesis Hdt : dm_dt c <> 0%Z.
Hypothesis Hn : length (dm_modes c) <= n.
Hypothesis Hf : length (dm_freqs c) >= length (dm_modes c).

Definition amplitude_of (f0 : F) (rows : list (list A)) (i : nat) : A := demod (map (fun r => nth i r zero) rows) (nth i (dm_freqs c) f0).

Lemma dm_step f0 s t x : (forall r, In r (dm_hist s) -> length r = n) -> length x = n ->
  exists s', dm_trigger zero demod c s t x = Ok s' /\
    (ends (dm_loop c) (dm_dt c) t -> s' = mkDms [] (map (amplitude_of f0 (dm_hist s ++ [x])) (seq 0 (length (dm_modes c)))) t) /\
    (~ ends (dm_loop c) (dm_dt c) t -> s' = mkDms (dm_hist s ++ [x]) (dm_out s) (dm_gt s)).
Proof.
  intros Hr Hx. unfold dm_trigger. rewrite (proj2 (Z.eqb_neq _ _) Hdt). pose proof (ends_dec c t Hdt) as Q.
  destruct ((t + dm_loop c - dm_dt c) mod dm_dt c =? 0)%Z.
  - unfold dm_perform. cbn [dm_hist]. set (rows := dm_hist s ++ [x]).
    assert (R : forall r, In r rows -> length r = n) by (intros r Hr'; apply in_app_or in Hr' as [Hr'|[<-|[]]]; auto).
    assert (E : map_res (fun i => sig <- column_i zero rows i ;; match nth_error (dm_freqs c) i with Some f => Ok (demod sig f) | None => Err IndexError end)
                  (seq 0 (length (dm_modes c))) = Ok (map (amplitude_of f0 rows) (seq 0 (length (dm_modes c))))).
    { apply map_res_map. intros i Hi. apply in_seq in Hi. unfold column_i. destruct rows as [|r0 rows'] eqn:ER; [destruct (dm_hist s); discriminate|]. rewrite <- ER in *.
      assert (L0 : length r0 = n) by (apply R; rewrite ER; now left).
      replace (forallb (fun r => length r =? length r0) rows) with true; [|symmetry; apply forallb_forall; intros r Hr'; apply Nat.eqb_eq; rewrite L0; now apply R].
      rewrite (proj2 (Nat.ltb_lt _ _)) by lia. cbn [bind].
      rewrite (nth_error_nth' (dm_freqs c) f0) by lia. reflexivity. }
    destruct rows as [|r0 rows'] eqn:ER; [destruct (dm_hist s); discriminate|]. rewrite E. cbn [bind]. eexists. split; [reflexivity|].
    split; [reflexivity|]. intros H. now destruct H; apply Q.
  - eexists. split; [reflexivity|]. split; [|reflexivity]. intros H. apply Q in H. discriminate.
Qed.

Definition endsb (t : Z) : bool := ((t + dm_loop c - dm_dt c) mod dm_dt c =? 0)%Z.
Definition since (hist : list (Z * list A)) : list (list A) :=
  fold_left (fun acc f => if endsb (fst f) then [] else acc ++ [snd f]) hist [].
Lemma since_len hist : (forall f, In f hist -> length (snd f) = n) -> forall r, In r (since hist) -> length r = n.
Proof.
  induction hist as [|f hist IH] using rev_ind; [intros _ r []|]. intros H r Hr. unfold since in *. rewrite fold_left_app in Hr. cbn [fold_left] in Hr.
  destruct (endsb (fst f)); [destruct Hr|]. apply in_app_or in Hr as [Hr|[<-|[]]].
  - apply IH; [intros a Ha; apply H; apply in_or_app; now left|exact Hr].
  - apply H. apply in_or_app. right. now left.
Qed.
Lemma dm_since g0 hist : (forall f, In f hist -> length (snd f) = n) -> exists s, dm_run zero demod c g0 hist = Ok s /\ dm_hist s = since hist.
Proof.
  induction hist as [|f hist IH] using rev_ind; intros H; [eexists; split; reflexivity|].
  destruct IH as (s & E & P); [intros a Ha; apply H; apply in_or_app; now left|]. unfold dm_run in *. rewrite fold_res_snoc, E. cbn [bind].
  assert (EF : dm_freqs c = [] \/ exists f0 fr, dm_freqs c = f0 :: fr) by (destruct (dm_freqs c); [now left|right; eauto]).
  destruct EF as [EF|(f0 & fr & EF)].
  - (* no frequency: no mode *)
    assert (L : length (dm_modes c) = 0) by (rewrite EF in Hf; cbn in Hf; lia). unfold dm_trigger. rewrite (proj2 (Z.eqb_neq _ _) Hdt). unfold since. rewrite fold_left_app. cbn [fold_left].
    fold (since hist). unfold endsb. destruct (_ =? 0)%Z.
    + unfold dm_perform. cbn [dm_hist]. destruct (dm_hist s ++ [snd f]) eqn:Q; [destruct (dm_hist s); discriminate|]. rewrite L. cbn [seq map_res bind].
      eexists. split; reflexivity.
    + eexists. split; [reflexivity|]. cbn [dm_hist]. now rewrite P.
  - destruct (dm_step f0 s (fst f) (snd f)) as (s' & E' & P1 & P2).
    + rewrite P. apply since_len. intros a Ha. apply H. apply in_or_app. now left.
    + apply H. apply in_or_app. right. now left.
    + exists s'. split; [exact E'|]. unfold since. rewrite fold_left_app. cbn [fold_left]. fold (since hist). unfold endsb.
      destruct ((fst f + dm_loop c - dm_dt c) mod dm_dt c =? 0)%Z eqn:Q.
      * rewrite P1; [reflexivity|]. now apply ends_dec.
      * rewrite P2; [cbn [dm_hist]; now rewrite P|]. intros K. apply ends_dec in K; [congruence|exact Hdt].
Qed.

(* At the end of a period output i is the demodulation, with frequency i, of element i
   of the samples received since the end of the previous period. *)
Theorem C70_period : forall f0 g0 pre win t x, (forall f, In f (pre ++ win ++ [(t, x)]) -> length (snd f) = n) ->
  (pre = [] \/ exists p f, pre = p ++ [f] /\ ends (dm_loop c) (dm_dt c) (fst f)) ->
  (forall f, In f win -> ~ ends (dm_loop c) (dm_dt c) (fst f)) -> ends (dm_loop c) (dm_dt c) t ->
  dm_run zero demod c g0 (pre ++ win ++ [(t, x)]) =
    Ok (mkDms [] (map (amplitude_of f0 (map snd win ++ [x])) (seq 0 (length (dm_modes c)))) t).
Proof.
  intros f0 g0 pre win t x H Hp Hw He. destruct (dm_since g0 (pre ++ win)) as (s & E & P).
  { intros f Hf'. apply H. rewrite app_assoc. apply in_or_app. now left. }
  rewrite app_assoc. unfold dm_run in *. rewrite fold_res_snoc, E. cbn [bind fst snd].
  assert (Q : since (pre ++ win) = map snd win).
  { unfold since. rewrite fold_left_app.
    assert (Z0 : fold_left (fun acc f => if endsb (fst f) then [] else acc ++ [snd f]) pre [] = @nil (list A)).
    { destruct Hp as [-> | (p & f & -> & Hf')]; [reflexivity|]. rewrite fold_left_app. cbn [fold_left]. unfold endsb.
      now rewrite (proj2 (ends_dec c (fst f) Hdt) Hf'). }
    rewrite Z0. assert (G : forall (l : list (Z * list A)) (acc : list (list A)), (forall f, In f l -> ~ ends (dm_loop c) (dm_dt c) (fst f)) ->
      fold_left (fun acc f => if endsb (fst f) then [] else acc ++ [snd f]) l acc = acc ++ map snd l).
    { induction l as [|f l IH]; intros acc Hl; [now rewrite app_nil_r|]. cbn [fold_left map]. unfold endsb at 2.
      destruct ((fst f + dm_loop c - dm_dt c) mod dm_dt c =? 0)%Z eqn:Q; [exfalso; apply (Hl f (or_introl eq_refl)); now apply ends_dec|].
      rewrite IH by (intros a Ha; apply Hl; now right). now rewrite <- app_assoc. }
    now rewrite G. }
  destruct (dm_step f0 s t x) as (s' & E' & P1 & _).
  - rewrite P. apply since_len. intros a Ha. apply H. rewrite app_assoc. apply in_or_app. now left.
  - apply (H (t, x)). rewrite app_assoc. apply in_or_app. right. now left.
  - rewrite E', P1 by exact He. now rewrite P, Q.
Qed.

(* Within a period the output and its time do not change. *)
Theorem C70_between : forall (f0 : F) g0 hist t x, (forall f, In f (hist ++ [(t, x)]) -> length (snd f) = n) -> ~ ends (dm_loop c) (dm_dt c) t ->
  exists s s', dm_run zero demod c g0 hist = Ok s /\ dm_run zero demod c g0 (hist ++ [(t, x)]) = Ok s' /\ dm_out s' = dm_out s /\ dm_gt s' = dm_gt s.
Proof.
  intros f0 g0 hist t x H He. destruct (dm_since g0 hist) as (s & E & P); [intros f Hf'; apply H; apply in_or_app; now left|].
  destruct (dm_step f0 s t x) as (s' & E' & _ & P2).
  - rewrite P. apply since_len. intros a Ha. apply H. apply in_or_app. now left.
  - apply (H (t, x)). apply in_or_app. right. now left.
  - exists s, s'. split; [exact E|]. unfold dm_run in *. rewrite fold_res_snoc, E. cbn [bind fst snd]. split; [exact E'|]. rewrite P2 by exact He. auto.
Qed.
End D.
Print Assumptions C70_period.
Print Assumptions C70_between.

(* The list of mode numbers only counts: one-dimensional data are not selected by it. *)
Theorem C70_mode_numbers : forall A F zero demod freqs m1 m2 dt loop g0 hist, length m1 = length m2 ->
  @dm_run A F zero demod (mkDmc m1 freqs dt loop) g0 hist = dm_run zero demod (mkDmc m2 freqs dt loop) g0 hist.
Proof.
  intros A F zero demod freqs m1 m2 dt loop g0 hist H. unfold dm_run, dm_init. cbn [dm_modes]. rewrite H.
  generalize (mkDms (@nil (list A)) (repeat zero (length m2)) g0). induction hist as [|f hist IH]; intros s; [reflexivity|]. cbn [fold_res].
  assert (E : dm_trigger zero demod (mkDmc m1 freqs dt loop) s (fst f) (snd f) = dm_trigger zero demod (mkDmc m2 freqs dt loop) s (fst f) (snd f)).
  { unfold dm_trigger, dm_perform. cbn [dm_modes dm_freqs dm_dt dm_loop]. now rewrite H. }
  rewrite E. destruct (dm_trigger _ _ (mkDmc m2 freqs dt loop) s (fst f) (snd f)); cbn [bind]; [apply IH|reflexivity].
Qed.
Print Assumptions C70_mode_numbers.
Theorem C70_selected_mode_refuted : exists (hist : list (Z * list Z)) s,
  dm_run 0%Z (fun sig (_ : nat) => fold_left Z.add sig 0%Z) (mkDmc [1%Z] [7] 2%Z 1%Z) 0%Z hist = Ok s /\
  dm_out s = [fold_left Z.add (map (fun f => nth 0 (snd f) 0%Z) hist) 0%Z] /\
  dm_out s <> [fold_left Z.add (map (fun f => nth 1 (snd f) 0%Z) hist) 0%Z].
Proof. exists [(0, [1; 5]); (1, [2; 6])]%Z. eexists. split; [reflexivity|]. split; [reflexivity|discriminate]. Qed.
Print Assumptions C70_selected_mode_refuted.

Example C70_example : dm_run 0%Z (fun sig f => (f + fold_left Z.add sig 0)%Z) (mkDmc [0; 1]%Z [100; 1000]%Z 3%Z 1%Z) (-1)%Z
    [(0, [1; 1]); (1, [2; 1]); (2, [3; 1]); (3, [9; 1]); (4, [9; 1]); (5, [9; 2]); (6, [5; 5])]%Z
  = Ok (mkDms [[5; 5]%Z] [127; 1004]%Z 5%Z).
Proof. reflexivity. Qed.
