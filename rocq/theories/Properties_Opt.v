(* C111: optimisation of the modal gains (GainOptimizer, IirFilterData.max_stable_gain). *)
From Coq Require Import List ZArith Bool Arith Lia Lqa QArith Qcanon.
From Verif Require Import PyBase PyLemmas Arith FilterSpec OpticalModel ExtModel QcTac SlopecModel SlopecSpec SlopecProofs OptModel OptSpec OptProofs.
Import ListNotations.
Local Open Scope Qc_scope.

Section C111.
Variable psd : nat -> list Qc -> list Qc.
Variable rej : nat -> nat -> Qc -> list Qc.
Variable stab : list Qc.
Variable c : config.
Variable gain : list Qc.
Hypothesis Hpsd : forall seg x, length (psd seg x) = (seg / 2 + 1)%nat.
Hypothesis Hrej : forall seg m g, length (rej seg m g) = (seg / 2 + 1)%nat.
Hypothesis Hdt : (c_dt c <> 0)%Z.
Hypothesis Hstab : length stab = length gain.
Let go := run psd rej stab c gain.

Theorem C111_when es e s s' : wf (length gain) (es ++ [e]) -> go es = Ok s -> go (es ++ [e]) = Ok s' ->
  (o_done s' = true <-> (c_dt c <= e_t e /\ e_t e mod c_dt c = 0)%Z) /\
  (o_done s' = true -> o_time s' = e_t e /\ o_gain s' = o_value s') /\
  (o_done s' = false -> o_time s' = o_time s /\ o_gain s' = o_gain s /\ o_value s' = o_value s).
Proof.
  intros W E E'. unfold go in *. rewrite run_snoc, E in E'. cbn [bind] in E'. assert (W' := W). apply Forall_app in W'. destruct W' as [W1 _].
  assert (I := run_inv psd rej stab c Hpsd Hrej _ _ _ Hstab W1 E). assert (D := due_step psd rej stab c Hpsd Hrej _ _ _ _ _ Hdt Hstab W I E'). unfold due_at in D.
  destruct ((c_dt c <=? e_t e)%Z && (e_t e mod c_dt c =? 0)%Z) eqn:B.
  - destruct D as (D1 & D2 & D3 & _). rewrite D2. apply andb_true_iff in B. rewrite Z.leb_le, Z.eqb_eq in B. repeat split; try tauto; discriminate.
  - destruct D as (D1 & D2 & D3 & D4 & _). rewrite D2. apply andb_false_iff in B. rewrite Z.leb_gt, Z.eqb_neq in B. repeat split; try tauto; try discriminate. intros [G1 G2]. exfalso. destruct B as [B|B]; [|contradiction]. exact (Zle_not_lt _ _ G1 B).
Qed.

Theorem C111_law es e s s' m : wf (length gain) (es ++ [e]) -> es <> [] -> go es = Ok s -> go (es ++ [e]) = Ok s' -> o_done s' = true -> (m < length gain)%nat ->
  let gm := (if is0 (nth m (o_gain s) 0) then 0 else nth m stab 0) * c_max c in
  let seg := match first_use c 0 (es ++ [e]) with Some k => Nat.min k 256 | None => 256%nat end in
  let before := match first_use c 0 es with Some _ => nth m (o_value s) 0 | None => nth m gain 0 end in
  exists k, first_best (c_n c) (fun j => residual (rej seg m (candidate gm (c_n c) j)) (psd seg (signal (es ++ [e]) m))) k /\
    let best := candidate gm (c_n c) k in
    nth m (o_value s') 0 = lesser gm (c_safety c * (change (opticals (es ++ [e])) * (if c_limit c then before + c_inc c * (best - before) else best))).
Proof.
  intros W Ne E E' Dn Hm gm seg before. unfold go in *. assert (E2 := E'). rewrite run_snoc, E in E2. cbn [bind] in E2. assert (W' := W). apply Forall_app in W'. destruct W' as [W1 _].
  assert (I := run_inv psd rej stab c Hpsd Hrej _ _ _ Hstab W1 E). assert (D := due_step psd rej stab c Hpsd Hrej _ _ _ _ _ Hdt Hstab W I E2).
  destruct (run_prev psd rej stab c Hpsd Hrej _ _ _ Hdt Hstab W1 E) as [P S]. destruct (run_prev psd rej stab c Hpsd Hrej _ _ _ Hdt Hstab W E') as [_ S'].
  destruct (due_at c e); [|destruct D as (_ & D & _); congruence]. destruct D as (_ & _ & _ & D). destruct es as [|a es]; [contradiction|]. destruct D as (_ & D2 & D).
  assert (Sg : seg_of ((a :: es) ++ [e]) s = seg) by (rewrite D2 in S'; unfold seg; destruct (first_use c 0 ((a :: es) ++ [e])); [now injection S'|discriminate]).
  assert (B : nth m (o_prev s) 0 = before) by (rewrite P, S; unfold before; destruct (first_use c 0 (a :: es)); reflexivity).
  destruct (D m Hm) as (k & F & V). exists k. rewrite Sg in F. split; [exact F|]. rewrite V, B. reflexivity.
Qed.

Theorem C111_bounds es s m : wf (length gain) es -> go es = Ok s -> first_use c 0 es <> None -> (m < length gain)%nat -> 0 <= c_max c -> 0 <= nth m stab 0 ->
  nth m (o_value s) 0 <= c_max c * nth m stab 0.
Proof.
  intros W E N Hm H1 H2. revert s W E N. induction es as [|e es IH] using rev_ind; intros s' W E' N; [exfalso; now apply N|].
  assert (E2 := E'). unfold go in E2. rewrite run_snoc in E2. inv_bind E2. rename a into s, E into E. assert (W' := W). apply Forall_app in W'. destruct W' as [W1 _].
  destruct (run_inv psd rej stab c Hpsd Hrej _ _ _ Hstab W1 E) as (I1 & I2 & I3 & I4 & I5 & I6 & I7 & I8). assert (I := run_inv psd rej stab c Hpsd Hrej _ _ _ Hstab W1 E).
  assert (D := due_step psd rej stab c Hpsd Hrej _ _ _ _ _ Hdt Hstab W I E2). rewrite first_use_snoc in N. destruct (due_at c e).
  - destruct D as (_ & _ & _ & D). destruct es as [|a es].
    + cbn in N. exfalso. now apply N.
    + destruct D as (_ & _ & D). destruct (D m Hm) as (k & _ & V). rewrite V. unfold updated, lesser, largest.
      assert (G : (if is0 (nth m (o_gain s) 0) then 0 else nth m stab 0) * c_max c <= c_max c * nth m stab 0).
      { destruct (is0 (nth m (o_gain s) 0)); [|rewrite Qcmult_comm; apply Qcle_refl]. rewrite (Qcmult_comm (c_max c)). now apply Qcmult_le_compat_r. }
      destruct (Qclt_le_dec _ _) as [L|L]; qclra.
  - destruct D as (_ & _ & _ & D & _). rewrite D. apply IH; try assumption. cbn [andb] in N. destruct (first_use c 0 es); [discriminate|exact N].
Qed.

Theorem C111_positive es s m : wf (length gain) es -> go es = Ok s -> (m < length gain)%nat -> 0 <= c_max c -> 0 <= nth m stab 0 -> 0 <= nth m gain 0 ->
  0 <= c_safety c -> 0 <= c_inc c <= 1 -> (forall e v, In e es -> e_optical e = Some v -> 0 <= v) -> 0 <= nth m (o_value s) 0.
Proof.
  intros W E Hm H1 H2 H3 H4 H5 H6.
  assert (M : forall a b : Qc, 0 <= a -> 0 <= b -> 0 <= a * b) by (intros a b Ha Hb; replace 0 with (0 * b) by ring; now apply Qcmult_le_compat_r).
  assert (CH : forall l, Forall (fun v => 0 <= v) l -> 0 <= change l).
  { intros l F. unfold change. apply Forall_rev in F. destruct F as [|a l' Fa [|b l'' Fb F]]; [discriminate|discriminate|]. unfold Qcdiv. apply M; [exact Fa|].
    destruct (Qc_eq_dec b 0) as [->|Nz]; [discriminate|]. apply Qclt_le_weak. destruct (Qcle_lt_or_eq _ _ Fb) as [G|G]; [|exfalso; now apply Nz].
    destruct (Qclt_le_dec 0 (/ b)) as [X|X]; [exact X|]. exfalso. assert (Y : / b * b <= 0 * b) by (apply Qcmult_le_compat_r; [exact X|exact Fb]). rewrite Qcmult_comm, Qcmult_inv_r in Y by exact Nz. replace (0 * b) with 0 in Y by ring. exact (Y eq_refl). }
  enough (A : 0 <= nth m (o_value s) 0 /\ 0 <= nth m (o_prev s) 0) by apply A.
  revert s W E H6. induction es as [|e es IH] using rev_ind; intros s' W E' H6.
  - injection E' as <-. cbn. split; [|exact H3]. rewrite (nth_indep _ 0 1) by (rewrite map_length; exact Hm). rewrite (map_nth (fun _ => 1) gain 0). discriminate.
  - assert (E2 := E'). unfold go in E2. rewrite run_snoc in E2. inv_bind E2. rename a into s. assert (W' := W). apply Forall_app in W'. destruct W' as [W1 _].
    assert (I := run_inv psd rej stab c Hpsd Hrej _ _ _ Hstab W1 E). assert (D := due_step psd rej stab c Hpsd Hrej _ _ _ _ _ Hdt Hstab W I E2).
    destruct (IH s W1 E) as [A1 A2]; [intros e' v He; apply H6; apply in_or_app; now left|]. clear IH. destruct (due_at c e).
    + destruct D as (_ & _ & _ & D). destruct es as [|a es].
      * destruct D as (-> & -> & _). split; assumption.
      * destruct D as (-> & _ & D). enough (V : 0 <= nth m (o_value s') 0) by (split; exact V). destruct (D m Hm) as (k & F & V). rewrite V. clear V D.
        assert (G : 0 <= largest stab c (o_gain s) m) by (unfold largest; apply M; [destruct (is0 _); [discriminate|exact H2]|exact H1]).
        assert (K : 0 <= candidate (largest stab c (o_gain s) m) (c_n c) k).
        { unfold candidate, Qcdiv. apply M; [apply M; [exact G|]|]; [apply Qclt_le_weak, qnat_pos; apply Nat.lt_0_succ|].
          assert (Np : (0 < c_n c)%nat) by (destruct F as (F & _); exact (Nat.le_lt_trans _ _ _ (Nat.le_0_l k) F)). assert (Q := qnat_pos (c_n c) Np).
          destruct (Qclt_le_dec (/ qnat (c_n c)) 0) as [X|X]; [|exact X]. exfalso. assert (Y : / qnat (c_n c) * qnat (c_n c) <= 0 * qnat (c_n c)) by (apply Qcmult_le_compat_r; [now apply Qclt_le_weak|now apply Qclt_le_weak]).
          rewrite Qcmult_comm, Qcmult_inv_r in Y by (now apply Qc_pos_neq). replace (0 * qnat (c_n c)) with 0 in Y by ring. exact (Y eq_refl). }
        unfold updated, lesser. destruct (Qclt_le_dec _ _) as [L|L]; [exact G|]. apply M; [exact H4|]. apply M.
        -- apply CH. unfold opticals. rewrite Forall_forall. intros v Hv. apply in_flat_map in Hv. destruct Hv as (x & Hx & Hv). apply (H6 x v Hx). destruct (e_optical x); [|destruct Hv]. destruct Hv as [->|[]]. reflexivity.
        -- destruct (c_limit c); [|exact K]. replace (nth m (o_prev s) 0 + c_inc c * (candidate (largest stab c (o_gain s) m) (c_n c) k - nth m (o_prev s) 0)) with ((1 - c_inc c) * nth m (o_prev s) 0 + c_inc c * candidate (largest stab c (o_gain s) m) (c_n c) k) by ring.
           assert (X1 : 0 <= (1 - c_inc c) * nth m (o_prev s) 0) by (apply M; [destruct H5 as [_ H5]; qclra|exact A2]). assert (X2 : 0 <= c_inc c * candidate (largest stab c (o_gain s) m) (c_n c) k) by (apply M; [apply H5|exact K]).
           revert X1 X2. generalize ((1 - c_inc c) * nth m (o_prev s) 0) (c_inc c * candidate (largest stab c (o_gain s) m) (c_n c) k). intros x y X1 X2. qclra.
    + destruct D as (_ & _ & _ & -> & -> & _). split; assumption.
Qed.

(* nothing fails, with at least one gain to try and optical gains that are not zero *)
Theorem C111_total es : wf (length gain) es -> (0 < c_n c)%nat -> (forall e, In e es -> e_optical e <> Some 0) -> exists s, go es = Ok s.
Proof.
  intros W N H. induction es as [|e es IH] using rev_ind; [eexists; reflexivity|]. assert (W' := W). apply Forall_app in W'. destruct W' as [W1 _].
  destruct IH as [s E]; [exact W1|intros x Hx; apply H; apply in_or_app; now left|]. assert (I := run_inv psd rej stab c Hpsd Hrej _ _ _ Hstab W1 E).
  unfold go. rewrite run_snoc. unfold go in E. rewrite E. cbn [bind]. assert (R := step_result psd rej stab c Hpsd Hrej _ _ _ e Hdt Hstab W I).
  destruct (due_at c e && (1 <=? length es)%nat); [|exact R]. replace ((1 <=? length gain)%nat && (c_n c =? 0)%nat) with false in R.
  - apply R. assert (F : Forall (fun v => v <> 0) (opticals (es ++ [e]))).
    { unfold opticals. rewrite Forall_forall. intros v Hv ->. apply in_flat_map in Hv. destruct Hv as (x & Hx & Hv). apply (H x Hx). destruct (e_optical x); [|destruct Hv]. destruct Hv as [->|[]]. reflexivity. }
    unfold last_two. apply Forall_rev in F. destruct F as [|a l' Fa [|b l'' Fb F]]; [exact Logic.I|exact Logic.I|exact Fb].
  - symmetry. destruct (c_n c); [exfalso; exact (Nat.lt_irrefl _ N)|]. cbn. now rewrite andb_false_r.
Qed.

Theorem C111_errors es e s : wf (length gain) (es ++ [e]) -> go es = Ok s -> es <> [] -> (c_dt c <= e_t e)%Z -> (e_t e mod c_dt c = 0)%Z ->
  (gain <> [] -> c_n c = 0%nat -> go (es ++ [e]) = Err ValueError) /\
  ((0 < c_n c)%nat -> (forall a b l, rev (opticals (es ++ [e])) = a :: b :: l -> b = 0 -> go (es ++ [e]) = Err ZeroDivisionError)).
Proof.
  intros W E Ne T1 T2. assert (W' := W). apply Forall_app in W'. destruct W' as [W1 _]. assert (I := run_inv psd rej stab c Hpsd Hrej _ _ _ Hstab W1 E).
  unfold go. rewrite run_snoc. unfold go in E. rewrite E. cbn [bind]. assert (R := step_result psd rej stab c Hpsd Hrej _ _ _ e Hdt Hstab W I).
  unfold due_at in R. apply Z.leb_le in T1. apply Z.eqb_eq in T2. rewrite T1, T2 in R. destruct es as [|a es]; [contradiction|]. change (true && true && (1 <=? length (a :: es))%nat) with true in R. cbv iota in R. split.
  - intros Hg Hn. rewrite Hn in R. destruct gain; [contradiction|]. cbn [length andb Nat.leb Nat.eqb] in R. exact R.
  - intros Hn x y l Hl Hy. replace ((1 <=? length gain)%nat && (c_n c =? 0)%nat) with false in R.
    + apply R. unfold last_two. rewrite Hl. intros H. now apply H.
    + symmetry. destruct (c_n c); [exfalso; exact (Nat.lt_irrefl _ Hn)|]. cbn. now rewrite andb_false_r.
Qed.

(* the mean of the spectra is never filled: asking for it changes nothing *)
Theorem C111_running_mean es : wf (length gain) es ->
  match go es, run psd rej stab (mkConfig (c_dt c) (c_max c) (c_safety c) (c_inc c) (c_limit c) (c_n c) (negb (c_mean c))) gain es with
  | Ok s, Ok t => o_value s = o_value t /\ o_gain s = o_gain t /\ o_time s = o_time t /\ o_done s = o_done t
  | Err a, Err b => a = b
  | _, _ => False
  end.
Proof.
  assert (A : forall c', c_dt c' = c_dt c -> wf (length gain) es -> same (run psd rej stab c' gain es) (run psd rej stab (plain c') gain es)).
  { intros c' Hd W. induction es as [|e es' IH] using rev_ind; [cbn; unfold sim; repeat split; reflexivity|]. assert (W' := W). apply Forall_app in W'. destruct W' as [W1 _]. specialize (IH W1).
    rewrite !run_snoc. destruct (run psd rej stab c' gain es') as [s|x] eqn:E1, (run psd rej stab (plain c') gain es') as [t|y]; cbn [same] in IH; try contradiction; [|subst; reflexivity]. cbn [bind].
    assert (I := run_inv psd rej stab c' Hpsd Hrej _ _ _ Hstab W1 E1). destruct I as (I1 & I2 & I3 & I4 & I5 & I6 & I7 & I8). destruct IH as (S1 & S2 & S3 & S4 & S5 & S6 & S7 & S8 & S9).
    unfold step. change (due (plain c') (e_t e)) with (due c' (e_t e)). destruct (due c' (e_t e)) as [d|x]; cbn [bind]; [|reflexivity].
    match goal with |- context [optimize psd rej stab c' ?a] => set (s1 := a) end. match goal with |- context [optimize psd rej stab (plain c') ?a] => set (t1 := a) end.
    assert (J : inv c' (length gain) (es' ++ [e]) s1).
    { unfold inv, s1. cbn [o_delta o_comm o_optical o_seg o_psd o_prev o_value o_time o_done o_gain]. rewrite !map_app, I1, I2, I3. unfold opticals. rewrite flat_map_app. cbn [map flat_map].
      repeat (split; [first [reflexivity|assumption|destruct (e_optical e); [reflexivity|now rewrite !app_nil_r]]|]). exact I8. }
    assert (K : sim s1 t1) by (unfold sim, s1, t1; cbn [o_delta o_comm o_optical o_seg o_psd o_prev o_value o_time o_done o_gain]; rewrite S1, S2, S3; repeat split; assumption).
    destruct d.
    - assert (O := optimize_sim psd rej stab c' Hpsd Hrej _ _ _ _ J K). destruct (optimize psd rej stab c' s1), (optimize psd rej stab (plain c') t1); cbn [same] in O; try contradiction; [|exact O]. cbn [bind same].
      destruct O as (O1 & O2 & O3 & O4 & O5 & O6 & O7 & O8 & O9). unfold sim. cbn [o_delta o_comm o_optical o_seg o_psd o_prev o_value o_time o_done o_gain]. repeat split; assumption.
    - cbn [same]. destruct K as (O1 & O2 & O3 & O4 & O5 & O6 & O7 & O8 & O9). unfold sim. cbn [o_delta o_comm o_optical o_seg o_psd o_prev o_value o_time o_done o_gain]. repeat split; assumption. }
  intros W. assert (A1 := A c eq_refl W). set (c2 := mkConfig (c_dt c) (c_max c) (c_safety c) (c_inc c) (c_limit c) (c_n c) (negb (c_mean c))). assert (A2 := A c2 eq_refl W). change (plain c2) with (plain c) in A2.
  fold go in A1. unfold go in *. destruct (run psd rej stab c gain es) as [s|x], (run psd rej stab (plain c) gain es) as [t|y], (run psd rej stab c2 gain es) as [u|z]; cbn [same] in *; try contradiction; [|congruence].
  destruct A1 as (_ & _ & _ & _ & _ & P1 & P2 & P3 & P4), A2 as (_ & _ & _ & _ & _ & Q1 & Q2 & Q3 & Q4). repeat split; congruence.
Qed.

(* an optimisation at the first frame puts all the gains to one, whatever they were, and says that it was done *)
Theorem C111_first_frame e s : wf (length gain) [e] -> (c_dt c <= e_t e)%Z -> (e_t e mod c_dt c = 0)%Z -> go [e] = Ok s ->
  o_done s = true /\ o_value s = repeat 1 (length gain) /\ o_gain s = repeat 1 (length gain).
Proof.
  intros W T1 T2 E. assert (D := due_step psd rej stab c Hpsd Hrej (length gain) [] (new_opt gain) e s Hdt Hstab W (new_inv c gain)).
  assert (E2 : step psd rej stab c (new_opt gain) e = Ok s) by (unfold go, run in E; cbn [fold_res] in E; destruct (step psd rej stab c (new_opt gain) e); exact E). specialize (D E2). unfold due_at in D. apply Z.leb_le in T1. apply Z.eqb_eq in T2. rewrite T1, T2 in D. cbn [andb] in D.
  destruct D as (D1 & D2 & D3 & D4 & _). rewrite D3, D4. split; [exact D2|]. assert (X : o_value (new_opt gain) = repeat 1 (length gain)) by (cbn; clear; induction gain; cbn; congruence). now rewrite X.
Qed.

(* a mode with gain zero stays at zero, unless the first optimisation comes at the first frame *)
Theorem C111_zero_mode es s m : wf (length gain) es -> go es = Ok s -> (m < length gain)%nat -> nth m gain 0 = 0 ->
  (forall e r, es = e :: r -> due_at c e = false) -> nth m (o_gain s) 0 = 0.
Proof.
  intros W E Hm Hz Hf. enough (A : nth m (o_gain s) 0 = 0 /\ nth m (o_prev s) 0 = 0) by apply A. revert s W E Hf. induction es as [|e es IH] using rev_ind; intros s' W E' Hf.
  - injection E' as <-. cbn. split; exact Hz.
  - assert (E2 := E'). unfold go in E2. rewrite run_snoc in E2. inv_bind E2. rename a into s. assert (W' := W). apply Forall_app in W'. destruct W' as [W1 _].
    assert (I := run_inv psd rej stab c Hpsd Hrej _ _ _ Hstab W1 E). assert (D := due_step psd rej stab c Hpsd Hrej _ _ _ _ _ Hdt Hstab W I E2).
    destruct (IH s W1 E) as [A1 A2]; [intros x r ->; now apply (Hf x (r ++ [e]))|]. clear IH. destruct (due_at c e) eqn:B.
    + destruct D as (_ & _ & -> & D). destruct es as [|a es]; [exfalso; rewrite (Hf e [] eq_refl) in B; discriminate|].
      destruct D as (-> & _ & D). enough (V : nth m (o_value s') 0 = 0) by (split; exact V). destruct (D m Hm) as (k & F & V). rewrite V. unfold updated, largest, candidate. rewrite A1, A2. replace (is0 0) with true by reflexivity.
      match goal with |- lesser ?x ?y = 0 => assert (Zx : x = 0) by ring; assert (Zy : y = 0) by (destruct (c_limit c); unfold Qcdiv; ring); unfold lesser; destruct (Qclt_le_dec x y); assumption end.
    + destruct D as (_ & _ & -> & _ & -> & _). split; assumption.
Qed.
End C111.

(* the value at which the gain settles, when nothing is clipped and the best gain does not change *)
Theorem C111_settled c gm p b : c_limit c = true -> c_safety c * (p + c_inc c * (b - p)) <= gm ->
  (updated c gm p b 1 = p <-> p * (1 - c_safety c * (1 - c_inc c)) = c_safety c * c_inc c * b).
Proof.
  intros H Hg. unfold updated, lesser. rewrite H. replace (c_safety c * (1 * (p + c_inc c * (b - p)))) with (c_safety c * (p + c_inc c * (b - p))) by ring.
  assert (A : c_safety c * (p + c_inc c * (b - p)) = p <-> p * (1 - c_safety c * (1 - c_inc c)) = c_safety c * c_inc c * b).
  { assert (X : c_safety c * (p + c_inc c * (b - p)) - p = c_safety c * c_inc c * b - p * (1 - c_safety c * (1 - c_inc c))) by ring.
    split; intros G; [rewrite G in X; replace (p - p) with 0 in X by ring|rewrite G in X; replace (c_safety c * c_inc c * b - c_safety c * c_inc c * b) with 0 in X by ring].
    - symmetry. revert X. generalize (c_safety c * c_inc c * b) (p * (1 - c_safety c * (1 - c_inc c))). intros x y X. replace x with ((x - y) + y) by ring. rewrite <- X. ring.
    - revert X. generalize (c_safety c * (p + c_inc c * (b - p))). intros x X. replace x with ((x - p) + p) by ring. rewrite X. ring. }
  destruct (Qclt_le_dec _ _) as [L|L]; [exfalso; exact (Qcle_not_lt _ _ Hg L)|exact A].
Qed.
(* below the safety factor times the best gain *)
Theorem C111_settled_below s m b p : 0 < s < 1 -> 0 < m < 1 -> 0 < b -> p * (1 - s * (1 - m)) = s * m * b -> 0 < p /\ p < s * b.
Proof.
  intros [S0 S1] [M0 M1] B E.
  assert (PM : forall x y : Qc, 0 < x -> 0 < y -> 0 < x * y) by (intros x y Hx Hy; replace 0 with (0 * y) by ring; now apply Qcmult_lt_compat_r).
  assert (SM : 0 < s * (1 - m)) by (apply PM; [exact S0|qclra]).
  assert (D : m < 1 - s * (1 - m)).
  { assert (X : 0 < (1 - s) * (1 - m)) by (apply PM; qclra). replace (1 - s * (1 - m)) with ((1 - s) * (1 - m) + m) by ring. revert X. generalize ((1 - s) * (1 - m)). intros x X. qclra. }
  revert E D. generalize (1 - s * (1 - m)). intros d E D. assert (D0 : 0 < d) by qclra.
  assert (R : 0 < s * m * b) by (apply PM; [apply PM; assumption|exact B]).
  assert (P0 : 0 < p).
  { destruct (Qclt_le_dec 0 p) as [X|X]; [exact X|]. exfalso. assert (Y : p * d <= 0 * d) by (apply Qcmult_le_compat_r; [exact X|now apply Qclt_le_weak]). rewrite E in Y. replace (0 * d) with 0 in Y by ring. qclra. }
  split; [exact P0|]. destruct (Qclt_le_dec p (s * b)) as [X|X]; [exact X|]. exfalso.
  assert (Y : s * b * d <= p * d) by (apply Qcmult_le_compat_r; [exact X|now apply Qclt_le_weak]). rewrite E in Y.
  assert (Z : s * b * m < s * b * d) by (rewrite !(Qcmult_comm (s * b)); apply Qcmult_lt_compat_r; [apply PM; assumption|exact D]). replace (s * b * m) with (s * m * b) in Z by ring. qclra.
Qed.

(* largest stable gain: the gains are tried in order, up to the first that is not stable *)
Theorem C111_max_stable stable lo hi n : (2 <= n)%nat ->
  let grid := fun k => lo + qnat k * ((hi - lo) / qnat (n - 1)) in
  exists k, (k <= n)%nat /\ (forall j, (j < k)%nat -> stable (grid j) = true) /\ (k = n \/ stable (grid k) = false) /\
    max_stable stable lo hi n = match k with O => 0 | S j => grid j end.
Proof.
  intros Hn grid.
  assert (L : linspace lo hi n = map grid (seq 0 n)) by (destruct n as [|[|m]]; [exfalso; lia|exfalso; lia|reflexivity]). unfold max_stable. rewrite L.
  assert (A : forall m a best, exists k, (k <= m)%nat /\ (forall j, (j < k)%nat -> stable (grid (a + j)%nat) = true) /\ (k = m \/ stable (grid (a + k)%nat) = false) /\
    climb stable best (map grid (seq a m)) = match k with O => best | S j => grid (a + j)%nat end).
  { induction m as [|m IH]; intros a best; cbn [seq map climb].
    - exists 0%nat. repeat split; [lia|intros j Hj; lia|now left].
    - destruct (stable (grid a)) eqn:Sa.
      + destruct (IH (S a) (grid a)) as (k & K1 & K2 & K3 & K4). exists (S k). split; [lia|]. split; [|split].
        * intros [|j] Hj; [now rewrite Nat.add_0_r|]. rewrite <- plus_n_Sm. apply (K2 j). lia.
        * rewrite <- plus_n_Sm. destruct K3 as [->|K3]; [now left|right; exact K3].
        * rewrite K4. destruct k as [|k]; [now rewrite Nat.add_0_r|now rewrite <- plus_n_Sm].
      + exists 0%nat. split; [lia|]. split; [intros j Hj; lia|]. split; [right; now rewrite Nat.add_0_r|reflexivity]. }
  destruct (A n 0%nat 0) as (k & K1 & K2 & K3 & K4). exists k. repeat split; assumption.
Qed.
(* a larger gain that is stable may exist among those that would have been tried *)
Theorem C111_max_stable_refuted : exists stable g, stable g = true /\ In g (linspace (Q2Qc (1 # 4)) 1 4) /\ max_stable stable (Q2Qc (1 # 4)) 1 4 < g.
Proof. exists (fun g => negb (qlt (Q2Qc (1 # 3)) g && qlt g (Q2Qc (2 # 3)))), 1. split; [reflexivity|]. split; [|reflexivity]. right. right. right. left. apply Qc_is_canon. reflexivity. Qed.

Theorem C111_dt_zero psd rej stab c gain e : c_dt c = 0%Z -> (0 <= e_t e)%Z -> run psd rej stab c gain [e] = Err ZeroDivisionError.
Proof. intros H T. unfold run. cbn [fold_res]. unfold step, due. rewrite H. replace (0 <=? e_t e)%Z with true by (symmetry; now apply Z.leb_le). reflexivity. Qed.

(* one mode, a rejection that does not depend on the gain: the first gain is the best *)
Definition flat (seg : nat) (x : list Qc) : list Qc := repeat 1 (seg / 2 + 1).
Definition flat_rej (seg m : nat) (g : Qc) : list Qc := repeat 1 (seg / 2 + 1).
Definition half : Qc := Q2Qc (1 # 2).
Definition cfg : config := mkConfig 2 1 half half true 2 false.
Definition ev (t : Z) (o : option Qc) : event := mkEvent t [1] [1] o.
Definition values (r : res opt) := match r with Ok s => Some (map this (o_value s)) | Err _ => None end.

(* the gain leaves the safety factor times the best gain *)
Theorem C111_safety_refuted : exists psd rej stab c gain es s best, (forall seg x, length (psd seg x) = (seg / 2 + 1)%nat) /\ (forall seg m g, length (rej seg m g) = (seg / 2 + 1)%nat) /\
  c_limit c = true /\ best = candidate (c_max c * nth 0 stab 0) (c_n c) 0 /\
  first_best (c_n c) (fun j => residual (rej 2%nat 0%nat (candidate (c_max c * nth 0 stab 0) (c_n c) j)) (psd 2%nat (signal es 0))) 0 /\
  gain = [c_safety c * best] /\ run psd rej stab c gain es = Ok s /\ o_done s = true /\ nth 0 (o_value s) 0 < c_safety c * best.
Proof.
  exists flat, flat_rej, [1], cfg, [half * candidate (1 * 1) 2 0], [ev 1 None; ev 2 None]. eexists. exists (candidate (1 * 1) 2 0).
  split; [intros; apply repeat_length|]. split; [intros; apply repeat_length|]. split; [reflexivity|]. split; [reflexivity|].
  split; [split; [cbn; lia|split; [intros j Hj; apply Qcle_refl|intros j Hj; lia]]|]. split; [reflexivity|]. split; [vm_compute; reflexivity|]. split; reflexivity.
Qed.
(* the optical gain doubles between two optimisations, and the gains are the same as if it had not changed *)
Theorem C111_optical_refuted : exists psd rej stab c gain es es' s s', (forall seg x, length (psd seg x) = (seg / 2 + 1)%nat) /\ (forall seg m g, length (rej seg m g) = (seg / 2 + 1)%nat) /\
  map e_t es = map e_t es' /\ map e_delta es = map e_delta es' /\ map e_comm es = map e_comm es' /\
  run psd rej stab c gain es = Ok s /\ run psd rej stab c gain es' = Ok s' /\ o_done s = true /\
  map (fun e => option_map this (e_optical e)) es = [Some 1%Q; Some 1%Q; Some 2%Q; Some 2%Q] /\ map (fun e => option_map this (e_optical e)) es' = repeat (Some 1%Q) 4 /\ o_value s = o_value s'.
Proof.
  exists flat, flat_rej, [1], cfg, [1], [ev 1 (Some 1); ev 2 (Some 1); ev 3 (Some (1 + 1)); ev 4 (Some (1 + 1))], [ev 1 (Some 1); ev 2 (Some 1); ev 3 (Some 1); ev 4 (Some 1)]. do 2 eexists.
  split; [intros; apply repeat_length|]. split; [intros; apply repeat_length|]. do 3 (split; [reflexivity|]). split; [vm_compute; reflexivity|]. split; [vm_compute; reflexivity|]. split; [reflexivity|]. split; [reflexivity|]. split; reflexivity.
Qed.

Example C111_example :
  values (run flat flat_rej [1] cfg [1] [ev 1 None; ev 2 None]) = Some [(3 # 8)%Q] /\
  values (run flat flat_rej [1] cfg [1] [ev 1 (Some 1); ev 2 (Some (1 + 1)); ev 3 None]) = Some [(3 # 4)%Q] /\
  values (run flat flat_rej [1] cfg [1] [ev 1 (Some 0); ev 2 (Some 1)]) = None /\
  values (run flat flat_rej [1] (mkConfig 2 1 half half true 0 false) [1] [ev 1 None; ev 2 None]) = None /\
  values (run flat flat_rej [1] cfg [0] [ev 1 None; ev 2 None]) = Some [0%Q] /\
  values (run flat flat_rej [1] (mkConfig 1 1 half half true 2 true) [half] [ev 1 None]) = Some [1%Q] /\
  map this (signal [ev 1 None; ev 2 None; ev 3 None] 0) = [1%Q; 2%Q; 2%Q].
Proof. vm_compute. repeat split; reflexivity. Qed.
Example C111_max_stable_example : max_stable (fun g => qlt g (Q2Qc (4 # 5))) (Q2Qc (1 # 4)) 1 4 = Q2Qc (3 # 4) /\ max_stable (fun _ => false) (Q2Qc (1 # 4)) 1 4 = 0.
Proof. split; apply Qc_is_canon; reflexivity. Qed.
Example C111_bounds_example : 0 <= c_max cfg /\ first_use cfg 0 [ev 1 None; ev 2 None] = Some 2%nat /\ wf 1 [ev 1 None; ev 2 None].
Proof. split; [discriminate|]. split; [reflexivity|]. repeat constructor. Qed.
Example C111_settled_example : Q2Qc (1 # 6) * (1 - half * (1 - half)) = half * half * half /\ Q2Qc (1 # 6) < half * half.
Proof. split; [apply Qc_is_canon; reflexivity|reflexivity]. Qed.
Print Assumptions C111_when.
Print Assumptions C111_law.
Print Assumptions C111_bounds.
Print Assumptions C111_positive.
Print Assumptions C111_total.
Print Assumptions C111_errors.
Print Assumptions C111_running_mean.
Print Assumptions C111_first_frame.
Print Assumptions C111_zero_mode.
Print Assumptions C111_settled.
Print Assumptions C111_settled_below.
Print Assumptions C111_max_stable.
Print Assumptions C111_max_stable_refuted.
Print Assumptions C111_dt_zero.
Print Assumptions C111_safety_refuted.
Print Assumptions C111_optical_refuted.
