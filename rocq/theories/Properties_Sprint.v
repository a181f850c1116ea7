(* C122: tracking of mis-registrations. *)
From Coq Require Import List ZArith Bool Arith Lia QArith Qcanon.
From Verif Require Import PyBase PyLemmas Arith OpticalModel SlopecSpec SlopecProofs FilterSpec ExtModel MmseModel MmseProofs QcTac SprintModel SprintSpec.
Import ListNotations.
Local Open Scope Qc_scope.

(* ---------------------------------------------------------------- constructor *)
Theorem C122_new : forall modes c n initial,
  (exists s, new modes c n initial = Ok s) <->
  length (c_freqs c) = length modes /\ (0 < c_gain c /\ c_gain c <= 1) /\ (0 < c_forget c /\ c_forget c <= 1) /\ (forall l, initial = Some l -> length l = n).
Proof.
  intros modes c n initial. unfold new.
  assert (R : forall x, qlt 0 x && negb (qlt 1 x) = true <-> 0 < x /\ x <= 1).
  { intros x. rewrite andb_true_iff, negb_true_iff, qlt_true, qlt_false. reflexivity. }
  destruct (Nat.eqb_spec (length (c_freqs c)) (length modes)) as [E|E]; cbn [negb]; [|split; [intros [s H]; discriminate|tauto]].
  destruct (qlt 0 (c_gain c) && negb (qlt 1 (c_gain c))) eqn:E1; cbn [negb]; [apply R in E1|split; [intros [s H]; discriminate|intros (_ & H & _); apply R in H; congruence]].
  destruct (qlt 0 (c_forget c) && negb (qlt 1 (c_forget c))) eqn:E2; cbn [negb]; [apply R in E2|split; [intros [s H]; discriminate|intros (_ & _ & H & _); apply R in H; congruence]].
  destruct initial as [l|]; cbn [bind].
  - destruct (Nat.eqb_spec (length l) n) as [E3|E3]; cbn [bind]; split.
    + intros _. repeat split; try tauto. intros l' H. now injection H as <-.
    + intros _. eauto.
    + intros [s H]; discriminate.
    + intros (_ & _ & _ & H). now specialize (H l eq_refl).
  - split; [intros _; repeat split; try tauto; discriminate|eauto].
Qed.
Print Assumptions C122_new.
Theorem C122_initial : forall modes c n initial s, new modes c n initial = Ok s ->
  length (s_mis s) = n /\ o_mis s = s_mis s /\ s_hist s = [] /\ s_last s = 0%Z /\ o_time s = None /\ (forall l, initial = Some l -> s_mis s = l) /\ (initial = None -> forall p, nth p (s_mis s) 0 = 0).
Proof.
  intros modes c n initial s H. unfold new in H. destruct (negb _); [discriminate|]. destruct (negb _); [discriminate|]. destruct (negb _); [discriminate|]. inv_bind H. injection H as <-.
  cbn. destruct initial as [l|].
  - destruct (Nat.eqb_spec (length l) n); [|discriminate]. injection E as <-. repeat split; auto; [|discriminate]. intros l' H. now injection H as <-.
  - injection E as <-. rewrite repeat_length. repeat split; try discriminate. intros _ p. revert p. induction n as [|n IH]; intros [|p]; cbn; auto.
Qed.
Print Assumptions C122_initial.

Section Props.
Context (ns nm : nat) (pinv : matrix -> matrix) (nominal : list Qc -> matrix) (root : Qc -> Qc).
Context (demod : list (nat -> Qc) -> Qc -> nat -> Qc * Qc).
Notation iteration := (iteration ns nm pinv nominal root).
Notation iterate := (iterate ns nm pinv nominal root).
Notation run := (run ns nm pinv nominal root demod).
Notation measure := (measure demod).

(* ---------------------------------------------------------------- schedule *)
(* the parameters after the estimations of some batches, each from the parameters left by the one before *)
Fixpoint tracked (c : config) (bs : list (list (Z * (nat -> Qc)))) (mis : list Qc) (err : Qc) (mis' : list Qc) (err' : Qc) : Prop :=
  match bs with
  | [] => mis' = mis /\ err' = err
  | b :: bs => exists m1 e1, iterate c (measure c (map snd b)) (c_max c) mis err = Ok (m1, e1) /\ tracked c bs m1 e1 mis' err'
  end.
Lemma waits_app : forall dt last (l : list (Z * (nat -> Qc))) e, waits dt last l -> (fst e - last < dt)%Z \/ (length (l ++ [e]) < 10)%nat -> waits dt last (l ++ [e]).
Proof.
  intros dt last l e W H i x E. destruct (Nat.lt_ge_cases i (length l)) as [L|L].
  - rewrite nth_error_app1 in E by exact L. exact (W i x E).
  - rewrite nth_error_app2 in E by exact L. destruct (i - length l)%nat as [|k] eqn:K; [|cbn in E; destruct k; discriminate]. injection E as <-.
    rewrite app_length in H. cbn in H. destruct H; [now left|right; lia].
Qed.
Lemma run_batches : forall c es s pend s', s_hist s = map snd pend -> waits (c_dt c) (s_last s) pend -> run c s es = Ok s' ->
  exists bs rest, pend ++ es = concat bs ++ rest /\ batches (c_dt c) (s_last s) bs rest /\ s_hist s' = map snd rest /\
  tracked c bs (s_mis s) (s_err s) (s_mis s') (s_err s') /\
  match last_time bs with
  | None => bs = [] /\ o_im s' = o_im s /\ o_mis s' = o_mis s /\ o_err s' = o_err s /\ o_time s' = o_time s /\ s_last s' = s_last s
  | Some t => o_im s' = nominal (s_mis s') /\ o_mis s' = s_mis s' /\ o_err s' = s_err s' /\ o_time s' = Some t /\ s_last s' = t
  end.
Proof.
  intros c. induction es as [|[t x] es IH]; intros s pend s' Hh W H.
  - injection H as <-. exists [], pend. cbn. rewrite app_nil_r. repeat split; auto.
  - unfold SprintModel.run in H. cbn [fold_res] in H. inv_bind H. unfold step in E. cbn [fst snd] in E. unfold trigger in E. cbn [prepare s_last s_hist s_mis s_err] in E.
    assert (Hm : s_hist s ++ [x] = map snd (pend ++ [(t, x)])) by (rewrite map_app, Hh; reflexivity).
    assert (WAIT : (t - s_last s < c_dt c)%Z \/ (length (pend ++ [(t, x)]) < 10)%nat -> a = prepare x s -> exists bs rest, pend ++ (t, x) :: es = concat bs ++ rest /\ batches (c_dt c) (s_last s) bs rest /\ s_hist s' = map snd rest /\
      tracked c bs (s_mis s) (s_err s) (s_mis s') (s_err s') /\
      match last_time bs with
      | None => bs = [] /\ o_im s' = o_im s /\ o_mis s' = o_mis s /\ o_err s' = o_err s /\ o_time s' = o_time s /\ s_last s' = s_last s
      | Some t => o_im s' = nominal (s_mis s') /\ o_mis s' = s_mis s' /\ o_err s' = s_err s' /\ o_time s' = Some t /\ s_last s' = t
      end).
    { intros Hw ->. destruct (IH (prepare x s) (pend ++ [(t, x)]) s') as (bs & rest & A); [exact Hm|apply waits_app; [exact W|exact Hw]|exact H|].
      exists bs, rest. rewrite <- app_assoc in A. exact A. }
    destruct (Z.ltb_spec (t - s_last s) (c_dt c)) as [L|L].
    { apply WAIT; [now left|injection E as <-; reflexivity]. }
    assert (LN : length (s_hist s ++ [x]) = length (pend ++ [(t, x)])) by (rewrite Hm; apply map_length). rewrite LN in E.
    destruct (Nat.ltb_spec (length (pend ++ [(t, x)])) 10) as [L2|L2].
    { apply WAIT; [now right|injection E as <-; reflexivity]. }
    clear WAIT. inv_bind E. injection E as <-. destruct a0 as [m1 e1]. cbn [fst snd] in *.
    assert (WN : forall d z, waits d z (@nil (Z * (nat -> Qc)))) by (intros d z [|i] e Q; discriminate).
    destruct (IH (mkState t [] m1 e1 (nominal m1) m1 e1 (Some t)) [] s' eq_refl (WN _ _) H) as (bs & rest & A1 & A2 & A3 & A4 & A5). clear WN.
    cbn [s_last s_mis s_err o_im o_mis o_err o_time] in *.
    exists ((pend ++ [(t, x)]) :: bs), rest. split; [cbn [concat]; rewrite <- !app_assoc; cbn; now rewrite <- A1|].
    split; [exists pend, t, x; repeat split; auto; lia|]. split; [exact A3|].
    split; [exists m1, e1; split; [rewrite <- Hm; assumption|exact A4]|].
    unfold last_time in *. cbn [rev]. destruct (rev bs) as [|b r] eqn:R; cbn [app].
    + rewrite rev_app_distr. cbn [rev app fst]. destruct A5 as (-> & B1 & B2 & B3 & B4 & B5). destruct A4 as [B6 B7]. rewrite B1, B2, B3, B4, B5, B6, B7. repeat split.
    + destruct (rev b) as [|e r'] eqn:R2; [|exact A5]. destruct A5 as [-> _]. discriminate.
Qed.
(* The slopes are used in batches: an estimation is done at the first sample that is at least dt after the last
   estimation and has ten samples collected, and uses exactly the samples since the last estimation.  The outputs are those
   of the last estimation, the matrix being the one computed for the parameters given. *)
Theorem C122_batches : forall modes c n initial s es s', new modes c n initial = Ok s -> run c s es = Ok s' ->
  exists bs rest, es = concat bs ++ rest /\ batches (c_dt c) 0 bs rest /\ tracked c bs (s_mis s) 0 (s_mis s') (s_err s') /\
  match last_time bs with
  | None => bs = [] /\ o_mis s' = s_mis s /\ o_time s' = None
  | Some t => o_im s' = nominal (o_mis s') /\ o_mis s' = s_mis s' /\ o_err s' = s_err s' /\ o_time s' = Some t
  end.
Proof.
  intros modes c n initial s es s' Hn H. destruct (C122_initial _ _ _ _ _ Hn) as (_ & I1 & I2 & I3 & I4 & _).
  assert (I5 : s_err s = 0).
  { unfold new in Hn. destruct (negb _); [discriminate|]. destruct (negb _); [discriminate|]. destruct (negb _); [discriminate|]. inv_bind Hn. injection Hn as <-. reflexivity. }
  destruct (run_batches c es s [] s') as (bs & rest & A1 & A2 & A3 & A4 & A5); [rewrite I2; reflexivity|intros [|i] e Q; discriminate|exact H|].
  rewrite I3 in A2. rewrite I5 in A4. exists bs, rest. repeat split; auto. destruct (last_time bs).
  - destruct A5 as (B1 & B2 & B3 & B4 & _). rewrite B2. auto.
  - destruct A5 as (B0 & B1 & B2 & B3 & B4 & _). rewrite B2, B4, I1, I4. auto.
Qed.

(* ---------------------------------------------------------------- iterations *)
Definition next_of (c : config) (measured : matrix) (mis : list Qc) : option (list Qc * (Qc * Qc)) :=
  match iteration c measured mis with Ok (m, rel, w) => Some (m, (rel, w)) | Err _ => None end.
(* At least one and at most max iterations; they stop at the first one whose weighted error is below the threshold, or at
   the last one allowed; the error given is the relative one of the last iteration. *)
Theorem C122_iterations : forall c measured n mis err mis' err', (0 < n)%nat -> iterate c measured n mis err = Ok (mis', err') ->
  exists k w, (1 <= k <= n)%nat /\ reaches (next_of c measured) (fun e => qlt (snd e) (c_thr c)) k mis mis' (err', w) /\ ((k < n)%nat -> w < c_thr c).
Proof.
  intros c measured n. induction n as [|n IH]; intros mis err mis' err' Hn H; [lia|]. cbn [SprintModel.iterate] in H. inv_bind H. destruct a as [[m1 r1] w1].
  assert (N : next_of c measured mis = Some (m1, (r1, w1))) by (unfold next_of; now rewrite E).
  destruct (qlt w1 (c_thr c)) eqn:Q.
  - injection H as <- <-. exists 1%nat, w1. split; [lia|]. split; [now constructor|]. intros _. now apply qlt_true in Q.
  - destruct n as [|n].
    + injection H as <- <-. exists 1%nat, w1. split; [lia|]. split; [now constructor|lia].
    + destruct (IH m1 r1 mis' err' ltac:(lia) H) as (k & w & K1 & K2 & K3). exists (S k), w. split; [lia|]. split; [|intros L; apply K3; lia].
      eapply reach_more; [exact N|exact Q|exact K2].
Qed.
(* without iterations the parameters stay as they are *)
Theorem C122_no_iteration : forall c measured mis err, iterate c measured 0 mis err = Ok (mis, err).
Proof. reflexivity. Qed.

Lemma update_length : forall ff g d mis, length (update ff g d mis) = length mis.
Proof. intros ff g d mis. revert d. induction mis; intros d; cbn; auto. Qed.
Lemma update_nth : forall ff g d mis p, (p < length mis)%nat -> nth p (update ff g d mis) 0 = nth p mis 0 * ff + d p * g.
Proof. intros ff g d mis. revert d. induction mis as [|x mis IH]; intros d [|p] H; cbn in *; try lia; [reflexivity|]. exact (IH (fun p => d (S p)) p ltac:(lia)). Qed.
Lemma sens_other : forall pert mis s p i j, sensitivities nominal pert mis = Ok s -> ~ In p (map fst pert) -> s p i j = 0.
Proof.
  intros pert mis s p i j H NI. unfold sensitivities in H.
  assert (G : forall l s0, ~ In p (map fst l) -> fold_res (fun s pd =>
    if (fst pd <? length mis)%nat then Ok (fun q i j => if (q =? fst pd)%nat then (nominal (add_at (fst pd) (snd pd) mis) i j - nominal (add_at (fst pd) (- snd pd) mis) i j) / (two * snd pd) else s q i j)
    else Err IndexError) s0 l = Ok s -> s p i j = s0 p i j).
  { induction l as [|[q d] l IH]; intros s0 N E; cbn [fold_res] in E; [now injection E as <-|]. cbn [fst snd map] in *.
    destruct (q <? length mis)%nat; [|discriminate]. cbn [bind] in E. rewrite (IH _ (fun Q => N (or_intror Q)) E).
    destruct (Nat.eqb_spec p q) as [->|]; [|reflexivity]. exfalso. apply N. now left. }
  rewrite (G pert _ NI H). reflexivity.
Qed.
Lemma qs_zeros : forall n f, (forall i, (i < n)%nat -> f i = 0) -> qsum n f = 0. Proof. exact qs_zero. Qed.
(* A parameter without a perturbation is not estimated: it is multiplied by the forgetting factor *)
Theorem C122_unperturbed : forall c measured mis mis' rel w p, iteration c measured mis = Ok (mis', rel, w) -> (p < length mis)%nat -> ~ In p (map fst (c_pert c)) ->
  length mis' = length mis /\ nth p mis' 0 = nth p mis 0 * c_forget c.
Proof.
  intros c measured mis mis' rel w p H Hp NI. unfold SprintModel.iteration in H. inv_bind H. destruct (is0 _); [discriminate|]. injection H as <- _ _.
  split; [apply update_length|]. rewrite update_nth by exact Hp. unfold correction, mean.
  rewrite (qs_zero nm); [unfold Qcdiv; ring|]. intros m _. rewrite (qs_zero ns); [unfold Qcdiv; ring|]. intros i _. rewrite (sens_other _ _ _ p i m E NI). ring.
Qed.

(* ---------------------------------------------------------------- sensitivities *)
Lemma add_nth : forall p d x q, (p < length x)%nat -> nth q (add_at p d x) 0 = nth q x 0 + (if (q =? p)%nat then d else 0).
Proof.
  intros p d x. revert p. induction x as [|a x IH]; intros p q H; [cbn in H; lia|]. destruct p as [|p], q as [|q]; cbn in *; try ring. apply IH. lia.
Qed.
Lemma add_length : forall p d x, length (add_at p d x) = length x.
Proof. intros p d x. revert p. induction x as [|a x IH]; intros [|p]; cbn; auto. Qed.
(* When the matrix depends on the parameters in an affine way the sensitivities are exact, whatever the perturbations *)
Theorem C122_sensitivities : forall pert mis M0 D, NoDup (map fst pert) -> (forall p d, In (p, d) pert -> (p < length mis)%nat /\ d <> 0) ->
  (forall x i j, nominal x i j = M0 i j + qsum (length x) (fun p => nth p x 0 * D p i j)) ->
  exists s, sensitivities nominal pert mis = Ok s /\ forall p d i j, In (p, d) pert -> s p i j = D p i j.
Proof.
  intros pert mis M0 D ND HP HA. unfold sensitivities.
  assert (CD : forall p d i j, (p < length mis)%nat -> d <> 0 -> (nominal (add_at p d mis) i j - nominal (add_at p (- d) mis) i j) / (two * d) = D p i j).
  { intros p d i j L Nd. rewrite !HA, !add_length.
    assert (S : forall e, qsum (length mis) (fun q => nth q (add_at p e mis) 0 * D q i j) = qsum (length mis) (fun q => nth q mis 0 * D q i j) + e * D p i j).
    { intros e. rewrite (qs_ext _ _ (fun q => nth q mis 0 * D q i j + (if (q =? p)%nat then e else 0) * D q i j)) by (intros q _; rewrite add_nth by exact L; ring).
      rewrite qs_add. f_equal. rewrite (qs_single _ p _ L); [now rewrite Nat.eqb_refl|]. intros q _ Nq. destruct (Nat.eqb_spec q p); [congruence|ring]. }
    rewrite !S. unfold two. field. split; [exact Nd|]. intros Q. apply (f_equal this) in Q. vm_compute in Q. discriminate. }
  assert (G : forall l s0, NoDup (map fst l) -> (forall p d, In (p, d) l -> (p < length mis)%nat /\ d <> 0) -> exists s, fold_res (fun s pd =>
    if (fst pd <? length mis)%nat then Ok (fun q i j => if (q =? fst pd)%nat then (nominal (add_at (fst pd) (snd pd) mis) i j - nominal (add_at (fst pd) (- snd pd) mis) i j) / (two * snd pd) else s q i j)
    else Err IndexError) s0 l = Ok s /\ (forall p d i j, In (p, d) l -> s p i j = D p i j) /\ (forall p i j, ~ In p (map fst l) -> s p i j = s0 p i j)).
  { induction l as [|[q d] l IH]; intros s0 N P; cbn [fold_res].
    - exists s0. split; [reflexivity|]. split; [intros p d i j []|reflexivity].
    - cbn [fst snd map] in *. inversion N as [|? ? N1 N2]; subst. destruct (P q d (or_introl eq_refl)) as [L Nd].
      replace (q <? length mis)%nat with true by (symmetry; now apply Nat.ltb_lt). cbn [bind].
      destruct (IH (fun q0 i j => if (q0 =? q)%nat then (nominal (add_at q d mis) i j - nominal (add_at q (- d) mis) i j) / (two * d) else s0 q0 i j) N2 (fun p e I => P p e (or_intror I))) as (s & S1 & S2 & S3).
      exists s. split; [exact S1|]. split.
      + intros p e i j [I|I]; [|now apply (S2 p e)]. injection I as <- <-. rewrite S3 by exact N1. rewrite Nat.eqb_refl. now apply CD.
      + intros p i j I. rewrite S3 by (intros Q; apply I; now right). destruct (Nat.eqb_spec p q) as [->|]; [exfalso; apply I; now left|reflexivity]. }
  destruct (G pert (fun _ _ _ => 0) ND HP) as (s & S1 & S2 & _). exists s. split; assumption.
Qed.
(* a perturbation of a parameter that does not exist *)
Theorem C122_no_parameter : forall mis p d, (length mis <= p)%nat -> sensitivities nominal [(p, d)] mis = Err IndexError.
Proof. intros mis p d H. unfold sensitivities. cbn [fold_res fst]. replace (p <? length mis)%nat with false by (symmetry; apply Nat.ltb_ge; exact H). reflexivity. Qed.

(* ---------------------------------------------------------------- optical gains *)
(* When the measured matrix is the nominal one with each mode scaled, the gains found are these scales, and the difference
   left is only that of the regularisation *)
Theorem C122_gains : forall measured nom g, (forall j k, (j < nm)%nat -> (k < nm)%nat -> mmul ns (pinv nom) nom j k = eye j k) ->
  (forall i j, (i < ns)%nat -> (j < nm)%nat -> measured i j = nom i j * g j) ->
  (forall j, (j < nm)%nat -> gains ns pinv measured nom j = g j) /\
  (forall i j, (i < ns)%nat -> (j < nm)%nat -> g j + tiny <> 0 -> difference measured nom (gains ns pinv measured nom) i j = - nom i j * (tiny / (g j + tiny))).
Proof.
  intros measured nom g HI HM.
  assert (G : forall j, (j < nm)%nat -> gains ns pinv measured nom j = g j).
  { intros j Hj. unfold gains, mmul. rewrite (qs_ext _ _ (fun k => g j * (pinv nom j k * nom k j))) by (intros k Hk; rewrite HM by assumption; ring).
    rewrite qs_scale. specialize (HI j j Hj Hj). unfold mmul in HI. rewrite HI. unfold eye. rewrite Nat.eqb_refl. ring. }
  split; [exact G|]. intros i j Hi Hj Ng. unfold difference. rewrite G by exact Hj. rewrite HM by assumption. field. exact Ng.
Qed.

(* ---------------------------------------------------------------- correction *)
Lemma tiny_pos : 0 < tiny. Proof. reflexivity. Qed.
Lemma qnat_pos : forall n, (0 < n)%nat -> 0 < qnat n.
Proof. intros n H. unfold qnat, Qclt. change (this 0) with 0%Q. rewrite this_q. unfold Qlt, inject_Z. cbn [Qnum Qden]. lia. Qed.
Lemma qs_lt : forall n f g, (0 < n)%nat -> (forall i, (i < n)%nat -> f i < g i) -> qsum n f < qsum n g.
Proof.
  induction n as [|n IH]; intros f g H L; [lia|]. rewrite !qs_S. destruct n as [|n].
  - rewrite !qs_0. specialize (L 0%nat ltac:(lia)). qclra.
  - specialize (IH f g ltac:(lia) (fun i Hi => L i ltac:(lia))). specialize (L (S n) ltac:(lia)). qclra.
Qed.
Lemma qs_const : forall n x, qsum n (fun _ => x) = qnat n * x.
Proof.
  induction n as [|n IH]; intros x; [rewrite qs_0; change (qnat 0) with 0; ring|]. rewrite qs_S, IH.
  replace (qnat (S n)) with (qnat n + 1); [ring|]. unfold qnat. apply Qc_iff. rewrite this_add, !this_q. rewrite Nat2Z.inj_succ. unfold Z.succ. rewrite inject_Z_plus. reflexivity.
Qed.
Lemma square_ge : forall x : Qc, 0 <= x * x.
Proof. intros x. unfold Qcle. rewrite this_mul. change (this 0) with 0%Q. generalize (this x). intros q. unfold Qle, Qmult. cbn. nia. Qed.
Lemma square_pos : forall x : Qc, x <> 0 -> 0 < x * x.
Proof.
  intros x N. destruct (Qcle_lt_or_eq _ _ (square_ge x)) as [H|H]; [exact H|]. symmetry in H. destruct (Qcmult_integral _ _ H); contradiction.
Qed.
Lemma pos_neq : forall x : Qc, 0 < x -> x <> 0.
Proof. intros x H ->. revert H. apply Qcle_not_lt, Qcle_refl. Qed.
Definition part (sens : nat -> matrix) (p m : nat) : Qc := let s := qsum ns (fun i => sens p i m * sens p i m) in s / (s + tiny).
Lemma part_bounds : forall sens p m, (exists i, (i < ns)%nat /\ sens p i m <> 0) -> 0 < part sens p m /\ part sens p m < 1.
Proof.
  intros sens p m (i & Hi & Hs). unfold part. set (f := fun i => sens p i m * sens p i m).
  assert (P : 0 < qsum ns f).
  { apply Qclt_le_trans with (f i); [apply square_pos; exact Hs|]. apply (qsum_term ns f i); [|exact Hi]. intros k _. apply square_ge. }
  set (s := qsum ns f) in *. clearbody s. pose proof tiny_pos as T. generalize tiny T. clear T. intros ti T.
  assert (P2 : 0 < s + ti) by qclra. assert (E : s / (s + ti) * (s + ti) = s) by (field; now apply pos_neq).
  split.
  - apply Qcnot_le_lt. intros L. apply (Qcmult_le_compat_r _ _ (s + ti)) in L; [|qclra]. rewrite E in L. qclra.
  - apply Qcnot_le_lt. intros L. apply (Qcmult_le_compat_r _ _ (s + ti)) in L; [|qclra]. rewrite E in L. qclra.
Qed.
(* When the sensitivities of different parameters are orthogonal for each mode, the correction of a parameter is its
   error times a factor between 0 and 1 that does not depend on the errors: without forgetting, its error becomes smaller at
   each iteration and keeps its sign *)
Theorem C122_correction : forall sens np e diff p, (0 < nm)%nat -> (p < np)%nat ->
  (forall m i, (m < nm)%nat -> (i < ns)%nat -> diff i m = qsum np (fun q => e q * sens q i m)) ->
  (forall m q, (m < nm)%nat -> (q < np)%nat -> q <> p -> qsum ns (fun i => sens p i m * sens q i m) = 0) ->
  (forall m, (m < nm)%nat -> exists i, (i < ns)%nat /\ sens p i m <> 0) ->
  exists k, 0 < k /\ k < 1 /\ correction ns nm diff sens p = k * e p /\
  forall x target gain, 0 < gain -> gain <= 1 -> e p = target - x -> exists r, 0 < r /\ r < 1 /\ target - (x * 1 + correction ns nm diff sens p * gain) = r * (target - x).
Proof.
  intros sens np e diff p Hm Hp HD HO HN.
  set (k := mean nm (fun m => part sens p m)). pose proof (qnat_pos nm Hm) as QP.
  assert (E1 : k * qnat nm = qsum nm (fun m => part sens p m)) by (unfold k, mean; field; now apply pos_neq).
  assert (K0 : 0 < k).
  { apply Qcnot_le_lt. intros L. apply (Qcmult_le_compat_r _ _ (qnat nm)) in L; [|qclra]. rewrite E1 in L.
    pose proof (qs_lt nm (fun _ => 0) (fun m => part sens p m) Hm (fun m L => proj1 (part_bounds sens p m (HN m L)))) as Q. rewrite qs_const in Q. qclra. }
  assert (K1 : k < 1).
  { apply Qcnot_le_lt. intros L. apply (Qcmult_le_compat_r _ _ (qnat nm)) in L; [|qclra]. rewrite E1 in L.
    pose proof (qs_lt nm (fun m => part sens p m) (fun _ => 1) Hm (fun m L => proj2 (part_bounds sens p m (HN m L)))) as Q. rewrite qs_const in Q. qclra. }
  assert (C : correction ns nm diff sens p = k * e p).
  { unfold correction, k, mean. transitivity (qsum nm (fun m => e p * part sens p m) / qnat nm); [|rewrite (qs_scale nm (e p) (fun m => part sens p m)); unfold Qcdiv; generalize (qsum nm (fun m => part sens p m)); intros u; ring].
    f_equal. apply qs_ext. intros m Lm. unfold part. set (d := qsum ns (fun i => sens p i m * sens p i m) + tiny).
    replace (qsum ns (fun i => sens p i m * diff i m)) with (e p * qsum ns (fun i => sens p i m * sens p i m)); [unfold Qcdiv; ring|].
    symmetry. transitivity (qsum ns (fun i => qsum np (fun q => e q * (sens p i m * sens q i m)))).
    - apply qs_ext. intros i Li. rewrite HD by assumption. rewrite <- qs_scale. apply qs_ext. intros q _. ring.
    - rewrite qs_swap. rewrite (qs_single _ p _ Hp); [now rewrite qs_scale|]. intros q Lq Nq. rewrite qs_scale, HO by assumption. ring. }
  exists k. repeat split; try assumption. intros x target gain G0 G1 HE. exists (1 - k * gain). rewrite C, HE.
  assert (B1 : 0 < k * gain) by (rewrite <- (Qcmult_0_l gain); now apply Qcmult_lt_compat_r).
  assert (B2 : k * gain < 1) by (apply Qclt_le_trans with (1 * gain); [now apply Qcmult_lt_compat_r|rewrite Qcmult_1_l; exact G1]).
  split; [qclra|]. split; [qclra|]. ring.
Qed.

(* ---------------------------------------------------------------- no signal *)
(* slopes without any modulation stop the simulation *)
Theorem C122_silent : forall c measured n mis err s, (0 < n)%nat -> root 0 = 0 -> (forall i j, (i < ns)%nat -> (j < nm)%nat -> measured i j = 0) ->
  sensitivities nominal (c_pert c) mis = Ok s -> iterate c measured n mis err = Err ZeroDivisionError.
Proof.
  intros c measured n mis err s Hn R Z S. destruct n as [|n]; [lia|]. cbn [SprintModel.iterate]. unfold SprintModel.iteration. rewrite S. cbn [bind].
  assert (M : mean2 ns nm (fun i j => measured i j * measured i j) = 0).
  { unfold mean2. rewrite (qs_zero ns); [unfold Qcdiv; ring|]. intros i Li. apply qs_zero. intros j Lj. rewrite Z by assumption. ring. }
  rewrite M, R. reflexivity.
Qed.
End Props.
Print Assumptions C122_batches.
Print Assumptions C122_iterations.
Print Assumptions C122_no_iteration.
Print Assumptions C122_unperturbed.
Print Assumptions C122_sensitivities.
Print Assumptions C122_no_parameter.
Print Assumptions C122_gains.
Print Assumptions C122_correction.
Print Assumptions C122_silent.

(* an example with one mode and one slope, of signal 4 for the parameter 3; the "demodulation" is the first sample *)
Definition ex_nominal (x : list Qc) : matrix := fun _ _ => Q2Qc 1 + nth 0 x 0.
Definition ex_pinv (m : matrix) : matrix := fun i j => 1.
Definition ex_root (x : Qc) : Qc := x.
Definition ex_demod (h : list (nat -> Qc)) (f : Qc) (i : nat) : Qc * Qc := (nth 0 (map (fun v => v i) h) 0, 1).
Definition ex_c := mkConfig [Q2Qc 7] 5 2 0 false 1 (Q2Qc (1 # 2)) [(0%nat, Q2Qc (1 # 10))].
Definition ex_run (n : nat) : res state :=
  s <- new [0%nat] ex_c 1 None ;; run 1 1 ex_pinv ex_nominal ex_root ex_demod ex_c s (map (fun k => (Z.of_nat k, fun _ : nat => Q2Qc 1)) (seq 1 n)).
(* samples at 1, 2, ...: an estimation every five time units that waits for ten samples *)
Example C122_batches_example : map (fun n => match ex_run n with Ok s => (o_time s, length (s_hist s)) | Err _ => (None, 99%nat) end) [0; 5; 9; 10; 19; 20; 21]%nat
  = [(None, 0%nat); (None, 5%nat); (None, 9%nat); (Some 10%Z, 0%nat); (Some 10%Z, 9%nat); (Some 20%Z, 0%nat); (Some 20%Z, 1%nat)].
Proof. vm_compute. reflexivity. Qed.
Example C122_sensitivities_example : exists s, sensitivities ex_nominal [(0%nat, Q2Qc (1 # 10))] [Q2Qc 3] = Ok s /\ s 0%nat 0%nat 0%nat = 1.
Proof. eexists. split; [reflexivity|]. apply Qc_is_canon. vm_compute. reflexivity. Qed.
Example C122_new_example : (exists s, new [0%nat] ex_c 1 None = Ok s) /\ new [0%nat; 1%nat] ex_c 1 None = Err ValueError /\ new [0%nat] ex_c 2 (Some [0]) = Err ValueError.
Proof. split; [apply C122_new; repeat split; try discriminate; intros l; discriminate|split; reflexivity]. Qed.
Example C122_silent_example : iterate 1 1 ex_pinv ex_nominal ex_root ex_c (fun _ _ => 0) 2 [0] 0 = Err ZeroDivisionError.
Proof. vm_compute. reflexivity. Qed.
(* with a forgetting factor below 1, parameters that give exactly the corrected measure are not kept *)
Theorem C122_kept_refuted : exists c measured mis mis' rel w, c_forget c < 1 /\ iteration 1 1 ex_pinv ex_nominal ex_root c measured mis = Ok (mis', rel, w) /\
  (forall i j, difference measured (ex_nominal mis) (gains 1 ex_pinv measured (ex_nominal mis)) i j = 0) /\ mis' <> mis.
Proof.
  set (m := 1 - tiny).
  exists (mkConfig [Q2Qc 7] 5 2 0 false 1 (Q2Qc (1 # 2)) []), (fun _ _ => m), [- tiny].
  do 3 eexists. split; [reflexivity|]. split; [vm_compute; reflexivity|].
  split.
  - intros i j. unfold difference, gains, mmul, ex_pinv, ex_nominal, m. rewrite qs_S, qs_0. cbn [nth]. apply Qc_is_canon. vm_compute. reflexivity.
  - intros E. apply (f_equal (fun l => this (nth 0 l 0))) in E. vm_compute in E. discriminate.
Qed.
Print Assumptions C122_kept_refuted.
