From Coq Require Import List ZArith Bool Arith Lia Lqa QArith Qcanon.
From Verif Require Import PyBase PyLemmas Arith ArithLemmas FilterSpec SumLemmas OpticalModel ExtModel QcTac VecModel SlopecModel SlopecSpec SlopecProofs InterpProofs OptModel OptSpec.
Import ListNotations.
Local Open Scope Qc_scope.

Lemma qnat_nz m : (0 < m)%nat -> qnat m <> 0.
Proof. intros H. now apply Qc_pos_neq, qnat_pos. Qed.
Lemma linspace_candidates gmax N : linspace (gmax / qn N) gmax N = map (candidate gmax N) (seq 0 N).
Proof.
  destruct N as [|[|m]]; [reflexivity| |].
  - cbn [linspace seq map]. unfold candidate. rewrite qn_qnat. f_equal. change (qnat 1) with (Q2Qc 1). field. discriminate.
  - cbn [linspace]. apply map_ext. intros k. unfold candidate. rewrite (qn_qnat (S (S m))), (qn_qnat k), (qn_qnat (S m)).
    assert (A : qnat (S (S m)) <> 0) by (apply qnat_nz; lia). assert (B : qnat (S m) <> 0) by (apply qnat_nz; lia).
    rewrite (qnat_S k). rewrite (qnat_S (S m)) in *. generalize dependent (qnat (S m)). intros q A B. field. split; assumption.
Qed.
Lemma argmin_from_spec (f : nat -> Qc) l : forall best ib i, best = f ib -> first_best i f ib -> (forall j, (j < length l)%nat -> nth j l 0 = f (i + j)%nat) ->
  first_best (i + length l) f (argmin_from best ib i l).
Proof.
  induction l as [|x l IH]; intros best ib i Hb F Hl; cbn [argmin_from length].
  - now rewrite Nat.add_0_r.
  - assert (X : x = f i) by (specialize (Hl 0%nat); cbn in Hl; rewrite Nat.add_0_r in Hl; apply Hl; lia).
    assert (T : forall j, (j < length l)%nat -> nth j l 0 = f (S i + j)%nat) by (intros j Hj; specialize (Hl (S j)); cbn in Hl; rewrite <- plus_n_Sm in Hl; apply Hl; lia).
    rewrite <- plus_n_Sm. change (S (i + length l)) with (S i + length l)%nat. destruct F as (F1 & F2 & F3). destruct (qlt x best) eqn:E.
    + apply IH; [exact X| |exact T]. assert (L : forall j, (j < i)%nat -> f i < f j).
      { intros j Hj. rewrite <- X. assert (G := F2 j Hj). rewrite <- Hb in G. qclra. }
      split; [lia|]. split; [|exact L]. intros j Hj. destruct (Nat.eq_dec j i) as [->|N]; [apply Qcle_refl|]. assert (G := L j ltac:(lia)). qclra.
    + apply IH; [exact Hb| |exact T]. split; [lia|]. split; [|exact F3]. intros j Hj. destruct (Nat.eq_dec j i) as [->|N]; [rewrite <- X, <- Hb; qclra|]. apply F2. lia.
Qed.
Lemma argmin_spec l : match l with [] => argmin l = Err ValueError | _ => exists k, argmin l = Ok k /\ first_best (length l) (fun j => nth j l 0) k end.
Proof.
  destruct l as [|x l]; [reflexivity|]. eexists. split; [reflexivity|]. change (length (x :: l)) with (1 + length l)%nat.
  apply argmin_from_spec; [reflexivity| |intros j _; reflexivity]. split; [lia|]. split; [|intros j Hj; lia]. intros j Hj. replace j with 0%nat by lia. apply Qcle_refl.
Qed.
Lemma argmin_ok l : (0 < length l)%nat -> exists k, argmin l = Ok k /\ first_best (length l) (fun j => nth j l 0) k.
Proof. intros H. assert (A := argmin_spec l). destruct l; [cbn in H; lia|exact A]. Qed.
Lemma argmin_map (f : nat -> Qc) N : exists k, argmin (map f (seq 0 (S N))) = Ok k /\ first_best (S N) f k.
Proof.
  destruct (argmin_ok (map f (seq 0 (S N)))) as (k & E & F); [rewrite map_length, seq_length; lia|]. exists k. split; [exact E|].
  rewrite map_length, seq_length in F. destruct F as (F1 & F2 & F3).
  assert (X : forall j, (j < S N)%nat -> nth j (map f (seq 0 (S N))) 0 = f j).
  { intros j Hj. rewrite (nth_indep _ 0 (f 0%nat)) by (rewrite map_length, seq_length; exact Hj). now rewrite map_nth, seq_nth. }
  split; [exact F1|]. split; intros j Hj; [specialize (F2 j Hj)|specialize (F3 j Hj)]; cbv beta in *; rewrite !X in * by lia; assumption.
Qed.
Lemma first_best_unique N f a b : first_best N f a -> first_best N f b -> a = b.
Proof.
  intros (A1 & A2 & A3) (B1 & B2 & B3). destruct (lt_eq_lt_dec a b) as [[H|H]|H]; [|exact H|]; exfalso.
  - assert (G := B3 a H). assert (G2 := A2 b B1). qclra.
  - assert (G := A3 b H). assert (G2 := B2 a A1). qclra.
Qed.
Lemma first_best_ext N f g a : (forall j, (j < N)%nat -> f j = g j) -> first_best N f a -> first_best N g a.
Proof.
  intros H (A1 & A2 & A3). split; [exact A1|]. split; intros j Hj; rewrite <- !H by lia; [now apply A2|now apply A3].
Qed.
Lemma first_best_scale N f k a : 0 < k -> first_best N (fun j => k * f j) a -> first_best N f a.
Proof.
  intros Hk (A1 & A2 & A3). split; [exact A1|]. split; intros j Hj; [assert (G := A2 j Hj)|assert (G := A3 j Hj)].
  - destruct (Qclt_le_dec (f j) (f a)) as [L|L]; [|exact L]. exfalso. assert (M := Qcmult_lt_compat_r _ _ k Hk L). rewrite !(Qcmult_comm k) in G. qclra.
  - destruct (Qclt_le_dec (f a) (f j)) as [L|L]; [exact L|]. exfalso. assert (M : f j * k <= f a * k) by (apply Qcmult_le_compat_r; [exact L|qclra]). rewrite !(Qcmult_comm k) in G. qclra.
Qed.

Lemma map_res_seq {Y} (f : nat -> res Y) (d : Y) : forall n a l, map_res f (seq a n) = Ok l -> length l = n /\ forall m, (m < n)%nat -> f (a + m)%nat = Ok (nth m l d).
Proof.
  induction n as [|n IH]; intros a l E; cbn [seq map_res] in E.
  - injection E as <-. split; [reflexivity|]. intros m H; lia.
  - inv_bind E. inv_bind E. injection E as <-. destruct (IH (S a) _ E1) as [L F]. split; [cbn; now rewrite L|]. intros [|m] Hm; [rewrite Nat.add_0_r; exact E0|]. rewrite <- plus_n_Sm. apply (F m). lia.
Qed.
Lemma nth_map2 {X Y Z'} (f : X -> Y -> Z') l1 l2 d1 d2 d m : (m < length l1)%nat -> (m < length l2)%nat -> nth m (map2 f l1 l2) d = f (nth m l1 d1) (nth m l2 d2).
Proof.
  revert l2 m. induction l1 as [|x l1 IH]; intros [|y l2] m H1 H2; cbn in *; try lia. destruct m as [|m]; [reflexivity|]. apply IH; lia.
Qed.
Lemma map2_len {X Y Z'} (f : X -> Y -> Z') l1 l2 : length (map2 f l1 l2) = Nat.min (length l1) (length l2).
Proof. revert l2. induction l1 as [|x l1 IH]; intros [|y l2]; cbn; auto. Qed.
Lemma vsum_residual r p : length r = length p -> vsum (A := qc) (map2 Qcmult r p) = residual r p.
Proof.
  intros L. rewrite fold_left_sumn, map2_len, L, Nat.min_id. unfold residual. apply (sumn_ext (A := qc)). intros j Hj. apply nth_map2; lia.
Qed.

Lemma argmin_from_scale k l : 0 < k -> forall best ib i, argmin_from (k * best) ib i (map (Qcmult k) l) = argmin_from best ib i l.
Proof.
  intros Hk. induction l as [|x l IH]; intros best ib i; cbn [map argmin_from]; [reflexivity|].
  assert (E : qlt (k * x) (k * best) = qlt x best).
  { destruct (qlt x best) eqn:E.
    - apply qlt_true in E. apply qlt_true. rewrite !(Qcmult_comm k). now apply Qcmult_lt_compat_r.
    - apply qlt_false in E. apply qlt_false. rewrite !(Qcmult_comm k). apply Qcmult_le_compat_r; [exact E|qclra]. }
  rewrite E. destruct (qlt x best); apply IH.
Qed.
Lemma argmin_scale k l : 0 < k -> argmin (map (Qcmult k) l) = argmin l.
Proof. intros Hk. destruct l as [|x l]; [reflexivity|]. cbn [map argmin]. now rewrite argmin_from_scale. Qed.

Section Sess.
Variable psd : nat -> list Qc -> list Qc.
Variable rej : nat -> nat -> Qc -> list Qc.
Variable stab : list Qc.
Variable c : config.
Hypothesis Hpsd : forall seg x, length (psd seg x) = (seg / 2 + 1)%nat.
Hypothesis Hrej : forall seg m g, length (rej seg m g) = (seg / 2 + 1)%nat.

(* the optimiser without a mean of the spectra *)
Definition plain : config := mkConfig (c_dt c) (c_max c) (c_safety c) (c_inc c) (c_limit c) (c_n c) false.
Definition zeros (n seg : nat) : list (list Qc) := repeat (repeat 0 n) (seg / 2 + 1).

Lemma halve p n mode : map2 (fun x row => (x + nth mode row 0) / (1 + 1)) p (repeat (repeat 0 n) (length p)) = map (Qcmult (/ (1 + 1))) p.
Proof.
  induction p as [|x p IH]; [reflexivity|]. cbn [length repeat map2 map]. rewrite IH. f_equal. rewrite nth_repeat. field. discriminate.
Qed.
Lemma residual_scale k r p : residual r (map (Qcmult k) p) = k * residual r p.
Proof.
  unfold residual. rewrite map_length. etransitivity; [|apply (sumn_scale qc qc_field)]. apply (sumn_ext (A := qc)). intros j Hj.
  rewrite (nth_indep (map (Qcmult k) p) 0 (k * 0)) by (rewrite map_length; exact Hj). rewrite map_nth. cbn. ring.
Qed.
Lemma single_plain seg old n mode x g : (c_mean c = true -> old = Some (zeros n seg)) -> single psd rej c seg old mode x g = single psd rej plain seg None mode x g.
Proof.
  intros H. unfold single. cbn [plain c_mean c_n]. destruct (c_mean c) eqn:Em; [|reflexivity]. rewrite H by reflexivity. unfold zeros. rewrite <- (Hpsd seg x), halve.
  set (l := map (fun g0 => vsum (A := qc) (map2 Qcmult (rej seg mode g0) (psd seg x))) (linspace (g / qn (c_n c)) g (c_n c))).
  match goal with |- (k <- argmin ?a ;; _) = _ => replace a with (map (Qcmult (/ (1 + 1))) l) end.
  - now rewrite argmin_scale by reflexivity.
  - unfold l. rewrite map_map. apply map_ext. intros g0. rewrite !vsum_residual by (rewrite ?map_length, Hpsd; apply Hrej). now rewrite residual_scale.
Qed.

Definition cost seg m x gm j := residual (rej seg m (candidate gm (c_n c) j)) (psd seg x).
Lemma single_law seg m x g : match c_n c with
  | O => single psd rej plain seg None m x g = Err ValueError
  | _ => exists k, first_best (c_n c) (cost seg m x g) k /\ single psd rej plain seg None m x g = Ok (candidate g (c_n c) k) end.
Proof.
  unfold single. cbn [plain c_mean c_n]. rewrite linspace_candidates, map_map.
  match goal with |- context [argmin ?l] => replace l with (map (cost seg m x g) (seq 0 (c_n c))) end;
    [|apply map_ext; intros j; symmetry; apply vsum_residual; now rewrite Hpsd, Hrej].
  destruct (c_n c) as [|N] eqn:En; [reflexivity|]. destruct (argmin_map (cost seg m x g) N) as (k & E & F). exists k. split; [exact F|]. rewrite E. cbn [bind]. f_equal.
  assert (Hk : (k < S N)%nat) by apply F.
  rewrite (nth_indep _ 0 (candidate g (S N) 0)) by (rewrite map_length, seq_length; exact Hk). rewrite map_nth, seq_nth by exact Hk. reflexivity.
Qed.

Definition signal (es : list event) (m : nat) : list Qc := open_loop (map (fun e => (nth m (e_delta e) 0, nth m (e_comm e) 0)) es).
Definition opticals (es : list event) : list Qc := flat_map (fun e => match e_optical e with Some v => [v] | None => [] end) es.
Definition largest (gain : list Qc) (m : nat) : Qc := (if is0 (nth m gain 0) then 0 else nth m stab 0) * c_max c.
Definition wf (n : nat) (es : list event) : Prop := Forall (fun e => length (e_delta e) = n /\ length (e_comm e) = n) es.

Lemma signal_from n m (es : list event) : (m < n)%nat -> wf n es -> forall b, length b = n ->
  map (fun row => nth m row 0) (map2 (map2 Qcplus) (b :: map e_comm es) (map e_delta es)) = open_loop_from (nth m b 0) (map (fun e => (nth m (e_delta e) 0, nth m (e_comm e) 0)) es).
Proof.
  clear Hpsd Hrej. intros Hm W. induction W as [|e es [W1 W2] W IH]; intros b Hb; [reflexivity|]. cbn [map map2 open_loop_from]. f_equal; [apply nth_map2; lia|]. apply IH. exact W2.
Qed.
Lemma pseudo_signal n m (es : list event) : (m < n)%nat -> wf n es -> map (fun row => nth m row 0) (pseudo (map e_delta es) (map e_comm es)) = signal es m.
Proof.
  intros Hm W. destruct W as [|e es [W1 W2] W]; [reflexivity|]. unfold signal, open_loop. cbn [map pseudo open_loop_from]. f_equal; [ring|]. now apply (signal_from n).
Qed.
Lemma pseudo_len d u : length d = length u -> length (pseudo d u) = length d.
Proof. clear Hpsd Hrej. destruct d as [|x d], u as [|y u]; cbn [length pseudo]; intros H; try lia. rewrite map2_len. cbn [length]. lia. Qed.
Lemma gmaxs_nth gain m : length stab = length gain -> (m < length gain)%nat -> nth m (gmaxs stab c gain) 0 = largest gain m.
Proof. intros L H. unfold gmaxs, largest. rewrite (nth_map2 _ _ _ 0 0) by (rewrite ?L; exact H). reflexivity. Qed.
Lemma ratio_change l r : ratio l = Ok r -> r = change l.
Proof. unfold ratio, change. destruct (rev l) as [|a [|b t]]; try (intros E; injection E as <-; reflexivity). destruct (is0 b); intros E; [discriminate|]. injection E as <-. reflexivity. Qed.
Lemma change_short l : (length l < 2)%nat -> change l = 1.
Proof. unfold change. rewrite <- rev_length. destruct (rev l) as [|a [|b t]]; cbn; intros H; try reflexivity. exfalso. apply (Nat.lt_irrefl 2). eapply Nat.le_lt_trans; [|exact H]. do 2 apply le_n_S. apply Nat.le_0_l. Qed.

Definition inv (n : nat) (es : list event) (s : opt) : Prop :=
  o_delta s = map e_delta es /\ o_comm s = map e_comm es /\ o_optical s = opticals es /\
  length (o_prev s) = n /\ length (o_value s) = n /\ length (o_gain s) = n /\
  (o_seg s = None -> o_psd s = None) /\ (forall seg, o_seg s = Some seg -> c_mean c = true -> o_psd s = Some (zeros n seg)).
Definition seg_of (es : list event) (s : opt) : nat := match o_seg s with Some k => k | None => Nat.min (length es) 256 end.
Definition updated (gm p best r : Qc) : Qc := lesser gm (c_safety c * (r * (if c_limit c then p + c_inc c * (best - p) else best))).

Lemma optimize_law n es s s' : length stab = n -> wf n es -> inv n es s -> (2 <= length es)%nat -> optimize psd rej stab c s = Ok s' ->
  o_delta s' = o_delta s /\ o_comm s' = o_comm s /\ o_optical s' = o_optical s /\ o_gain s' = o_gain s /\ o_time s' = o_time s /\
  o_prev s' = o_value s' /\ length (o_value s') = n /\ o_seg s' = Some (seg_of es s) /\ (c_mean c = true -> o_psd s' = Some (zeros n (seg_of es s))) /\
  forall m, (m < n)%nat -> exists k, first_best (c_n c) (cost (seg_of es s) m (signal es m) (largest (o_gain s) m)) k /\
    nth m (o_value s') 0 = updated (largest (o_gain s) m) (nth m (o_prev s) 0) (candidate (largest (o_gain s) m) (c_n c) k) (change (opticals es)).
Proof.
  intros Ls W (I1 & I2 & I3 & I4 & I5 & I6 & I7 & I8) T E. unfold optimize in E. rewrite I1, I2, I3, map_length in E.
  replace (length es <? 2)%nat with false in E by (symmetry; apply Nat.ltb_ge; exact T).
  assert (PL : length (pseudo (map e_delta es) (map e_comm es)) = length es) by (rewrite pseudo_len; now rewrite !map_length).
  rewrite PL in E. fold (seg_of es s) in E. cbv zeta in E. rewrite I6 in E.
  set (old := if c_mean c then match o_psd s with Some p => Some p | None => Some (repeat (repeat 0 n) (seg_of es s / 2 + 1)) end else o_psd s) in *.
  assert (HO : c_mean c = true -> old = Some (zeros n (seg_of es s))).
  { intros Hm. unfold old. rewrite Hm. unfold seg_of. destruct (o_seg s) as [k|] eqn:Es; [now rewrite (I8 k)|now rewrite I7]. }
  inv_bind E. rename a into best, E0 into EB. inv_bind E. rename a into r, E0 into ER. injection E as <-. cbn [o_delta o_comm o_optical o_seg o_psd o_prev o_value o_time o_done o_gain].
  destruct (map_res_seq _ 0 _ _ _ EB) as [LB FB]. apply ratio_change in ER. subst r.
  set (g1 := if c_limit c then map2 (fun p b => p + c_inc c * (b - p)) (o_prev s) best else best) in *.
  assert (L1 : length g1 = n) by (unfold g1; destruct (c_limit c); [rewrite map2_len, I4, LB; apply Nat.min_id|exact LB]).
  change (match length (opticals es) with S (S _) => true | _ => false end) with (2 <=? length (opticals es))%nat.
  set (g2 := if (2 <=? length (opticals es))%nat then map (fun g => g * change (opticals es)) g1 else g1) in *.
  assert (L2 : length g2 = n) by (unfold g2; destruct (2 <=? length (opticals es))%nat; [now rewrite map_length|exact L1]).
  assert (LG : length (gmaxs stab c (o_gain s)) = n) by (unfold gmaxs; rewrite map2_len, Ls, I6; apply Nat.min_id).
  repeat (split; [first [reflexivity | assumption | symmetry; assumption]|]).
  split; [rewrite map2_len, L2, LG; apply Nat.min_id|]. split; [reflexivity|]. split; [exact HO|].
  intros m Hm. specialize (FB m Hm). cbn [Nat.add] in FB. rewrite (pseudo_signal n), gmaxs_nth, (single_plain _ _ n) in FB by (try assumption; rewrite I6; assumption).
  assert (SL := single_law (seg_of es s) m (signal es m) (largest (o_gain s) m)).
  destruct (c_n c) as [|N] eqn:En; [rewrite FB in SL; discriminate|]. destruct SL as (k & F & SL). rewrite SL in FB. injection FB as FB. exists k. split; [exact F|].
  rewrite (nth_map2 _ _ _ 0 0) by (rewrite ?L2, ?LG; exact Hm). rewrite gmaxs_nth by (rewrite I6; assumption).
  assert (G2 : nth m g2 0 = nth m g1 0 * change (opticals es)).
  { unfold g2. destruct (2 <=? length (opticals es))%nat eqn:El.
    - rewrite (nth_indep _ 0 (0 * change (opticals es))) by (rewrite map_length, L1; exact Hm). exact (map_nth (fun g => g * change (opticals es)) g1 0 m).
    - rewrite change_short by (now apply Nat.leb_gt). ring. }
  assert (G1 : nth m g1 0 = if c_limit c then nth m (o_prev s) 0 + c_inc c * (nth m best 0 - nth m (o_prev s) 0) else nth m best 0).
  { unfold g1. destruct (c_limit c); [|reflexivity]. rewrite (nth_map2 _ _ _ 0 0) by (rewrite ?I4, ?LB; exact Hm). reflexivity. }
  rewrite G2, G1, <- FB. unfold updated, lesser.
  replace (c_safety c * (change (opticals es) * (if c_limit c then nth m (o_prev s) 0 + c_inc c * (candidate (largest (o_gain s) m) (S N) k - nth m (o_prev s) 0) else candidate (largest (o_gain s) m) (S N) k)))
    with ((if c_limit c then nth m (o_prev s) 0 + c_inc c * (candidate (largest (o_gain s) m) (S N) k - nth m (o_prev s) 0) else candidate (largest (o_gain s) m) (S N) k) * change (opticals es) * c_safety c) by ring.
  set (v := (if c_limit c then _ else _) * change (opticals es) * c_safety c).
  destruct (qlt (largest (o_gain s) m) v) eqn:Ev, (Qclt_le_dec (largest (o_gain s) m) v) as [Lv|Lv]; try reflexivity; [apply qlt_true in Ev|apply qlt_false in Ev]; exfalso; qclra.
Qed.

Lemma run_snoc gain es e : run psd rej stab c gain (es ++ [e]) = s <- run psd rej stab c gain es ;; step psd rej stab c s e.
Proof. unfold run. generalize (new_opt gain). induction es as [|a es IH]; intros s; cbn [app fold_res bind]; [destruct (step psd rej stab c s e); reflexivity|]. destruct (step psd rej stab c s a); [apply IH|reflexivity]. Qed.
Lemma new_inv gain : inv (length gain) [] (new_opt gain).
Proof. unfold inv, new_opt. cbn. rewrite map_length. repeat split; try reflexivity. intros seg H. discriminate. Qed.
Lemma optimize_short s : (length (o_delta s) < 2)%nat -> optimize psd rej stab c s = Ok s.
Proof. intros H. unfold optimize. apply Nat.ltb_lt in H. now rewrite H. Qed.
Lemma step_inv n es s e s' : length stab = n -> wf n (es ++ [e]) -> inv n es s -> step psd rej stab c s e = Ok s' -> inv n (es ++ [e]) s'.
Proof.
  intros Ls W (I1 & I2 & I3 & I4 & I5 & I6 & I7 & I8) E. unfold step in E. inv_bind E. rename a into d, E0 into ED.
  match type of E with context [optimize _ _ _ _ ?x] => set (s1 := x) in E end.
  assert (J : inv n (es ++ [e]) s1).
  { unfold inv, s1. cbn [o_delta o_comm o_optical o_seg o_psd o_prev o_value o_time o_done o_gain]. rewrite !map_app, I1, I2, I3. unfold opticals. rewrite flat_map_app. cbn [map flat_map].
    repeat (split; [first [reflexivity|assumption|destruct (e_optical e); [reflexivity|now rewrite !app_nil_r]]|]). exact I8. }
  destruct d.
  - inv_bind E. rename a into s2, E0 into EO. injection E as <-.
    destruct (Nat.lt_ge_cases (length (o_delta s1)) 2) as [T|T].
    + rewrite optimize_short in EO by exact T. injection EO as <-. destruct J as (J1 & J2 & J3 & J4 & J5 & J6 & J7 & J8). repeat (split; [assumption|]). exact J8.
    + assert (T2 : (2 <= length (es ++ [e]))%nat) by (destruct J as (J1 & _); rewrite J1, map_length in T; exact T).
      destruct (optimize_law _ _ _ _ Ls W J T2 EO) as (K1 & K2 & K3 & K4 & K5 & K6 & K7 & K8 & K9 & _). destruct J as (J1 & J2 & J3 & J4 & J5 & J6 & J7 & J8).
      unfold inv. cbn [o_delta o_comm o_optical o_seg o_psd o_prev o_value o_time o_done o_gain]. rewrite K1, K2, K3, K6, K8. repeat (split; [assumption|]).
      split; [discriminate|]. intros seg Hs Hm. injection Hs as <-. now apply K9.
  - injection E as <-. exact J.
Qed.
Lemma run_inv gain es s : length stab = length gain -> wf (length gain) es -> run psd rej stab c gain es = Ok s -> inv (length gain) es s.
Proof.
  intros Ls. revert s. induction es as [|e es IH] using rev_ind; intros s W E.
  - injection E as <-. apply new_inv.
  - rewrite run_snoc in E. inv_bind E. assert (W' := W). apply Forall_app in W'. destruct W' as [W1 _]. eapply step_inv; eauto.
Qed.

Definition due_at (e : event) : bool := (c_dt c <=? e_t e)%Z && (e_t e mod c_dt c =? 0)%Z.
Lemma due_spec e : (c_dt c <> 0)%Z -> due c (e_t e) = Ok (due_at e).
Proof. intros H. unfold due, due_at. destruct (c_dt c <=? e_t e)%Z; [|reflexivity]. destruct (Z.eqb_spec (c_dt c) 0); [contradiction|reflexivity]. Qed.
(* number of frames at the first optimisation that has two of them *)
Fixpoint first_use (k : nat) (es : list event) : option nat :=
  match es with [] => None | e :: r => if due_at e && (1 <=? k)%nat then Some (S k) else first_use (S k) r end.
Lemma first_use_snoc es e : forall k, first_use k (es ++ [e]) = match first_use k es with Some j => Some j | None => if due_at e && (1 <=? k + length es)%nat then Some (S (k + length es)) else None end.
Proof.
  induction es as [|a es IH]; intros k; cbn [app first_use length]; [now rewrite Nat.add_0_r|]. destruct (due_at a && (1 <=? k)%nat); [reflexivity|]. rewrite IH. now rewrite <- plus_n_Sm.
Qed.

Lemma due_step n es s e s' : (c_dt c <> 0)%Z -> length stab = n -> wf n (es ++ [e]) -> inv n es s -> step psd rej stab c s e = Ok s' ->
  if due_at e then
    o_time s' = e_t e /\ o_done s' = true /\ o_gain s' = o_value s' /\
    match es with
    | [] => o_value s' = o_value s /\ o_prev s' = o_prev s /\ o_seg s' = o_seg s
    | _ => o_prev s' = o_value s' /\ o_seg s' = Some (seg_of (es ++ [e]) s) /\
      forall m, (m < n)%nat -> exists k, first_best (c_n c) (cost (seg_of (es ++ [e]) s) m (signal (es ++ [e]) m) (largest (o_gain s) m)) k /\
        nth m (o_value s') 0 = updated (largest (o_gain s) m) (nth m (o_prev s) 0) (candidate (largest (o_gain s) m) (c_n c) k) (change (opticals (es ++ [e])))
    end
  else o_time s' = o_time s /\ o_done s' = false /\ o_gain s' = o_gain s /\ o_value s' = o_value s /\ o_prev s' = o_prev s /\ o_seg s' = o_seg s.
Proof.
  intros Hdt Ls W (I1 & I2 & I3 & I4 & I5 & I6 & I7 & I8) E. unfold step in E. rewrite due_spec in E by exact Hdt. cbn [bind] in E.
  match type of E with context [optimize _ _ _ _ ?x] => set (s1 := x) in E end.
  assert (J : inv n (es ++ [e]) s1).
  { unfold inv, s1. cbn [o_delta o_comm o_optical o_seg o_psd o_prev o_value o_time o_done o_gain]. rewrite !map_app, I1, I2, I3. unfold opticals. rewrite flat_map_app. cbn [map flat_map].
    repeat (split; [first [reflexivity|assumption|destruct (e_optical e); [reflexivity|now rewrite !app_nil_r]]|]). exact I8. }
  assert (J1 : length (o_delta s1) = S (length es)) by (unfold s1; cbn [o_delta]; now rewrite app_length, I1, map_length, Nat.add_1_r).
  destruct (due_at e).
  - inv_bind E. rename a into s2, E0 into EO. injection E as <-. cbn [o_delta o_comm o_optical o_seg o_psd o_prev o_value o_time o_done o_gain]. do 3 (split; [reflexivity|]).
    destruct es as [|a es].
    + rewrite optimize_short in EO by (rewrite J1; apply Nat.lt_1_2). injection EO as <-. repeat split; reflexivity.
    + assert (T2 : (2 <= length ((a :: es) ++ [e]))%nat) by (rewrite app_length; cbn [length]; rewrite Nat.add_1_r; do 2 apply le_n_S; apply Nat.le_0_l).
      destruct (optimize_law _ _ _ _ Ls W J T2 EO) as (K1 & K2 & K3 & K4 & K5 & K6 & K7 & K8 & K9 & K10). split; [exact K6|]. split; [exact K8|]. exact K10.
  - injection E as <-. repeat split; reflexivity.
Qed.

Lemma run_prev gain es s : (c_dt c <> 0)%Z -> length stab = length gain -> wf (length gain) es -> run psd rej stab c gain es = Ok s ->
  o_prev s = (if o_seg s then o_value s else gain) /\ o_seg s = option_map (fun k => Nat.min k 256) (first_use 0 es).
Proof.
  intros Hdt Ls. revert s. induction es as [|e es IH] using rev_ind; intros s' W E.
  - injection E as <-. split; reflexivity.
  - rewrite run_snoc in E. inv_bind E. rename a into s. assert (W' := W). apply Forall_app in W'. destruct W' as [W1 _]. destruct (IH s W1 E0) as [P S]. clear IH.
    assert (I := run_inv _ _ _ Ls W1 E0). assert (D := due_step _ _ _ _ _ Hdt Ls W I E). rewrite first_use_snoc. cbn [Nat.add]. destruct (due_at e); cbn [andb].
    + destruct D as (_ & _ & _ & D). destruct es as [|a es].
      * destruct D as (D1 & D2 & D3). rewrite D1, D2, D3. split; [exact P|]. rewrite S. reflexivity.
      * destruct D as (D1 & D2 & _). rewrite D2. split; [exact D1|]. unfold seg_of. rewrite S. destruct (first_use 0 (a :: es)) as [k|]; [reflexivity|]. cbn [option_map length app]. rewrite app_length. cbn [length]. now rewrite Nat.add_1_r.
    + destruct D as (D1 & D2 & D3 & D4 & D5 & D6). rewrite D4, D5, D6. split; [exact P|]. rewrite S. now destruct (first_use 0 es).
Qed.

(* existence and errors *)
Lemma map_res_all {X Y} (f : X -> res Y) l : (forall x, In x l -> exists y, f x = Ok y) -> exists ys, map_res f l = Ok ys.
Proof.
  induction l as [|x l IH]; intros H; [now exists []|]. destruct (H x (or_introl eq_refl)) as [y E]. destruct IH as [ys E2]; [intros z Hz; apply H; now right|]. exists (y :: ys). cbn [map_res]. now rewrite E, E2.
Qed.
Definition last_two (l : list Qc) : Prop := match rev l with _ :: b :: _ => b <> 0 | _ => True end.
Lemma ratio_total l : last_two l -> exists r, ratio l = Ok r.
Proof. unfold last_two, ratio. destruct (rev l) as [|a [|b t]]; eauto. intros H. destruct (is0 b) eqn:E; [apply is0_true in E; contradiction|eauto]. Qed.
Lemma ratio_zero l : ~ last_two l -> ratio l = Err ZeroDivisionError.
Proof. unfold last_two, ratio. destruct (rev l) as [|a [|b t]]; try (intros H; exfalso; now apply H). intros H. destruct (is0 b) eqn:E; [reflexivity|]. apply is0_false in E. contradiction. Qed.
Lemma step_result n es s e : (c_dt c <> 0)%Z -> length stab = n -> wf n (es ++ [e]) -> inv n es s ->
  if due_at e && (1 <=? length es)%nat then
    if (1 <=? n)%nat && (c_n c =? 0)%nat then step psd rej stab c s e = Err ValueError
    else (last_two (opticals (es ++ [e])) -> exists s', step psd rej stab c s e = Ok s') /\ (~ last_two (opticals (es ++ [e])) -> step psd rej stab c s e = Err ZeroDivisionError)
  else exists s', step psd rej stab c s e = Ok s'.
Proof.
  intros Hdt Ls W (I1 & I2 & I3 & I4 & I5 & I6 & I7 & I8). unfold step. rewrite due_spec by exact Hdt. cbn [bind].
  match goal with |- context [optimize _ _ _ _ ?x] => set (s1 := x) end.
  assert (O1 : o_optical s1 = opticals (es ++ [e])).
  { unfold s1. cbn [o_optical]. rewrite I3. unfold opticals. rewrite flat_map_app. cbn [flat_map]. destruct (e_optical e); [reflexivity|now rewrite !app_nil_r]. }
  assert (J1 : length (o_delta s1) = S (length es)) by (unfold s1; cbn [o_delta]; now rewrite app_length, I1, map_length, Nat.add_1_r).
  destruct (due_at e); cbn [andb]; [|eauto]. destruct es as [|a es].
  - rewrite optimize_short by (rewrite J1; apply Nat.lt_1_2). cbn [bind Nat.leb length]. eauto.
  - change (1 <=? length (a :: es))%nat with true. cbv iota. unfold optimize. rewrite J1, O1.
    replace (S (length (a :: es)) <? 2)%nat with false by (symmetry; apply Nat.ltb_ge; cbn [length]; do 2 apply le_n_S; apply Nat.le_0_l). cbv zeta.
    replace (length (o_gain s1)) with n by (symmetry; exact I6).
    match goal with |- context [map_res (fun m => single psd rej c ?sg ?o m _ _) _] => set (old := o); set (seg := sg) in * end.
    match goal with |- context [map_res ?f ?l] => set (F := f); set (L := l) end.
    assert (HO : c_mean c = true -> old = Some (zeros n seg)).
    { intros Hm. unfold old, seg. rewrite Hm. unfold s1. cbn [o_seg o_psd]. destruct (o_seg s) as [k|] eqn:Es; [now rewrite (I8 k)|rewrite I7 by reflexivity; reflexivity]. }
    assert (FX : forall m, match c_n c with O => F m = Err ValueError | _ => exists y, F m = Ok y end).
    { intros m. unfold F. rewrite (single_plain _ _ n) by exact HO. match goal with |- context [single _ _ plain ?a None ?b ?x ?g] => assert (SL := single_law a b x g) end. destruct (c_n c); [exact SL|]. destruct SL as (k & _ & SL). eauto. }
    destruct (c_n c) as [|N] eqn:En.
    + destruct n as [|n'].
      * cbn [Nat.leb andb]. change L with (@nil nat). cbn [map_res bind]. split; intros H; [destruct (ratio_total _ H) as [r Hr]; rewrite Hr; cbn [bind]; eauto|rewrite (ratio_zero _ H); reflexivity].
      * cbn [Nat.leb andb Nat.eqb]. unfold L. cbn [seq map_res]. rewrite (FX 0%nat). reflexivity.
    + replace ((1 <=? n)%nat && (S N =? 0)%nat) with false by (cbn [Nat.eqb]; now rewrite andb_false_r).
      destruct (map_res_all F L) as [best EB]; [intros m _; apply FX|]. rewrite EB. cbn [bind]. split; intros H; [destruct (ratio_total _ H) as [r Hr]; rewrite Hr; cbn [bind]; eauto|rewrite (ratio_zero _ H); reflexivity].
Qed.
End Sess.

Lemma map_res_ext {X Y} (f g : X -> res Y) l : (forall x, f x = g x) -> map_res f l = map_res g l.
Proof. intros H. induction l as [|x l IH]; [reflexivity|]. cbn [map_res]. now rewrite H, IH. Qed.
Section Mean.
Variable psd : nat -> list Qc -> list Qc.
Variable rej : nat -> nat -> Qc -> list Qc.
Variable stab : list Qc.
Variable c : config.
Hypothesis Hpsd : forall seg x, length (psd seg x) = (seg / 2 + 1)%nat.
Hypothesis Hrej : forall seg m g, length (rej seg m g) = (seg / 2 + 1)%nat.
Definition sim (s t : opt) : Prop :=
  o_delta s = o_delta t /\ o_comm s = o_comm t /\ o_optical s = o_optical t /\ o_seg s = o_seg t /\ o_prev s = o_prev t /\ o_value s = o_value t /\
  o_time s = o_time t /\ o_done s = o_done t /\ o_gain s = o_gain t.
Definition same (a b : res opt) : Prop := match a, b with Ok s, Ok t => sim s t | Err x, Err y => x = y | _, _ => False end.
Lemma optimize_sim n es s t : inv c n es s -> sim s t -> same (optimize psd rej stab c s) (optimize psd rej stab (plain c) t).
Proof.
  intros (I1 & I2 & I3 & I4 & I5 & I6 & I7 & I8) (S1 & S2 & S3 & S4 & S5 & S6 & S7 & S8 & S9). unfold optimize. rewrite <- S1, <- S2, <- S3, <- S4, <- S5, <- S9.
  destruct (length (o_delta s) <? 2)%nat; [cbn; unfold sim; repeat split; assumption|]. cbv zeta. cbn [plain c_mean c_limit c_inc c_safety].
  change (gmaxs stab (plain c) (o_gain s)) with (gmaxs stab c (o_gain s)).
  match goal with |- context [map_res (fun m => single psd rej c ?sg ?o m _ _) _] => set (seg := sg); set (old := o) end.
  assert (HO : c_mean c = true -> old = Some (zeros n seg)).
  { intros Hm. unfold old, seg. rewrite Hm, I6. destruct (o_seg s) as [k|] eqn:Es; [now rewrite (I8 k)|rewrite I7 by reflexivity; reflexivity]. }
  rewrite (map_res_ext (fun m => single psd rej c seg old m _ _) (fun m => single psd rej (plain c) seg (o_psd t) m (map (fun row => nth m row 0) (pseudo (o_delta s) (o_comm s))) (nth m (gmaxs stab c (o_gain s)) 0))).
  2: { intros m. rewrite (single_plain _ _ c Hpsd Hrej seg old n) by exact HO. reflexivity. }
  destruct (map_res _ _) as [best|x]; cbn [bind]; [|reflexivity]. destruct (ratio (o_optical s)) as [r|x]; cbn [bind]; [|reflexivity].
  cbn [same]. unfold sim. cbn [o_delta o_comm o_optical o_seg o_psd o_prev o_value o_time o_done o_gain]. repeat split; assumption.
Qed.
End Mean.
