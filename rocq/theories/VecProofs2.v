From Coq Require Import List ZArith Bool Lia PeanoNat.
From Verif Require Import PyBase PyLemmas Arith ArithLemmas NpModel NpSpec NpProofs NpSegments VecModel VecSpec VecProofs.
Import ListNotations.

Lemma fold_res_snoc {S I} (f : S -> I -> res S) is i : forall s, fold_res f s (is ++ [i]) = (s1 <- fold_res f s is ;; f s1 i).
Proof.
  induction is as [|j is IH]; intros s; cbn [app fold_res bind].
  - now destruct (f s i).
  - destruct (f s j) as [s1|e]; cbn [bind]; [apply IH|reflexivity].
Qed.

(* --------------------------------------------------------------- operations *)
Section Op.
Context {A : arith}.
Variables mx mn : A -> A -> A.
Local Open Scope ar_scope.
Notation trigger := (op_trigger mx mn).

Lemma op_fun_result op : two_inputs op -> op_fun op = Some (@op_result A op).
Proof. intros [-> | [-> | [-> | ->]]]; reflexivity. Qed.

Lemma bcast_same (f : A -> A -> A) u v : length u = length v -> bcast f u v = Ok (map2 f u v).
Proof. intros H. unfold bcast. now rewrite H, Nat.eqb_refl. Qed.

(* one trigger of a two-input operation, once the second vector has been laid out *)
Lemma trigger_two (c : op_cfg A) st (v1 w : vec A) b : no_consts c -> two_inputs (o_op c) ->
  match o_layout c with
  | Shorter => assign_slice (os_v2 st) (mkSlice None (Some (zlen w)) None) w
  | Remap is => assign_list (os_v2 st) is w
  | Same => assign_all (os_v2 st) w
  end = Ok b -> length b = length v1 -> length (os_out st) = length v1 ->
  trigger c st v1 (Some w) = Ok (mkOpSt (map2 (op_result (o_op c)) v1 b) b).
Proof.
  intros (N1 & N2 & N3 & N4) T E Lb Lo. unfold op_trigger. rewrite N1, N2, N3, N4.
  pose proof (op_fun_result _ T) as F.
  assert (R : (b0 <- match o_layout c with
             | Shorter => assign_slice (os_v2 st) (mkSlice None (Some (zlen w)) None) w
             | Remap is => assign_list (os_v2 st) is w
             | Same => assign_all (os_v2 st) w
             end ;;
        match op_fun (o_op c) with
        | None => Err ValueError
        | Some f => r <- bcast f v1 b0 ;; o <- assign_all (os_out st) r ;; Ok (mkOpSt o b0)
        end) = Ok (mkOpSt (map2 (op_result (o_op c)) v1 b) b)).
  { rewrite E. cbn [bind]. rewrite F. rewrite bcast_same by congruence. cbn [bind].
    rewrite assign_all_ok by (rewrite map2_length; lia). reflexivity. }
  destruct T as [O | [O | [O | O]]]; rewrite O in *; exact R.
Qed.

Lemma setup_two junk (c : op_cfg A) v1 w : two_inputs (o_op c) ->
  op_setup junk c v1 (Some w) = Ok (mkOpSt (repeat junk (length v1)) (repeat (filler (o_op c)) (length v1))).
Proof.
  intros T. unfold op_setup. destruct T as [-> | [-> | [-> | ->]]];
    destruct (o_cmul c), (o_csum c), (o_cmax c), (o_cmin c); reflexivity.
Qed.

Theorem op_same junk (c : op_cfg A) a b st ins (v1 w : vec A) st' : no_consts c -> two_inputs (o_op c) -> o_layout c = Same ->
  op_setup junk c a (Some b) = Ok st ->
  (forall i, In i (ins ++ [(v1, Some w)]) -> length (fst i) = length a /\ exists x, snd i = Some x /\ length x = length a) ->
  op_run mx mn c st (ins ++ [(v1, Some w)]) = Ok st' -> os_out st' = map2 (op_result (o_op c)) v1 w.
Proof.
  intros N T L S H. rewrite setup_two in S by exact T. injection S as <-. unfold op_run. rewrite fold_res_snoc. intros R. inv_bind R.
  rename a0 into s1. cbn [fst snd] in R.
  assert (G : forall ins s s1, length (os_out s) = length a -> length (os_v2 s) = length a ->
     (forall i, In i ins -> length (fst i) = length a /\ exists x, snd i = Some x /\ length x = length a) ->
     fold_res (fun st i => trigger c st (fst i) (snd i)) s ins = Ok s1 -> length (os_out s1) = length a /\ length (os_v2 s1) = length a).
  { clear - N T L. induction ins as [|i ins IH]; intros s s1 Lo Lv H F; cbn [fold_res] in F; [injection F as <-; auto|].
    destruct (H i (or_introl eq_refl)) as (Li & x & Ex & Lx). rewrite Ex in F.
    rewrite (trigger_two c s (fst i) x x) in F; [|exact N|exact T|rewrite L; apply assign_all_ok; congruence|congruence|congruence].
    cbn [bind] in F. apply (IH _ _) in F; [exact F| | |intros j Hj; apply H; now right]; cbn [os_out os_v2];
      rewrite ?map2_length; lia. }
  destruct (G ins (mkOpSt (repeat junk (length a)) (repeat (filler (o_op c)) (length a))) s1) as [Lo Lv]; cbn [os_out os_v2]; auto using repeat_length.
  { intros i Hi. apply H, in_or_app. now left. }
  destruct (H (v1, Some w) ltac:(apply in_or_app; right; now left)) as (L1 & x & Ex & Lx). cbn in L1, Ex. injection Ex as <-.
  rewrite (trigger_two c s1 v1 w w) in R; [|exact N|exact T|rewrite L; apply assign_all_ok; congruence|congruence|congruence].
  injection R as <-. reflexivity.
Qed.

Lemma repeat_skip {X} (x : X) n m : skipn m (repeat x n) = repeat x (n - m).
Proof. revert n. induction m as [|m IH]; intros [|n]; cbn; auto. Qed.

Theorem op_shorter junk (c : op_cfg A) a b st ins (v1 w : vec A) m st' : no_consts c -> two_inputs (o_op c) -> o_layout c = Shorter ->
  op_setup junk c a (Some b) = Ok st -> (m <= length a)%nat ->
  (forall i, In i (ins ++ [(v1, Some w)]) -> length (fst i) = length a /\ exists x, snd i = Some x /\ length x = m) ->
  op_run mx mn c st (ins ++ [(v1, Some w)]) = Ok st' ->
  os_out st' = map2 (op_result (o_op c)) v1 (w ++ repeat (filler (o_op c)) (length a - m)).
Proof.
  intros N T L S Hm H. rewrite setup_two in S by exact T. injection S as <-. unfold op_run. rewrite fold_res_snoc. intros R. inv_bind R.
  rename a0 into s1. cbn [fst snd] in R. set (fill := filler (o_op c)) in *.
  assert (P : forall s (i : vec A * option (vec A)) x, length (os_out s) = length a -> length (os_v2 s) = length a -> skipn m (os_v2 s) = repeat fill (length a - m) ->
     length (fst i) = length a -> length x = m ->
     trigger c s (fst i) (Some x) = Ok (mkOpSt (map2 (op_result (o_op c)) (fst i) (x ++ repeat fill (length a - m))) (x ++ repeat fill (length a - m)))).
  { intros s i x Lo Lv K Li Lx. apply trigger_two; auto.
    - rewrite L. rewrite assign_prefix by lia. now rewrite Lx, K.
    - rewrite app_length, repeat_length. lia.
    - congruence. }
  assert (G : forall ins s s1, length (os_out s) = length a -> length (os_v2 s) = length a -> skipn m (os_v2 s) = repeat fill (length a - m) ->
     (forall i, In i ins -> length (fst i) = length a /\ exists x, snd i = Some x /\ length x = m) ->
     fold_res (fun st i => trigger c st (fst i) (snd i)) s ins = Ok s1 ->
     length (os_out s1) = length a /\ length (os_v2 s1) = length a /\ skipn m (os_v2 s1) = repeat fill (length a - m)).
  { clear - P Hm. induction ins as [|i ins IH]; intros s s1 Lo Lv K H F; cbn [fold_res] in F; [injection F as <-; auto|].
    destruct (H i (or_introl eq_refl)) as (Li & x & Ex & Lx). rewrite Ex, P in F by auto. cbn [bind] in F.
    apply (IH _ _) in F; [exact F| | | |intros j Hj; apply H; now right]; cbn [os_out os_v2].
    - rewrite map2_length, app_length, repeat_length. lia.
    - rewrite app_length, repeat_length. lia.
    - rewrite <- Lx, skipn_app, skipn_all, Nat.sub_diag. reflexivity. }
  destruct (G ins (mkOpSt (repeat junk (length a)) (repeat fill (length a))) s1) as (Lo & Lv & K); cbn [os_out os_v2]; auto using repeat_length, repeat_skip.
  { intros i Hi. apply H, in_or_app. now left. }
  destruct (H (v1, Some w) ltac:(apply in_or_app; right; now left)) as (L1 & x & Ex & Lx). cbn in L1, Ex. injection Ex as <-.
  specialize (P s1 (v1, Some w) w Lo Lv K L1 Lx). cbn [fst] in P. rewrite P in R. injection R as <-. reflexivity.
Qed.

(* remapped second vector *)
Lemma assign_list_ok (l : vec A) is ps x : Forall2 (denotes (zlen l)) is ps -> length x = length is ->
  assign_list l is x = Ok (scatter l (combine ps x)).
Proof.
  intros H L. unfold assign_list. pose proof (Forall2_len _ _ _ H) as L2. apply index_list_ok in H; [|apply zlen_nonneg]. rewrite H. cbn [bind].
  rewrite assign_fits, fits_size by congruence. reflexivity.
Qed.

Theorem op_remap junk (c : op_cfg A) a b st ins (v1 w : vec A) is ps st' : no_consts c -> two_inputs (o_op c) -> o_layout c = Remap is ->
  Forall2 (denotes (zlen a)) is ps ->
  op_setup junk c a (Some b) = Ok st ->
  (forall i, In i (ins ++ [(v1, Some w)]) -> length (fst i) = length a /\ exists x, snd i = Some x /\ length x = length is) ->
  op_run mx mn c st (ins ++ [(v1, Some w)]) = Ok st' ->
  (forall q x, (0 <= q)%Z -> nth_error v1 (Z.to_nat q) = Some x -> ~ In q ps -> nth_error (os_out st') (Z.to_nat q) = Some (op_result (o_op c) x (filler (o_op c)))) /\
  (forall q x j y, nth_error v1 (Z.to_nat q) = Some x -> nth_error ps j = Some q -> (forall i, (j < i)%nat -> nth_error ps i <> Some q) ->
     nth_error w j = Some y -> nth_error (os_out st') (Z.to_nat q) = Some (op_result (o_op c) x y)).
Proof.
  intros N T L D S H. rewrite setup_two in S by exact T. injection S as <-. unfold op_run. rewrite fold_res_snoc. intros R. inv_bind R.
  rename a0 into s1. cbn [fst snd] in R. set (fill := filler (o_op c)) in *.
  assert (Rg : forall p, In p ps -> (0 <= p < zlen a)%Z) by (apply (denotes_range _ is); exact D).
  assert (P : forall s (i : vec A * option (vec A)) x, length (os_out s) = length a -> length (os_v2 s) = length a ->
     length (fst i) = length a -> length x = length is ->
     trigger c s (fst i) (Some x) = Ok (mkOpSt (map2 (op_result (o_op c)) (fst i) (scatter (os_v2 s) (combine ps x))) (scatter (os_v2 s) (combine ps x)))).
  { intros s i x Lo Lv Li Lx. apply trigger_two; auto.
    - rewrite L. apply assign_list_ok; [|exact Lx]. unfold zlen in *. rewrite Lv. exact D.
    - rewrite scatter_length. congruence.
    - congruence. }
  assert (G : forall ins s s1, length (os_out s) = length a -> length (os_v2 s) = length a ->
     (forall i, In i ins -> length (fst i) = length a /\ exists x, snd i = Some x /\ length x = length is) ->
     fold_res (fun st i => trigger c st (fst i) (snd i)) s ins = Ok s1 ->
     length (os_out s1) = length a /\ length (os_v2 s1) = length a /\
     (forall q, (0 <= q)%Z -> ~ In q ps -> nth_error (os_v2 s1) (Z.to_nat q) = nth_error (os_v2 s) (Z.to_nat q))).
  { clear - P Rg. induction ins as [|i ins IH]; intros s s1 Lo Lv H F; cbn [fold_res] in F; [injection F as <-; auto|].
    destruct (H i (or_introl eq_refl)) as (Li & x & Ex & Lx). rewrite Ex, P in F by auto. cbn [bind] in F.
    apply (IH _ _) in F.
    - destruct F as (F1 & F2 & F3). split; [exact F1|]. split; [exact F2|]. intros q Hq Nq. rewrite F3 by auto. cbn [os_v2].
      apply scatter_other; [intros v Hv; apply in_combine_l in Hv; auto| |exact Hq]. intros p v Hv. apply in_combine_l in Hv. apply Rg. exact Hv.
    - cbn [os_out]. rewrite map2_length, scatter_length. lia.
    - cbn [os_v2]. now rewrite scatter_length.
    - intros j Hj. apply H. now right. }
  destruct (G ins (mkOpSt (repeat junk (length a)) (repeat fill (length a))) s1) as (Lo & Lv & K); cbn [os_out os_v2]; auto using repeat_length.
  { intros i Hi. apply H, in_or_app. now left. }
  cbn [os_v2] in K.
  destruct (H (v1, Some w) ltac:(apply in_or_app; right; now left)) as (L1 & x & Ex & Lx). cbn in L1, Ex. injection Ex as <-.
  specialize (P s1 (v1, Some w) w Lo Lv L1 Lx). cbn [fst] in P. rewrite P in R. injection R as <-. cbn [os_out].
  assert (M2 : forall (u v : vec A) k x y, nth_error u k = Some x -> nth_error v k = Some y ->
     nth_error (map2 (op_result (o_op c)) u v) k = Some (op_result (o_op c) x y)).
  { clear. induction u as [|p u IH]; intros [|q v] [|k] x y H1 H2; try discriminate; cbn in *; [congruence|]. now apply IH. }
  split.
  - intros q x Hq Hx Nq. apply M2; [exact Hx|]. rewrite scatter_other.
    + rewrite K by auto. assert (Z.to_nat q < length a)%nat by (rewrite <- L1; apply nth_error_Some; congruence).
      rewrite (nth_error_nth' _ fill) by (rewrite repeat_length; assumption). f_equal. apply nth_repeat_same.
    + intros v Hv. apply in_combine_l in Hv. auto.
    + intros p v Hv. apply in_combine_l in Hv. now apply Rg.
    + exact Hq.
  - intros q x j y Hx Hj Hl Hy. apply M2; [exact Hx|]. rewrite (combine_split ps w j q y Hj Hy). apply scatter_last.
    + unfold zlen. rewrite Lv. apply Rg. now apply nth_error_In with j.
    + intros v Hv. apply in_combine_l in Hv. apply In_nth_error in Hv as [i Hi]. rewrite nth_skipn in Hi. apply (Hl (Datatypes.S j + i)%nat); [lia|exact Hi].
    + intros p v Hv. apply in_combine_l in Hv. assert (In p ps); [|now apply Rg].
      rewrite <- (firstn_skipn (Datatypes.S j) ps). apply in_or_app. now right.
Qed.

Theorem op_concat junk (c : op_cfg A) a b st ins (v1 w : vec A) st' : no_consts c -> o_op c = OpConcat ->
  op_setup junk c a (Some b) = Ok st ->
  (forall i, In i (ins ++ [(v1, Some w)]) -> length (fst i) = length a /\ exists x, snd i = Some x /\ length x = length b) ->
  op_run mx mn c st (ins ++ [(v1, Some w)]) = Ok st' -> os_out st' = v1 ++ w.
Proof.
  intros (N1 & N2 & N3 & N4) O S H. unfold op_setup in S. rewrite N1, N2, N3, N4, O in S. injection S as <-.
  assert (P : forall s (v x : vec A), length (os_out s) = (length a + length b)%nat -> length v = length a -> length x = length b ->
     trigger c s v (Some x) = Ok (mkOpSt (v ++ x) (os_v2 s))).
  { intros s v x Lo Lv Lx. unfold op_trigger. rewrite N1, N2, N3, N4, O. rewrite assign_prefix by lia. cbn [bind].
    unfold zlen. rewrite assign_suffix by (rewrite app_length, skipn_length; lia). cbn [bind].
    rewrite firstn_app, firstn_all, Nat.sub_diag. cbn [firstn]. rewrite app_nil_r. reflexivity. }
  unfold op_run. rewrite fold_res_snoc. intros R. inv_bind R. rename a0 into s1. cbn [fst snd] in R.
  assert (G : forall ins s s1, length (os_out s) = (length a + length b)%nat ->
     (forall i, In i ins -> length (fst i) = length a /\ exists x, snd i = Some x /\ length x = length b) ->
     fold_res (fun st i => trigger c st (fst i) (snd i)) s ins = Ok s1 -> length (os_out s1) = (length a + length b)%nat).
  { clear - P. induction ins as [|i ins IH]; intros s s1 Lo H F; cbn [fold_res] in F; [now injection F as <-|].
    destruct (H i (or_introl eq_refl)) as (Li & x & Ex & Lx). rewrite Ex, P in F by auto. cbn [bind] in F.
    apply (IH _ _) in F; [exact F| |intros j Hj; apply H; now right]. cbn [os_out]. rewrite app_length. lia. }
  assert (Lo : length (os_out s1) = (length a + length b)%nat).
  { apply (G ins _ s1) in E; [exact E|cbn [os_out]; apply repeat_length|]. intros i Hi. apply H, in_or_app. now left. }
  destruct (H (v1, Some w) ltac:(apply in_or_app; right; now left)) as (L1 & x & Ex & Lx). cbn in L1, Ex. injection Ex as <-.
  rewrite P in R by auto. injection R as <-. reflexivity.
Qed.

(* constants: which one is used *)
Theorem op_constant (c : op_cfg A) st (v1 : vec A) v2 : length (os_out st) = length v1 ->
  (forall k, o_cmul c = Some (CScalar k) -> exists s, trigger c st v1 v2 = Ok s /\ os_out s = map (fun x => x * k) v1) /\
  (forall k, o_cmul c = Some (CVec k) -> length k = length v1 -> exists s, trigger c st v1 v2 = Ok s /\ os_out s = map2 mul v1 k) /\
  (forall k, o_cmul c = None -> o_csum c = Some (CScalar k) -> exists s, trigger c st v1 v2 = Ok s /\ os_out s = map (fun x => x + k) v1) /\
  (forall k, o_cmul c = None -> o_csum c = Some (CVec k) -> length k = length v1 -> exists s, trigger c st v1 v2 = Ok s /\ os_out s = map2 add v1 k) /\
  (forall k, o_cmul c = None -> o_csum c = None -> o_cmax c = Some k -> exists s, trigger c st v1 v2 = Ok s /\ os_out s = map (fun x => mx x k) v1) /\
  (forall k, o_cmul c = None -> o_csum c = None -> o_cmax c = None -> o_cmin c = Some k -> exists s, trigger c st v1 v2 = Ok s /\ os_out s = map (fun x => mn x k) v1).
Proof.
  intros L. unfold op_trigger. split; [|split; [|split; [|split; [|split]]]].
  - intros k ->. cbn [with_const bind]. rewrite assign_all_ok by (rewrite map_length; auto). eexists. split; [reflexivity|]. reflexivity.
  - intros k -> Lk. cbn [with_const bind]. rewrite bcast_same by congruence. cbn [bind]. rewrite assign_all_ok by (rewrite map2_length; lia).
    eexists. split; [reflexivity|]. reflexivity.
  - intros k -> ->. cbn [with_const bind]. rewrite assign_all_ok by (rewrite map_length; auto). eexists. split; [reflexivity|]. reflexivity.
  - intros k -> -> Lk. cbn [with_const bind]. rewrite bcast_same by congruence. cbn [bind]. rewrite assign_all_ok by (rewrite map2_length; lia).
    eexists. split; [reflexivity|]. reflexivity.
  - intros k -> -> ->. eexists. split; [reflexivity|]. reflexivity.
  - intros k -> -> -> ->. eexists. split; [reflexivity|]. reflexivity.
Qed.
End Op.

(* -------------------------------------------------------------- combinators *)
Section Comb.
Context {A : arith}.
Local Open Scope ar_scope.

Lemma slice2_seg (v : vec A) (a b : nat) : take_slice v (slice2 (Z.of_nat a) (Z.of_nat b)) = Ok (firstn (b - a) (skipn a v)).
Proof.
  unfold slice2. rewrite take_segment; [|intros x E; injection E as <-; lia|intros x E; injection E as <-; lia].
  cbn [obound]. now rewrite !Nat2Z.id.
Qed.

Lemma matvec_ok (M : mat A) v : (forall r, In r M -> length r = length v) -> matvec M v = Ok (mv M v).
Proof.
  intros H. unfold matvec. destruct (forallb _ M) eqn:E; [reflexivity|]. exfalso.
  assert (Q : forallb (fun r => Nat.eqb (length r) (length v)) M = true); [|congruence].
  apply forallb_forall. intros r Hr. apply Nat.eqb_eq. now apply H.
Qed.

(* the configuration in use: no second chunk of low-order commands, and as many focus
   commands as the size says *)
Theorem comb_places (c : comb_cfg A) (l1 l3 f n1 n2 n3 p : nat) o1 o2 o3 (lo1 lo3 ho1 ho2 ho3 xF xP : vec A) :
  cc_LO1 c = Z.of_nat l1 -> cc_LO2 c = 0%Z -> cc_LO3 c = Z.of_nat l3 -> cc_F c = Z.of_nat f -> cc_P c = Z.of_nat p ->
  cc_out1 c = Z.of_nat n1 -> cc_out2 c = Z.of_nat n2 -> cc_out3 c = Z.of_nat n3 ->
  length o1 = n1 -> length o2 = n2 -> length o3 = n3 ->
  (l1 + f <= n1)%nat -> (l1 + l3 <= n1)%nat -> (l3 <= n3)%nat ->
  length lo1 = l1 -> length lo3 = l3 -> length xF = f -> length xP = p -> length (cc_k c) = l3 ->
  length ho1 = (n1 - l1 - f)%nat -> length ho2 = n2 -> length ho3 = (n3 - l3)%nat ->
  (0 < p -> n1 <= length (cc_A c))%nat -> (forall r, In r (cc_A c) -> length r = p) ->
  exists y1, comb_trigger c (o1, o2, o3) (ho1 ++ ho2 ++ ho3) (lo1 ++ lo3) xF xP = Ok (y1, ho2, lo3 ++ ho3) /\
    y1 = (let y := vadd (lo1 ++ xF ++ ho1) (zeros l1 ++ vmul (cc_k c) lo3 ++ zeros (n1 - l1 - l3)) in
          if (0 <? p)%nat then vadd y (mv (firstn n1 (cc_A c)) xP) else y).
Proof.
  intros E1 E2 E3 EF EP EO1 EO2 EO3 Lo1 Lo2 Lo3 C1 C2 C3 L1 L3 LF LP Lk H1 H2 H3 HA HR.
  unfold comb_trigger. rewrite E1, E2, E3, EF, EP, EO1, EO2, EO3.
  replace (Z.of_nat n1 - Z.of_nat l1 - Z.of_nat f)%Z with (Z.of_nat (n1 - l1 - f)) by lia.
  replace (Z.of_nat n2 - 0)%Z with (Z.of_nat n2) by lia.
  replace (Z.of_nat n3 - Z.of_nat l3)%Z with (Z.of_nat (n3 - l3)) by lia.
  replace (Z.of_nat l1 + 0)%Z with (Z.of_nat l1) by lia.
  rewrite <- !Nat2Z.inj_add. change 0%Z with (Z.of_nat 0).
  rewrite !slice2_seg. cbn [bind]. rewrite !Nat.sub_0_r.
  assert (Q1 : firstn l1 (skipn 0 (lo1 ++ lo3)) = lo1).
  { cbn [skipn]. rewrite <- L1. rewrite firstn_app, firstn_all, Nat.sub_diag. cbn [firstn]. apply app_nil_r. }
  assert (Q3 : firstn (l1 + l3 - l1) (skipn l1 (lo1 ++ lo3)) = lo3).
  { rewrite <- L1. rewrite skipn_app, skipn_all, Nat.sub_diag. cbn [skipn app]. apply firstn_all2. lia. }
  assert (R1 : firstn (n1 - l1 - f) (skipn 0 (ho1 ++ ho2 ++ ho3)) = ho1).
  { cbn [skipn]. rewrite <- H1. rewrite firstn_app, firstn_all, Nat.sub_diag. cbn [firstn]. apply app_nil_r. }
  assert (R2 : firstn (n1 - l1 - f + n2 - (n1 - l1 - f)) (skipn (n1 - l1 - f) (ho1 ++ ho2 ++ ho3)) = ho2).
  { rewrite <- H1. rewrite skipn_app, skipn_all, Nat.sub_diag. cbn [skipn app].
    replace (length ho1 + n2 - length ho1)%nat with (length ho2) by lia.
    rewrite firstn_app, firstn_all, Nat.sub_diag. cbn [firstn]. apply app_nil_r. }
  assert (R3 : firstn (n1 - l1 - f + n2 + (n3 - l3) - (n1 - l1 - f + n2)) (skipn (n1 - l1 - f + n2) (ho1 ++ ho2 ++ ho3)) = ho3).
  { rewrite <- H1, <- H2. rewrite app_assoc, <- app_length. rewrite skipn_app, skipn_all, Nat.sub_diag. cbn [skipn app].
    apply firstn_all2. rewrite app_length. lia. }
  rewrite Q1, Q3, R1, R2, R3. rewrite bcast_same by congruence. cbn [bind].
  replace (Z.to_nat (Z.of_nat l1)) with l1 by lia.
  replace (Z.to_nat (Z.of_nat n1 - Z.of_nat l1 - Z.of_nat l3)) with (n1 - l1 - l3)%nat by lia.
  assert (LA : length (lo1 ++ xF ++ ho1) = n1) by (rewrite !app_length; lia).
  assert (LB : length (zeros l1 ++ map2 mul (cc_k c) lo3 ++ zeros (n1 - l1 - l3)) = n1).
  { rewrite !app_length, map2_length. unfold zeros. rewrite !repeat_length. lia. }
  rewrite bcast_same by congruence. cbn [bind].
  set (y := map2 add (lo1 ++ xF ++ ho1) (zeros l1 ++ map2 mul (cc_k c) lo3 ++ zeros (n1 - l1 - l3))).
  assert (Ly : length y = n1) by (unfold y; rewrite map2_length; lia).
  change (Z.of_nat 0) with 0%Z.
  destruct (Nat.ltb_spec 0 p) as [Hp|Hp].
  - replace (0 <? Z.of_nat p)%Z with true by (symmetry; apply Z.ltb_lt; lia).
    rewrite take_segment; [|discriminate|intros x E; injection E as <-; lia]. cbn [obound bind skipn]. rewrite Nat2Z.id, Nat.sub_0_r.
    specialize (HA Hp).
    assert (HR' : forall r, In r (firstn n1 (cc_A c)) -> length r = length xP).
    { intros r Hr. rewrite LP. apply HR. rewrite <- (firstn_skipn n1 (cc_A c)). apply in_or_app. now left. }
    rewrite matvec_ok by exact HR'. cbn [bind].
    assert (Lm : length (mv (firstn n1 (cc_A c)) xP) = n1) by (unfold mv; rewrite map_length, firstn_length; lia).
    rewrite bcast_same by congruence. cbn [bind]. rewrite assign_all_ok by (rewrite map2_length; lia). cbn [bind].
    rewrite assign_all_ok by (rewrite map2_length; lia). cbn [bind]. rewrite assign_all_ok by congruence. cbn [bind].
    rewrite assign_all_ok by (rewrite app_length; lia). cbn [bind]. eexists. split; [reflexivity|]. reflexivity.
  - replace (0 <? Z.of_nat p)%Z with false by (symmetry; apply Z.ltb_ge; lia). cbn [bind].
    rewrite assign_all_ok by congruence. cbn [bind]. rewrite assign_all_ok by congruence. cbn [bind].
    rewrite assign_all_ok by (rewrite app_length; lia). cbn [bind]. eexists. split; [reflexivity|]. reflexivity.
Qed.

(* linear combination: number of inputs *)
Theorem lc_inputs (c : lc_cfg A) n : lc_check c n = Ok tt <->
  n = (2 + (if lc_no_focus c then 0 else 1) + (if lc_no_lift c then 0 else 1))%nat.
Proof.
  unfold lc_check. destruct n as [|[|[|[|[|n]]]]]; destruct (lc_no_focus c), (lc_no_lift c); cbn; split; intros H; try discriminate H; try reflexivity.
Qed.

Lemma slice2_take (v : vec A) (a b : Z) (n m : nat) : a = Z.of_nat n -> b = Z.of_nat m ->
  take_slice v (slice2 a b) = Ok (firstn (m - n) (skipn n v)).
Proof. intros -> ->. apply slice2_seg. Qed.
Lemma slice2_assign (v w : vec A) (a : Z) (n : nat) k : a = Z.of_nat n -> (n + length w <= length v)%nat -> k = (a + zlen w)%Z ->
  assign_slice v (slice2 a k) w = Ok (firstn n v ++ w ++ skipn (n + length w) v).
Proof.
  intros -> H ->. unfold slice2, zlen. rewrite assign_segment; [|intros x E; injection E as <-; lia|intros x E; injection E as <-; lia].
  cbn [obound]. rewrite <- Nat2Z.inj_add, !Nat2Z.id. rewrite (Nat.min_l (n + length w)) by lia. rewrite (Nat.min_l n) by lia.
  replace (n + length w - n)%nat with (length w) by lia. rewrite fits_same. cbn [bind]. now rewrite Nat.max_r by lia.
Qed.


Lemma lc_parts (c : lc_cfg A) lgs focus lift ngs out :
  lc_trigger c out (lc_ins c lgs focus lift ngs) =
  (tt2 <- take_slice ngs (slice2 0 2) ;;
   l1 <- assign_slice lgs (slice2 0 2) tt2 ;;
   l2 <- (if lc_no_focus c then Ok l1
          else f <- take1 focus 0 ;; p <- index_pos (zlen l1) 2 ;; assign l1 [p] [f]) ;;
   l3 <- match lc_idx c with
         | None => Ok l2
         | Some k =>
             ps <- take_slice ngs (mkSlice (Some 2%Z) None None) ;;
             d <- bcast mul ps (lc_ps c) ;;
             cur <- take_slice l2 (slice2 2 5) ;;
             e <- bcast sub cur d ;;
             l <- assign_slice l2 (slice2 2 5) e ;;
             assign_slice l (slice2 k (k + 3)) ps
         end ;;
   let l4 := l3 ++ (if lc_no_lift c then [] else lift) in
   assign_slice (zeros (length out)) (mkSlice None (Some (zlen l4)) None) l4).
Proof. unfold lc_trigger, lc_ins. destruct (lc_no_focus c), (lc_no_lift c); reflexivity. Qed.

Lemma lc_out (l out : vec A) : length l = length out ->
  assign_slice (zeros (length out)) (mkSlice None (Some (zlen l)) None) l = Ok l.
Proof.
  intros H. unfold zeros. rewrite assign_prefix by (rewrite repeat_length; lia). rewrite skipn_all2 by (rewrite repeat_length; lia). now rewrite app_nil_r.
Qed.

Lemma lc_setup_length (c : lc_cfg A) lgs focus lift ngs out : lc_setup c (lc_ins c lgs focus lift ngs) = Ok out ->
  length out = length (lgs ++ (if lc_no_lift c then [] else lift)).
Proof.
  unfold lc_setup, lc_ins. destruct (lc_no_focus c) eqn:F, (lc_no_lift c) eqn:L; cbn [app length nth_res nth_error]; intros H; inv_bind H;
    cbn [nth_res nth_error bind] in H; injection H as <-; rewrite app_length; unfold zeros; rewrite repeat_length; cbn; lia.
Qed.

Lemma lc_focus (c : lc_cfg A) (a0 a1 : A) r f focus :
  (lc_no_focus c = false -> r <> [] /\ focus = f :: tl focus) ->
  (if lc_no_focus c then Ok (a0 :: a1 :: r)
   else x <- take1 focus 0 ;; p <- index_pos (zlen (a0 :: a1 :: r)) 2 ;; assign (a0 :: a1 :: r) [p] [x]) =
  Ok (a0 :: a1 :: if lc_no_focus c then r else f :: tl r).
Proof.
  intros H. destruct (lc_no_focus c); [reflexivity|]. destruct (H eq_refl) as [Hr ->]. destruct r as [|x r]; [congruence|].
  unfold take1, index_pos, zlen. cbn [length].
  replace ((0 <? - Z.of_nat (S (length (tl focus)))) || (Z.of_nat (S (length (tl focus))) <=? 0))%Z with false.
  2:{ symmetry. apply orb_false_iff. split; [apply Z.ltb_ge|apply Z.leb_gt]; lia. }
  replace ((2 <? - Z.of_nat (S (S (S (length r))))) || (Z.of_nat (S (S (S (length r)))) <=? 2))%Z with false.
  2:{ symmetry. apply orb_false_iff. split; [apply Z.ltb_ge|apply Z.leb_gt]; lia. }
  reflexivity.
Qed.

Lemma slice2_assign_two (a0 a1 t0 t1 : A) r : assign_slice (a0 :: a1 :: r) (slice2 0 2) [t0; t1] = Ok (t0 :: t1 :: r).
Proof. rewrite (slice2_assign _ _ _ 0); [reflexivity|reflexivity|cbn; lia|reflexivity]. Qed.

(* without plate-scale index *)
Theorem lc_plain (c : lc_cfg A) (a0 a1 : A) r focus f lift t0 t1 tr out :
  let lgs := a0 :: a1 :: r in let ngs := t0 :: t1 :: tr in
  lc_idx c = None -> (lc_no_focus c = false -> r <> [] /\ focus = f :: tl focus) ->
  lc_setup c (lc_ins c lgs focus lift ngs) = Ok out ->
  lc_trigger c out (lc_ins c lgs focus lift ngs) =
  Ok ((t0 :: t1 :: if lc_no_focus c then r else f :: tl r) ++ (if lc_no_lift c then [] else lift)).
Proof.
  intros lgs ngs Hi Hf S. apply lc_setup_length in S. rewrite lc_parts, Hi.
  rewrite (slice2_take _ _ _ 0 2) by reflexivity. cbn [bind skipn firstn Nat.sub ngs].
  unfold lgs at 1. rewrite slice2_assign_two. cbn [bind]. rewrite (lc_focus c t0 t1 r f focus Hf). cbn [bind]. apply lc_out.
  rewrite S. rewrite !app_length. f_equal. destruct (lc_no_focus c); [reflexivity|]. destruct (Hf eq_refl) as [Hr _]. destruct r; [congruence|reflexivity].
Qed.

(* with plate-scale index: three more modes *)
Theorem lc_platescale (c : lc_cfg A) (a0 a1 a2 a3 a4 : A) r focus f lift t0 t1 t2 t3 t4 p0 p1 p2 (k : nat) out :
  let lgs := a0 :: a1 :: a2 :: a3 :: a4 :: r in let ngs := [t0; t1; t2; t3; t4] in
  lc_idx c = Some (Z.of_nat k) -> lc_ps c = [p0; p1; p2] -> (k + 3 <= length lgs)%nat ->
  (lc_no_focus c = false -> focus = f :: tl focus) ->
  lc_setup c (lc_ins c lgs focus lift ngs) = Ok out ->
  let m := t0 :: t1 :: (if lc_no_focus c then a2 else f) - t2 * p0 :: a3 - t3 * p1 :: a4 - t4 * p2 :: r in
  lc_trigger c out (lc_ins c lgs focus lift ngs) =
  Ok ((firstn k m ++ [t2; t3; t4] ++ skipn (k + 3) m) ++ (if lc_no_lift c then [] else lift)).
Proof.
  intros lgs ngs Hi Hp Hk Hf S m. apply lc_setup_length in S. rewrite lc_parts, Hi, Hp.
  rewrite (slice2_take _ _ _ 0 2) by reflexivity. cbn [bind skipn firstn Nat.sub ngs].
  unfold lgs at 1. rewrite slice2_assign_two. cbn [bind]. rewrite (lc_focus c t0 t1 (a2 :: a3 :: a4 :: r) f focus).
  2:{ intros Q. split; [discriminate|now apply Hf]. }
  cbn [bind]. rewrite take_segment; [|intros x E; injection E as <-; lia|discriminate].
  cbn [obound length]. change (Z.to_nat 2) with 2%nat. cbn [skipn firstn Nat.sub bind].
  rewrite bcast_same by reflexivity. cbn [bind map2].
  set (l2 := t0 :: t1 :: (if lc_no_focus c then a2 :: a3 :: a4 :: r else f :: tl (a2 :: a3 :: a4 :: r))).
  assert (E2 : l2 = t0 :: t1 :: (if lc_no_focus c then a2 else f) :: a3 :: a4 :: r) by (unfold l2; destruct (lc_no_focus c); reflexivity).
  rewrite E2. clear l2 E2. rewrite (slice2_take _ _ _ 2 5) by reflexivity. cbn [bind skipn firstn Nat.sub].
  rewrite bcast_same by reflexivity. cbn [bind map2].
  rewrite (slice2_assign _ _ _ 2); [|reflexivity|cbn; lia|reflexivity]. cbn [bind firstn skipn app length Nat.add].
  fold m. assert (Lm : length m = length lgs) by reflexivity.
  rewrite (slice2_assign m [t2; t3; t4] _ k); [|reflexivity|rewrite Lm; cbn in *; lia|unfold zlen; cbn; lia]. cbn [bind length].
  apply lc_out. rewrite S. rewrite !app_length. f_equal. cbn [length]. rewrite firstn_length, skipn_length, Lm. unfold lgs in *. cbn [length] in *. lia.
Qed.
End Comb.
