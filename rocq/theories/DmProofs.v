From Coq Require Import List ZArith Bool Lia PeanoNat Field.
From Verif Require Import PyBase PyLemmas Arith ArithLemmas FilterSpec SumLemmas NpModel NpSpec NpProofs NpSegments VecModel VecProofs VecProofs2 DmModel DmSpec.
Import ListNotations.
Local Open Scope ar_scope.

Section Dm.
Context {A : arith}.
Implicit Types (c : dm_cfg A) (st : dm_state A).

Lemma last_snoc k (hist : list (vec A)) x i :
  last_command k (hist ++ [x]) i = if i <? Nat.min k (length x) then Some (nth i x 0) else last_command k hist i.
Proof. unfold last_command. rewrite rev_app_distr. cbn [rev app find]. destruct (i <? Nat.min k (length x)); reflexivity. Qed.

Lemma take_prefix (v : vec A) k : take_slice v (mkSlice None (Some (Z.of_nat k)) None) = Ok (firstn k v).
Proof.
  rewrite take_segment; [|discriminate|intros x E; injection E as <-; lia]. cbn [obound skipn]. rewrite Nat2Z.id, Nat.sub_0_r. reflexivity.
Qed.

Lemma nth_firstn (l : vec A) k i d : (i < k)%nat -> nth i (firstn k l) d = nth i l d.
Proof. revert k i. induction l as [|x l IH]; intros [|k] [|i] H; cbn; try lia; auto. apply IH. lia. Qed.
Lemma nth_skipn' (l : vec A) k i d : nth i (skipn k l) d = nth (k + i) l d.
Proof. revert k. induction l as [|x l IH]; intros [|k]; cbn; auto. now destruct i. Qed.

(* a buffer of commands: overwriting its head *)
Lemma buffer_step (k n : nat) (f : A -> A) (hist : list (vec A)) (x buf : vec A) : (k <= n)%nat ->
  buf = map (fun i => match last_command k hist i with Some y => f y | None => 0 end) (seq 0 n) ->
  map f (firstn k x) ++ skipn (length (map f (firstn k x))) buf =
  map (fun i => match last_command k (hist ++ [x]) i with Some y => f y | None => 0 end) (seq 0 n).
Proof.
  intros Hk Hb. assert (Lf : length (map f (firstn k x)) = Nat.min k (length x)) by (rewrite map_length, firstn_length; reflexivity).
  assert (Lb : length buf = n) by (rewrite Hb, map_length, seq_length; reflexivity).
  apply (nth_ext _ _ 0 0).
  - rewrite app_length, skipn_length, (map_length _ (seq 0 n)), seq_length. lia.
  - intros i Hi. rewrite app_length, skipn_length in Hi. rewrite nth_map_seq by lia. rewrite last_snoc.
    destruct (Nat.ltb_spec i (Nat.min k (length x))) as [L|L].
    + rewrite app_nth1 by lia. rewrite (nth_indep _ _ (f 0)) by lia. rewrite map_nth. f_equal. apply nth_firstn. lia.
    + rewrite app_nth2 by lia. rewrite nth_skipn'. replace (length (map f (firstn k x)) + (i - length (map f (firstn k x))))%nat with i by lia.
      rewrite Hb. rewrite nth_map_seq by lia. reflexivity.
Qed.

Lemma vecmat_ok m (v : vec A) M : length v = length M -> vecmat m v M = Ok (map (pixel v M) (seq 0 m)).
Proof. intros H. unfold vecmat. rewrite H, Nat.eqb_refl. reflexivity. Qed.

(* no mode-to-command matrix *)
Theorem dm_direct c st0 R (k m : nat) hist :
  dm_m2c c = None -> dm_nmodes c = Z.of_nat k -> dm_nvalid c = Z.of_nat m ->
  pick (dm_valid c) (dm_if c) = Ok R -> length R = m -> (k <= length (dm_if c))%nat -> (m <= length (dm_if c))%nat ->
  ds_if st0 = zeros (length (dm_if c)) -> length (ds_phase st0) = dm_npix c ->
  exists st, dm_run c st0 hist = Ok st /\
    ds_if st = map (fun i => signed (dm_sign c) (last_command k hist i)) (seq 0 (length (dm_if c))) /\
    length (ds_phase st) = dm_npix c /\
    (hist <> [] -> ds_phase st = map (pixel (map (fun i => signed (dm_sign c) (last_command k hist i)) (seq 0 m)) R) (seq 0 (dm_npix c))).
Proof.
  intros Hm Hk Hn HR LR Hk2 Hm2 H0 Hp. unfold dm_run. induction hist as [|x hist IH] using rev_ind.
  - exists st0. cbn [fold_res]. split; [reflexivity|]. split; [|split; [exact Hp|congruence]]. rewrite H0. unfold zeros. rewrite repeat_map_seq. reflexivity.
  - destruct IH as (st & E & I & P & _). rewrite fold_res_snoc, E. cbn [bind]. unfold dm_trigger. rewrite Hm, Hk.
    rewrite take_prefix. cbn [bind].
    assert (LS : length (ds_if st) = length (dm_if c)) by (rewrite I, map_length, seq_length; reflexivity).
    assert (AS : assign_slice (ds_if st) (mkSlice None (Some (zlen (firstn k x))) None) (map (fun y => dm_sign c * y) (firstn k x)) =
      Ok (map (fun i => signed (dm_sign c) (last_command k (hist ++ [x]) i)) (seq 0 (length (dm_if c))))).
    { assert (Z1 : zlen (firstn k x) = zlen (map (fun y => dm_sign c * y) (firstn k x))) by (unfold zlen; now rewrite map_length).
      rewrite Z1, assign_prefix by (rewrite map_length, firstn_length; lia). f_equal.
      exact (buffer_step k (length (dm_if c)) (fun y => dm_sign c * y) hist x (ds_if st) Hk2 I). }
    rewrite AS. cbn [bind]. rewrite Hn. change 0%Z with (Z.of_nat 0). rewrite slice2_seg. cbn [bind skipn]. rewrite Nat.sub_0_r, HR. cbn [bind].
    set (ic := map (fun i => signed (dm_sign c) (last_command k (hist ++ [x]) i)) (seq 0 (length (dm_if c)))).
    assert (FI : firstn m ic = map (fun i => signed (dm_sign c) (last_command k (hist ++ [x]) i)) (seq 0 m)).
    { unfold ic. rewrite firstn_map. f_equal. clear - Hm2. replace (length (dm_if c)) with (m + (length (dm_if c) - m))%nat by lia.
      rewrite seq_app, firstn_app, seq_length, Nat.sub_diag. cbn [firstn]. rewrite app_nil_r. apply firstn_all2. rewrite seq_length. lia. }
    rewrite FI. rewrite vecmat_ok by (rewrite map_length, seq_length; congruence). cbn [bind].
    rewrite assign_all_ok by (rewrite map_length, seq_length; congruence). cbn [bind].
    eexists. split; [reflexivity|]. cbn [ds_if ds_phase]. split; [reflexivity|]. split; [now rewrite map_length, seq_length|]. intros _. reflexivity.
Qed.

(* with a mode-to-command matrix *)
Theorem dm_modal c st0 M W (k q : nat) hist :
  dm_m2c c = Some M -> dm_nmodes c = Z.of_nat k -> pick_cols (dm_valid c) M = Ok W -> (forall r, In r W -> length r = q) ->
  (k <= q)%nat -> (length W <= length (dm_if c))%nat ->
  ds_if st0 = zeros (length (dm_if c)) -> ds_m2c st0 = zeros q -> length (ds_phase st0) = dm_npix c ->
  let modes hist := map (fun i => plain (last_command k hist i)) (seq 0 q) in
  exists st, dm_run c st0 hist = Ok st /\ ds_m2c st = modes hist /\ length (ds_phase st) = dm_npix c /\
    length (ds_if st) = length (dm_if c) /\ skipn (length W) (ds_if st) = zeros (length (dm_if c) - length W) /\
    (hist <> [] -> ds_phase st = map (pixel (map (fun x => dm_sign c * x) (mv W (modes hist)) ++ zeros (length (dm_if c) - length W)) (dm_if c)) (seq 0 (dm_npix c))).
Proof.
  intros Hm Hk HW HR Hkq Hl H0 H1 Hp modes. unfold dm_run. induction hist as [|x hist IH] using rev_ind.
  - exists st0. cbn [fold_res]. split; [reflexivity|]. split; [rewrite H1; unfold modes, zeros; rewrite repeat_map_seq; reflexivity|].
    split; [exact Hp|]. split; [rewrite H0; apply repeat_length|]. split; [rewrite H0; apply repeat_skip|congruence].
  - destruct IH as (st & E & I & P & LI & SI & _). rewrite fold_res_snoc, E. cbn [bind]. unfold dm_trigger. rewrite Hm, Hk.
    rewrite take_prefix. cbn [bind].
    assert (LS : length (ds_m2c st) = q) by (rewrite I; unfold modes; rewrite map_length, seq_length; reflexivity).
    rewrite assign_prefix by (rewrite firstn_length; lia). cbn [bind].
    pose proof (buffer_step k q (fun y => y) hist x (ds_m2c st) Hkq I) as B. rewrite map_id in B.
    change (firstn k x ++ skipn (length (firstn k x)) (ds_m2c st) = modes (hist ++ [x])) in B. rewrite B.
    rewrite HW. cbn [bind].
    rewrite matvec_ok by (intros r Hr; rewrite (HR r Hr); unfold modes; rewrite map_length, seq_length; reflexivity). cbn [bind].
    assert (AS : assign_slice (ds_if st) (mkSlice None (Some (zlen (mv W (modes (hist ++ [x]))))) None) (map (fun y => dm_sign c * y) (mv W (modes (hist ++ [x])))) =
      Ok (map (fun y => dm_sign c * y) (mv W (modes (hist ++ [x]))) ++ zeros (length (dm_if c) - length W))).
    { assert (Z1 : zlen (mv W (modes (hist ++ [x]))) = zlen (map (fun y => dm_sign c * y) (mv W (modes (hist ++ [x]))))) by (unfold zlen; now rewrite map_length).
      rewrite Z1. rewrite assign_prefix; [|rewrite map_length; unfold mv; rewrite map_length; lia]. rewrite map_length. unfold mv at 2. rewrite map_length. now rewrite SI. }
    rewrite AS. cbn [bind].
    assert (LC : length (map (fun y => dm_sign c * y) (mv W (modes (hist ++ [x]))) ++ zeros (length (dm_if c) - length W)) = length (dm_if c)).
    { rewrite app_length, map_length. unfold mv, zeros. rewrite map_length, repeat_length. lia. }
    rewrite vecmat_ok by exact LC. cbn [bind]. rewrite assign_all_ok by (rewrite map_length, seq_length; congruence). cbn [bind].
    eexists. split; [reflexivity|]. cbn [ds_if ds_phase ds_m2c]. split; [reflexivity|]. split; [now rewrite map_length, seq_length|].
    split; [exact LC|]. split; [|intros _; reflexivity].
    rewrite skipn_app. unfold mv. rewrite !map_length, Nat.sub_diag. cbn [skipn]. rewrite skipn_all2; [reflexivity|]. rewrite !map_length. lia.
Qed.
End Dm.
