(* C71: changing the number of modes and slopes of matrices. *)
From Coq Require Import List ZArith Bool Arith Lia.
From Verif Require Import PyBase PyLemmas ArithLemmas NpModel NpSpec NpProofs NpSegments FitsModel FitsSpec FitsProofs CutModel CutSpec CutProofs.
Import ListNotations.

Section P.
Context {V : Type} (zero : V).

(* Intmat.set_nmodes: the first modes are kept, missing ones are zero. *)
Theorem C71_set_nmodes (m : arr2 V) k : rect m -> (0 <= k)%Z ->
  exists out, set_nmodes V zero m k = Ok out /\
    entries zero (a_r m) (Z.to_nat k) (fun i j => if j <? a_c m then entry zero m i j else zero) out.
Proof.
  intros R H. unfold set_nmodes. destruct (nmodes V m <? k)%Z eqn:C.
  - apply Z.ltb_lt in C. unfold nmodes in *.
    rewrite (map_res_pure _ (fun r => r ++ repeat zero (Z.to_nat k - a_c m))).
    + cbn [bind]. eexists. split; [reflexivity|]. unfold entries, a_r. cbn [a_rows a_c].
      split; [apply map_length|]. split; [reflexivity|]. split.
      * intros x Hx. apply in_map_iff in Hx as (y & <- & Hy). rewrite app_length, repeat_length, (proj2 R y Hy). lia.
      * intros i j Hi Hj. unfold entry. rewrite (nth_indep _ [] ((fun r => r ++ repeat zero (Z.to_nat k - a_c m)) [])) by (rewrite map_length; exact Hi).
        rewrite (map_nth (fun r => r ++ repeat zero (Z.to_nat k - a_c m))). assert (L := proj2 R _ (nth_In _ [] Hi)).
        destruct (Nat.ltb_spec j (a_c m)).
        -- apply app_nth1. lia.
        -- rewrite app_nth2 by lia. rewrite nth_repeat. reflexivity.
    + intros r Hr. assert (L := proj2 R r Hr). rewrite take_head by lia. cbn [bind]. rewrite firstn_all2 by lia. unfold head.
      rewrite assign_segment; [|discriminate|intros v E; injection E as <-; lia]. cbn [obound]. rewrite repeat_length, Nat2Z.id, Nat.min_0_l, Nat.sub_0_r, Nat.max_0_l.
      rewrite Nat.min_l by lia. rewrite (fits_size _ _ L). cbn [bind firstn app]. do 2 f_equal.
      assert (G : forall (x : V) a b, skipn a (repeat x b) = repeat x (b - a)).
      { clear. intros x a. induction a as [|a IH]; intros [|b]; cbn; auto. }
      apply G.
  - apply Z.ltb_ge in C. unfold nmodes in C. destruct (sel_cols_head zero m k R H) as (out & E & S). exists out. split; [exact E|].
    rewrite Nat.min_l in S by lia. destruct S as (S1 & S2 & S3 & S4). split; [exact S1|]. split; [exact S2|]. split; [exact S3|].
    intros i j Hi Hj. rewrite S4 by assumption. destruct (Nat.ltb_spec j (a_c m)); [reflexivity|lia].
Qed.

(* Intmat.set_nslopes likewise. *)
Theorem C71_set_nslopes (m : arr2 V) k : rect m -> (0 <= k)%Z ->
  exists out, set_nslopes V zero m k = Ok out /\
    entries zero (Z.to_nat k) (a_c m) (fun i j => if i <? a_r m then entry zero m i j else zero) out.
Proof.
  intros R H. unfold set_nslopes. destruct (nslopes V m <? k)%Z eqn:C.
  - apply Z.ltb_lt in C. unfold nslopes in *. rewrite take_head by lia. cbn [bind]. rewrite Nat2Z.id. unfold a_r in *. rewrite firstn_all.
    eexists. split; [reflexivity|]. unfold entries, a_r. cbn [a_rows a_c]. split; [rewrite app_length, repeat_length; lia|]. split; [reflexivity|]. split.
    + intros x Hx. apply in_app_or in Hx as [Hx|Hx]; [now apply R|]. apply repeat_spec in Hx. subst x. apply repeat_length.
    + intros i j Hi Hj. destruct (Nat.ltb_spec i (length (a_rows m))).
      * rewrite app_nth1 by assumption. reflexivity.
      * rewrite app_nth2 by assumption. rewrite (nth_indep _ [] (repeat zero (a_c m))) by (rewrite repeat_length; lia). now rewrite !nth_repeat.
  - apply Z.ltb_ge in C. unfold nslopes in C. destruct (sel_rows_head zero m k R H) as (out & E & S). exists out. split; [exact E|].
    rewrite Nat.min_l in S by lia. destruct S as (S1 & S2 & S3 & S4). split; [exact S1|]. split; [exact S2|]. split; [exact S3|].
    intros i j Hi Hj. rewrite S4 by assumption. destruct (Nat.ltb_spec i (a_r m)); [reflexivity|lia].
Qed.

Lemma self_entries (m : arr2 V) : rect m -> entries zero (a_r m) (a_c m) (entry zero m) m.
Proof. intros R. split; [reflexivity|]. split; [reflexivity|]. split; [apply R|reflexivity]. Qed.

(* Adding modes or slopes and removing them gives the matrix back. *)
Theorem C71_add_remove_modes (m b : arr2 V) k : rect m -> (nmodes V m <= k)%Z ->
  set_nmodes V zero m k = Ok b -> set_nmodes V zero b (nmodes V m) = Ok m.
Proof.
  intros R H E. assert (K : (0 <= k)%Z) by (unfold nmodes in H; lia).
  destruct (C71_set_nmodes m k R K) as (b' & E' & (S1 & S2 & S3 & S4)). rewrite E in E'. injection E' as <-.
  assert (Rb : rect b) by (split; [unfold a_r in S1; rewrite S1; apply R|rewrite S2; exact S3]).
  destruct (C71_set_nmodes b (nmodes V m) Rb ltac:(unfold nmodes; lia)) as (c & -> & T). f_equal.
  apply (entries_eq zero (a_r m) (a_c m) (entry zero m)); [|now apply self_entries].
  unfold nmodes in T, H. rewrite Nat2Z.id, S1 in T. destruct T as (T1 & T2 & T3 & T4). split; [exact T1|]. split; [exact T2|]. split; [exact T3|].
  intros i j Hi Hj. rewrite T4 by assumption. rewrite S2. destruct (Nat.ltb_spec j (Z.to_nat k)); [|lia]. unfold entry at 1. rewrite S4 by assumption.
  destruct (Nat.ltb_spec j (a_c m)); [reflexivity|lia].
Qed.
Theorem C71_add_remove_slopes (m b : arr2 V) k : rect m -> (nslopes V m <= k)%Z ->
  set_nslopes V zero m k = Ok b -> set_nslopes V zero b (nslopes V m) = Ok m.
Proof.
  intros R H E. assert (K : (0 <= k)%Z) by (unfold nslopes in H; lia). assert (P := proj1 R).
  destruct (C71_set_nslopes m k R K) as (b' & E' & (S1 & S2 & S3 & S4)). rewrite E in E'. injection E' as <-.
  assert (Rb : rect b) by (split; [unfold a_r, nslopes in *; unfold a_r in *; lia|rewrite S2; exact S3]).
  destruct (C71_set_nslopes b (nslopes V m) Rb ltac:(unfold nslopes; lia)) as (c & -> & T). f_equal.
  apply (entries_eq zero (a_r m) (a_c m) (entry zero m)); [|now apply self_entries].
  unfold nslopes in T, H. rewrite Nat2Z.id, S2 in T. destruct T as (T1 & T2 & T3 & T4). split; [exact T1|]. split; [exact T2|]. split; [exact T3|].
  intros i j Hi Hj. rewrite T4 by assumption. rewrite S1. destruct (Nat.ltb_spec i (Z.to_nat k)); [|lia]. unfold entry at 1. rewrite S4 by lia.
  destruct (Nat.ltb_spec i (a_r m)); [reflexivity|lia].
Qed.

(* Discarding d modes or slopes keeps the first ones; discarding all of them is refused. *)
Theorem C71_reduce_size (m : arr2 V) d : rect m -> (0 <= d)%Z ->
  ((nmodes V m <= d)%Z /\ reduce_size V m d = Err ValueError) \/
  ((d < nmodes V m)%Z /\ exists out, reduce_size V m d = Ok out /\ entries zero (a_r m) (a_c m - Z.to_nat d) (entry zero m) out).
Proof.
  intros R H. unfold reduce_size. destruct (nmodes V m <=? d)%Z eqn:C; [apply Z.leb_le in C; now left|apply Z.leb_gt in C]. right. split; [exact C|].
  destruct (sel_cols_head zero m (nmodes V m - d)%Z R ltac:(lia)) as (out & E & S). exists out. split; [exact E|].
  replace (Nat.min (Z.to_nat (nmodes V m - d)) (a_c m)) with (a_c m - Z.to_nat d) in S by (unfold nmodes; lia). exact S.
Qed.
Theorem C71_reduce_slopes (m : arr2 V) d : rect m -> (0 <= d)%Z ->
  ((nslopes V m <= d)%Z /\ reduce_slopes V m d = Err ValueError) \/
  ((d < nslopes V m)%Z /\ exists out, reduce_slopes V m d = Ok out /\ entries zero (a_r m - Z.to_nat d) (a_c m) (entry zero m) out).
Proof.
  intros R H. unfold reduce_slopes. destruct (nslopes V m <=? d)%Z eqn:C; [apply Z.leb_le in C; now left|apply Z.leb_gt in C]. right. split; [exact C|].
  destruct (sel_rows_head zero m (nslopes V m - d)%Z R ltac:(lia)) as (out & E & S). exists out. split; [exact E|].
  replace (Nat.min (Z.to_nat (nslopes V m - d)) (a_r m)) with (a_r m - Z.to_nat d) in S by (unfold nslopes; lia). exact S.
Qed.
(* Starting at mode s drops the first s modes. *)
Theorem C71_start_mode (m : arr2 V) s : rect m -> (0 <= s)%Z ->
  ((nmodes V m <= s)%Z /\ set_start_mode V m s = Err ValueError) \/
  ((s < nmodes V m)%Z /\ exists out, set_start_mode V m s = Ok out /\
     entries zero (a_r m) (a_c m - Z.to_nat s) (fun i j => entry zero m i (Z.to_nat s + j)) out).
Proof.
  intros R H. unfold set_start_mode. destruct (nmodes V m <=? s)%Z eqn:C; [apply Z.leb_le in C; now left|apply Z.leb_gt in C]. right. split; [exact C|].
  exact (sel_cols_from zero m s R H).
Qed.

(* The reconstruction matrix, whose rows are modes, keeps the same modes as the interaction
   matrix, whose columns are modes. *)
Theorem C71_same_modes (im rm : arr2 V) d im' rm' : rect im -> rect rm -> a_r rm = a_c im -> (0 <= d)%Z ->
  reduce_size V im d = Ok im' -> rec_reduce_size V rm d = Ok rm' ->
  a_r rm' = a_c im' /\ (forall i j, i < a_r im -> j < a_c im' -> entry zero im' i j = entry zero im i j) /\
  (forall j i, j < a_r rm' -> i < a_c rm -> entry zero rm' j i = entry zero rm j i).
Proof.
  intros R1 R2 E H E1 E2. destruct (C71_reduce_size im d R1 H) as [[_ F]|[L (o & F & (S1 & S2 & S3 & S4))]]; rewrite F in E1; [discriminate|]. injection E1 as ->.
  destruct (C71_reduce_slopes rm d R2 H) as [[_ G]|[L2 (o & G & (T1 & T2 & T3 & T4))]]; change (rec_reduce_size V rm d) with (reduce_slopes V rm d) in E2; rewrite G in E2; [discriminate|].
  injection E2 as ->. split; [lia|]. split; [intros i j Hi Hj; apply S4; lia|intros j i Hj Hi; apply T4; lia].
Qed.

(* M2C.set_nmodes: the first modes, all of them if fewer exist. *)
Theorem C71_m2c (m : arr2 V) k : rect m -> (0 <= k)%Z ->
  exists out, m2c_set_nmodes V m k = Ok out /\ entries zero (a_r m) (Nat.min (Z.to_nat k) (a_c m)) (entry zero m) out.
Proof. exact (sel_cols_head zero m k). Qed.

(* Discarding a negative number of modes does nothing. *)
Theorem C71_negative_discard (m : arr2 V) d : rect m -> (d < 0)%Z -> reduce_size V m d = Ok m.
Proof.
  intros R H. unfold reduce_size. destruct (nmodes V m <=? d)%Z eqn:C; [apply Z.leb_le in C; unfold nmodes in C; lia|].
  destruct (sel_cols_head zero m (nmodes V m - d)%Z R ltac:(unfold nmodes; lia)) as (out & E & S). rewrite E. f_equal.
  apply (entries_eq zero (a_r m) (a_c m) (entry zero m)); [|now apply self_entries].
  replace (Nat.min (Z.to_nat (nmodes V m - d)) (a_c m)) with (a_c m) in S by (unfold nmodes; lia). exact S.
Qed.

(* ---- cut ---- *)

(* A range of modes. *)
Theorem C71_cut_range (m : arr2 V) s n : (0 <= s)%Z -> (0 <= n)%Z ->
  cut_rows m (Some s) (Some n) None = Ok (mkA2 (a_c m) (firstn (Z.to_nat n) (skipn (Z.to_nat s) (a_rows m)))).
Proof.
  intros Hs Hn. unfold cut_rows, cut_list, mode_slice. rewrite take_segment; [|intros v E; injection E as <-; lia|intros v E; injection E as <-; lia].
  cbn [obound bind]. do 3 f_equal. lia.
Qed.
Theorem C71_cut_start (m : arr2 V) s : (0 <= s)%Z -> cut_rows m (Some s) None None = Ok (mkA2 (a_c m) (skipn (Z.to_nat s) (a_rows m))).
Proof.
  intros Hs. unfold cut_rows, cut_list, mode_slice. rewrite take_segment; [|intros v E; injection E as <-; lia|intros v E; injection E as <-; lia].
  cbn [obound bind]. do 2 f_equal. apply firstn_all2. rewrite skipn_length. lia.
Qed.
Theorem C71_cut_number (m : arr2 V) n : (0 <= n)%Z -> cut_rows m None (Some n) None = Ok (mkA2 (a_c m) (firstn (Z.to_nat n) (a_rows m))).
Proof. intros H. apply (C71_cut_range m 0 n (Z.le_refl 0) H). Qed.
Theorem C71_cut_nothing (m : arr2 V) : cut_rows m None None None = Ok m.
Proof. unfold cut_rows. rewrite cut_all. now destruct m. Qed.

(* A list of modes: exactly these, in the given order; start and number are ignored. *)
Theorem C71_cut_list (m : arr2 V) st nm is out : cut_rows m st nm (Some is) = Ok out <->
  a_c out = a_c m /\ exists ps, Forall2 (denotes (zlen (a_rows m))) is ps /\ elements_at (a_rows m) ps (a_rows out).
Proof.
  unfold cut_rows. cbn [cut_list]. split.
  - intros H. inv_bind H. injection H as <-. split; [reflexivity|]. now apply take_list_ok in E.
  - intros [E H]. apply take_list_ok in H. rewrite H. cbn [bind]. destruct out as [c rows]. cbn [a_c a_rows] in *. now subst c.
Qed.

(* Cutting the columns is cutting the rows of the transposed matrix. *)
Theorem C71_cut_columns (m : arr2 V) st nm idx : rect m ->
  cut_cols (a_T zero m) st nm idx = (r <- cut_rows m st nm idx ;; Ok (a_T zero r)).
Proof.
  intros R. assert (N : a_c (a_T zero m) = a_r m) by reflexivity.
  assert (L : forall r, In r (a_rows (a_T zero m)) -> length r = a_r m).
  { intros r Hr. unfold a_T in Hr. cbn [a_rows] in Hr. apply in_map_iff in Hr as (j & <- & _). apply map_length. }
  unfold cut_cols, cut_rows. rewrite N. destruct (cut_positions st nm idx (a_r m)) as [[e H]|[ps [Rg H]]].
  - rewrite (H _ (seq 0 (a_r m))) by apply seq_length. rewrite (H _ (a_rows m)) by reflexivity. reflexivity.
  - rewrite (H _ (seq 0 (a_r m)) 0) by apply seq_length. rewrite (H _ (a_rows m) []) by reflexivity. cbn [bind].
    rewrite (map_res_pure _ (fun r => map (fun p => nth (Z.to_nat p) r zero) ps)) by (intros r Hr; apply H; now apply L). cbn [bind]. f_equal. unfold a_T at 2, a_r. cbn [a_rows a_c].
    f_equal; [now rewrite !map_length|]. unfold a_T. cbn [a_rows]. rewrite map_map. apply map_ext. intros j. rewrite map_map. apply map_ext_in. intros p Hp.
    specialize (Rg p Hp). unfold a_r in Rg. rewrite (nth_indep _ zero ((fun r => nth j r zero) [])) by (rewrite map_length; lia).
    now rewrite (map_nth (fun r => nth j r zero)).
Qed.
End P.

(* Cutting from the last two modes, counted from the end, leaves no mode. *)
Theorem C71_negative_start_refuted : exists (m : arr2 Z), rect m /\ a_r m = 4 /\ cut_rows m (Some (-2)%Z) None None = Ok (mkA2 1 []).
Proof.
  exists (mkA2 1 [[10]; [20]; [30]; [40]]%Z). split; [|split; reflexivity]. split; [cbn; lia|]. cbn [a_rows a_c]. intros r H. cbn in H. intuition (subst; reflexivity).
Qed.
(* A negative start mode is accepted and keeps the last modes. *)
Theorem C71_negative_start_mode_refuted : exists (m : arr2 Z), set_start_mode Z m (-1) = Ok (mkA2 1 [[3]; [6]]%Z) /\ a_rows m = [[1; 2; 3]; [4; 5; 6]]%Z.
Proof. exists (mkA2 3 [[1; 2; 3]; [4; 5; 6]]%Z). split; reflexivity. Qed.

Example C71_example : set_nmodes Z 0%Z (mkA2 2 [[1; 2]; [3; 4]]%Z) 3 = Ok (mkA2 3 [[1; 2; 0]; [3; 4; 0]]%Z) /\
  set_nslopes Z 0%Z (mkA2 2 [[1; 2]; [3; 4]]%Z) 3 = Ok (mkA2 2 [[1; 2]; [3; 4]; [0; 0]]%Z) /\
  cut_rows (mkA2 1 [[10]; [20]; [30]]%Z) (Some 7%Z) (Some 9%Z) (Some [2; -3]%Z) = Ok (mkA2 1 [[30]; [10]]%Z).
Proof. repeat split. Qed.

Print Assumptions C71_set_nmodes.
Print Assumptions C71_set_nslopes.
Print Assumptions C71_add_remove_modes.
Print Assumptions C71_add_remove_slopes.
Print Assumptions C71_reduce_size.
Print Assumptions C71_reduce_slopes.
Print Assumptions C71_start_mode.
Print Assumptions C71_same_modes.
Print Assumptions C71_m2c.
Print Assumptions C71_negative_discard.
Print Assumptions C71_cut_range.
Print Assumptions C71_cut_start.
Print Assumptions C71_cut_number.
Print Assumptions C71_cut_nothing.
Print Assumptions C71_cut_list.
Print Assumptions C71_cut_columns.
Print Assumptions C71_negative_start_refuted.
Print Assumptions C71_negative_start_mode_refuted.
