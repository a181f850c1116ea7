(* Properties C40 - C45: storage, buffering and replay of data. *)
From Coq Require Import String List ZArith Bool Lia.
From Verif Require Import PyBase PyLemmas StoreModel StoreSpec StoreProofs StoreProofs2.
Import ListNotations.
Local Open Scope string_scope.
Local Open Scope list_scope.
Local Open Scope Z_scope.

(* ------------------------------------------------------------------ C40 *)

(* The downsampling factors of a store are at least 1. *)
Theorem C40_factors split first start factor by_input c k :
  store_init split first start factor by_input = Ok c -> 1 <= every c k.
Proof.
  unfold store_init. destruct (factor <? 1) eqn:F; [discriminate|]. apply Z.ltb_ge in F.
  destruct by_input as [d|]; [|intros H; injection H as <-; exact F].
  destruct (negb (factor =? 1)); [discriminate|]. destruct (existsb _ d) eqn:E; [discriminate|].
  intros H. injection H as <-. unfold every. cbn [d_by_input d_factor].
  destruct (dget k d) as [n|] eqn:G; [|exact F]. apply dget_In in G.
  destruct (Z.le_gt_cases 1 n) as [Q|Q]; [exact Q|]. exfalso.
  assert (T : existsb (fun kv : string * Z => snd kv <? 1) d = true).
  { apply existsb_exists. exists (k, n). split; [exact G|]. apply Z.ltb_lt. exact Q. }
  congruence.
Qed.
Print Assumptions C40_factors.

(* A run without splitting saves one folder.  It contains the samples number 0, N, 2N, ...
   received since the start time; when the last call brings a sample, N > 1 and the number
   of samples is a multiple of N, also that last sample. *)
Theorem C40_downsampled (V : Type) (c : dcfg) (es : list (Z * sview V)) (e : Z * sview V) (k : string) :
  d_split c = 0 -> 1 <= every c k -> proper V (es ++ [e]) -> increasing (map fst (es ++ [e])) ->
  let N := every c k in
  let l := samples V (started V (d_start c) (es ++ [e])) k in
  let last := if fst e <? d_start c then None else fresh V e k in
  exists st, d_saved V (store_run V c (es ++ [e]) e) = [(EmptyString, st)] /\
  (N = 1 -> contents V st k = l) /\
  (1 < N -> last = None \/ Z.of_nat (length l) mod N <> 0 ->
   every_nth V (Z.to_nat N) l (contents V st k)) /\
  (1 < N -> forall v, last = Some v -> Z.of_nat (length l) mod N = 0 ->
   exists s, every_nth V (Z.to_nat N) l s /\ contents V st k = (s ++ [(fst e, v)])%list).
Proof.
  intros Hs HN Hp Hi. cbv zeta.
  assert (Hp' : proper V ((es ++ [e]) ++ [e])).
  { apply Forall_app. split; [exact Hp|]. apply Forall_app in Hp. apply Hp. }
  destruct (store_run_one V c (es ++ [e]) e k Hs Hp' Hi) as (st & E1 & E2).
  exists st. split; [exact E1|]. set (l := samples V _ k) in *.
  assert (Hl : forall v, (if fst e <? d_start c then None else fresh V e k) = Some v ->
               exists l', l = l' ++ [(fst e, v)] /\ ~ In (fst e) (map fst l')).
  { intros v. destruct (fst e <? d_start c) eqn:F; [discriminate|]. intros Hv.
    exists (samples V (started V (d_start c) es) k). split.
    - unfold l. now rewrite started_app, started_one, F, fresh_samples, Hv.
    - intros Hin. apply in_map_iff in Hin as ([t w] & Q & Hin). cbn in Q. subst t. apply samples_in in Hin.
      apply in_map_iff in Hin as (e' & Q & Hin). apply filter_In in Hin as [Hin _].
      rewrite map_app in Hi. apply increasing_app in Hi as (_ & _ & Hi).
      specialize (Hi (fst e') (fst e) (in_map fst _ _ Hin) (or_introl eq_refl)). lia. }
  split; [|split].
  - intros N1. rewrite E2, N1, Z.mod_1_r, kept_one. cbn [Z.eqb].
    destruct (if fst e <? d_start c then None else fresh V e k) as [v|]; [|reflexivity].
    destruct (Hl v eq_refl) as (l' & -> & Hn). now apply tset_last.
  - intros N1 H. rewrite E2. destruct (if fst e <? d_start c then None else fresh V e k) as [v|].
    + destruct H as [H|H]; [discriminate|]. rewrite (proj2 (Z.eqb_neq _ _) H). now apply kept_every.
    + now apply kept_every.
  - intros N1 v Hv M. exists (kept V (every c k) 0 l). split; [now apply kept_every|].
    rewrite E2, Hv, M. cbn [Z.eqb]. apply tset_new. destruct (Hl v Hv) as (l' & El & Hn).
    rewrite El, kept_app. cbn [kept]. rewrite El, app_length in M. cbn [length] in M.
    replace ((0 + Z.of_nat (length l')) mod every c k =? 0) with false.
    + rewrite app_nil_r. intros Hin. apply Hn. apply in_map_iff in Hin as (x & Q & Hin).
      apply in_map_iff. exists x. split; [exact Q|]. now apply kept_in in Hin.
    + symmetry. apply Z.eqb_neq. intros Q. rewrite Z.add_0_l in Q.
      apply Z.mod_divide in Q; [|lia]. apply Z.mod_divide in M; [|lia].
      destruct Q as [a Ha], M as [b Hb]. assert (1 = (b - a) * every c k) by lia.
      destruct (Z.eq_mul_1_nonneg' (b - a) (every c k)); nia.
Qed.
Print Assumptions C40_downsampled.

(* one input "a" with a new value at each call *)
Definition call (t v : Z) : Z * sview Z := (t, [("a", Some (v, t))]).
Definition calls (n : nat) : list (Z * sview Z) := map (fun i => call (Z.of_nat i) (10 * Z.of_nat i)) (seq 0 n).
Definition saved_of (c : dcfg) (n : nat) (ef : Z * sview Z) := d_saved Z (store_run Z c (calls n) ef).

Example C40_example :
  saved_of (mkDcfg 0 0 0 3 []) 5 (call 4 40) = [("", [("a", [(0, 0); (3, 30)])])] /\
  saved_of (mkDcfg 0 0 2 1 []) 5 (call 4 40) = [("", [("a", [(2, 20); (3, 30); (4, 40)])])] /\
  saved_of (mkDcfg 0 0 0 1 [("a", 2)]) 5 (call 4 40) = [("", [("a", [(0, 0); (2, 20); (4, 40)])])] /\
  store_init 0 0 0 2 (Some [("a", 3)]) = Err ValueError.
Proof. vm_compute. repeat split. Qed.

(* The store can contain a sample that is not among number 0, N, 2N, ...: 6 samples with
   N = 3. *)
Theorem C40_last_extra_refuted : exists (c : dcfg) (es : list (Z * sview Z)) (e : Z * sview Z) st,
  store_init 0 0 0 3 None = Ok c /\ increasing (map fst (es ++ [e])) /\ proper Z (es ++ [e]) /\
  d_saved Z (store_run Z c (es ++ [e]) e) = [("", st)] /\
  ~ every_nth Z 3 (samples Z (es ++ [e]) "a") (contents Z st "a").
Proof.
  exists (mkDcfg 0 0 0 3 []), (calls 5), (call 5 50), [("a", [(0, 0); (3, 30); (5, 50)])].
  split; [reflexivity|]. split; [cbn; lia|]. split.
  { repeat constructor; cbn; tauto. }
  split; [reflexivity|]. intros H. specialize (H 2%nat). vm_compute in H. discriminate.
Qed.
Print Assumptions C40_last_extra_refuted.

(* ------------------------------------------------------------------ C41 *)

(* With chunks of s >= 2 calls and no downsampling, the saved chunks contain, once and in
   order, exactly the samples of the first s*((n+1)/s) of the n calls. *)
Theorem C41_chunks (V : Type) (c : dcfg) (s : nat) (es : list (Z * sview V)) (e : Z * sview V) :
  d_split c = Z.of_nat s -> (2 <= s)%nat -> (forall k, every c k = 1) ->
  proper V (es ++ [e]) -> increasing (map fst (es ++ [e])) ->
  Forall (fun e => d_start c <= fst e) (es ++ [e]) ->
  let n := length (es ++ [e]) in
  let x := store_run V c (es ++ [e]) e in
  forall k, all_saved V x k = samples V (firstn (s * ((n + 1) / s)) (es ++ [e])) k.
Proof.
  intros Hs H2 HN Hp Hi Ht n x k.
  destruct (split_run V c s Hs ltac:(lia) HN es e H2 Hp Hi Ht) as [H _].
  unfold n. rewrite app_length. cbn [length]. replace (length es + 1 + 1)%nat with (S (S (length es))) by lia. apply H.
Qed.
Print Assumptions C41_chunks.

(* In particular nothing is lost when the number of calls is a multiple of s, or one less. *)
Theorem C41_complete (V : Type) (c : dcfg) (s : nat) (es : list (Z * sview V)) (e : Z * sview V) :
  d_split c = Z.of_nat s -> (2 <= s)%nat -> (forall k, every c k = 1) ->
  proper V (es ++ [e]) -> increasing (map fst (es ++ [e])) ->
  Forall (fun e => d_start c <= fst e) (es ++ [e]) ->
  let n := length (es ++ [e]) in
  (n mod s = 0)%nat \/ (n mod s = s - 1)%nat ->
  forall k, all_saved V (store_run V c (es ++ [e]) e) k = samples V (es ++ [e]) k.
Proof.
  intros Hs H2 HN Hp Hi Ht n Hn k. rewrite (C41_chunks V c s es e Hs H2 HN Hp Hi Ht k). fold n.
  rewrite firstn_all2; [reflexivity|]. fold n.
  pose proof (Nat.div_mod n s ltac:(lia)). pose proof (Nat.div_mod (n + 1) s ltac:(lia)).
  pose proof (Nat.mod_upper_bound (n + 1) s ltac:(lia)).
  assert (n / s <= (n + 1) / s)%nat by (apply Nat.div_le_mono; lia).
  destruct Hn as [Hn|Hn]; [nia|]. assert ((n + 1) mod s = 0)%nat; [|lia].
  replace (n + 1)%nat with (s * (n / s + 1))%nat by nia. rewrite Nat.mul_comm. apply Nat.mod_mul. lia.
Qed.
Print Assumptions C41_complete.

(* The chunks go to different folders, named after their first call. *)
Theorem C41_folders (V : Type) (c : dcfg) (s : nat) (es : list (Z * sview V)) (e : Z * sview V) :
  d_split c = Z.of_nat s -> (2 <= s)%nat -> (forall k, every c k = 1) ->
  proper V (es ++ [e]) -> increasing (map fst (es ++ [e])) ->
  Forall (fun e => d_start c <= fst e) (es ++ [e]) ->
  let n := length (es ++ [e]) in
  map fst (d_saved V (store_run V c (es ++ [e]) e)) =
  map (fun j => ("_" ++ str_int (Z.of_nat (s * j) + d_first c))%string) (seq 0 ((n + 1) / s)).
Proof.
  intros Hs H2 HN Hp Hi Ht n.
  destruct (split_run V c s Hs ltac:(lia) HN es e H2 Hp Hi Ht) as [_ H].
  unfold n. rewrite app_length. cbn [length]. replace (length es + 1 + 1)%nat with (S (S (length es))) by lia. exact H.
Qed.
Print Assumptions C41_folders.

(* With s = 1 the samples of the last call are saved twice. *)
Theorem C41_single (V : Type) (c : dcfg) (es : list (Z * sview V)) (e : Z * sview V) :
  d_split c = 1 -> (forall k, every c k = 1) ->
  proper V (es ++ [e]) -> increasing (map fst (es ++ [e])) ->
  Forall (fun e => d_start c <= fst e) (es ++ [e]) ->
  forall k, all_saved V (store_run V c (es ++ [e]) e) k = samples V (es ++ [e; e]) k.
Proof. exact (single_run V c es e). Qed.
Print Assumptions C41_single.

Example C41_example :
  saved_of (mkDcfg 3 0 0 1 []) 6 (call 5 50) =
    [("_0", [("a", [(0, 0); (1, 10); (2, 20)])]); ("_3", [("a", [(3, 30); (4, 40); (5, 50)])])] /\
  saved_of (mkDcfg 3 100 0 1 []) 5 (call 4 40) =
    [("_100", [("a", [(0, 0); (1, 10); (2, 20)])]); ("_103", [("a", [(3, 30); (4, 40)])])] /\
  saved_of (mkDcfg 1 0 0 1 []) 2 (call 1 10) =
    [("_0", [("a", [(0, 0)])]); ("_1", [("a", [(1, 10)])]); ("_2", [("a", [(1, 10)])])].
Proof. vm_compute. repeat split. Qed.

(* Samples are lost otherwise: 4 calls in chunks of 3. *)
Theorem C41_lost_refuted : exists (c : dcfg) (es : list (Z * sview Z)) (e : Z * sview Z),
  store_init 3 0 0 1 None = Ok c /\ increasing (map fst (es ++ [e])) /\ proper Z (es ++ [e]) /\
  exists tv, In tv (samples Z (es ++ [e]) "a") /\ ~ In tv (all_saved Z (store_run Z c (es ++ [e]) e) "a").
Proof.
  exists (mkDcfg 3 0 0 1 []), (calls 3), (call 3 30). split; [reflexivity|]. split; [cbn; lia|].
  split; [repeat constructor; cbn; tauto|]. exists (3, 30). split; [cbn; tauto|].
  vm_compute. intros [H|[H|[H|[]]]]; discriminate.
Qed.
Print Assumptions C41_lost_refuted.

(* ------------------------------------------------------------------ C42 *)

(* FITS files: exact for every time a simulation can reach. *)
Theorem C42_fits (single : bool) (t : Z) : 0 <= t < 2 ^ 64 -> saved_time Fits single t = t.
Proof. intros H. apply Z.mod_small. exact H. Qed.
Print Assumptions C42_fits.

(* pickle files: exact up to 2^53 ns (104 days) in double precision, and up to 2^24 ns
   (16.8 ms) in single precision. *)
Theorem C42_pickle (single : bool) (t : Z) :
  Z.abs t <= 2 ^ (if single then 24 else 53) -> saved_time Pickle single t = t.
Proof. intros H. apply to_float_exact; [destruct single; lia|exact H]. Qed.
Print Assumptions C42_pickle.

(* Beyond that the relative error is at most 2^-53 or 2^-24. *)
Theorem C42_error (single : bool) (t : Z) :
  2 ^ (if single then 24 else 53) * Z.abs (saved_time Pickle single t - t) <= Z.abs t.
Proof. apply to_float_error. destruct single; lia. Qed.
Print Assumptions C42_error.

Example C42_example :
  map (saved_time Pickle true) [16777216; 16777217; 16777219; 1000000007; -16777217] =
    [16777216; 16777216; 16777220; 1000000000; -16777216] /\
  saved_time Pickle false (2 ^ 53 + 3) = 2 ^ 53 + 4 /\ saved_time Fits true 1000000007 = 1000000007.
Proof. vm_compute. repeat split. Qed.

(* Two different times of the same run can be saved as the same time. *)
Theorem C42_collision_refuted : exists t t', 0 <= t < t' /\ saved_time Pickle true t = saved_time Pickle true t' /\
  saved_time Pickle true t' <> t'.
Proof. exists 16777216, 16777217. vm_compute. repeat split; intros; discriminate. Qed.
Print Assumptions C42_collision_refuted.

(* ------------------------------------------------------------------ C43 *)

(* The folder chosen for a run does not exist yet. *)
Theorem C43_new_folder (exists_ : string -> bool) (fuel : nat) (base p : string) :
  create_TN_folder exists_ fuel base None = Some p -> exists_ p = false.
Proof. apply create_not_exists. Qed.
Print Assumptions C43_new_folder.

(* It is the time stamp, followed by "." and a number if needed. *)
Theorem C43_name (exists_ : string -> bool) (fuel : nat) (base p : string) :
  create_TN_folder exists_ fuel base None = Some p -> exists i, p = candidate base i.
Proof.
  generalize (@None nat). induction fuel as [|fuel IH]; intros i; [discriminate|]. cbn [create_TN_folder].
  destruct (exists_ (candidate base i)); [apply IH|]. intros H. injection H as <-. now exists i.
Qed.
Print Assumptions C43_name.

(* The search ends, for every (finite) content of the disk. *)
Theorem C43_search_ends (exists_ : string -> bool) (L : list string) (base : string) :
  (forall p, exists_ p = true -> In p L) ->
  exists fuel p, create_TN_folder exists_ fuel base None = Some p.
Proof. intros H. exact (create_fuel exists_ L H base None). Qed.
Print Assumptions C43_search_ends.

Definition disk (l : list string) (p : string) : bool := existsb (String.eqb p) l.
Example C43_example :
  create_TN_folder (disk []) 9 (base_path "/data" "20240101_120000" "") None = Some "/data/20240101_120000" /\
  create_TN_folder (disk ["d/T"; "d/T.0"; "d/T.2"]) 9 (base_path "d" "T" "") None = Some "d/T.1" /\
  create_TN_folder (disk ["d/T_5"]) 9 (base_path "d" "T" "_5") None = Some "d/T_5.0".
Proof. vm_compute. repeat split. Qed.

(* ------------------------------------------------------------------ C44 *)

(* After every [size] calls the output of an input holds, in order, its samples in the last
   [size] calls (it is not refreshed if there are none); it does not change at other
   calls. *)
Theorem C44_blocks (V : Type) (size : nat) (names : list string) (es : list (Z * sview V)) (e : Z * sview V) (k : string) :
  (1 <= size)%nat -> In k names -> proper V (es ++ [e]) ->
  increasing (map fst (es ++ [e])) -> Forall (fun e => 0 <= fst e) (es ++ [e]) ->
  let run es := fold_left (buffer_trigger V (Z.of_nat size)) es (buffer_init V names) in
  let n := length (es ++ [e]) in
  let block := map snd (samples V (skipn (n - size) (es ++ [e])) k) in
  dget k (b_out V (run (es ++ [e]))) =
    if (n mod size =? 0)%nat && negb (match block with [] => true | _ => false end)
    then Some (block, fst e)
    else dget k (b_out V (run es)).
Proof.
  intros Hs Hk Hp Hi H0. cbv zeta.
  apply Forall_app in Hp as [Hp He]. apply Forall_inv in He. rewrite map_app in Hi.
  apply increasing_app in Hi as (Hi & _ & _). apply Forall_app in H0 as [H0 _].
  destruct (buffer_step V size Hs es e _ He (buffer_loop V size Hs names es Hp)) as [_ H]. specialize (H k).
  destruct (buffer_seen V size Hs names es k Hk Hp Hi H0) as [(l & g & El & _) _].
  rewrite app_length. cbn [length]. rewrite Nat.add_1_r. rewrite fold_left_app. cbn [fold_left].
  fold (brun V size names es). rewrite H, El.
  destruct (S (length es) mod size =? 0)%nat; [|reflexivity]. cbn [andb].
  now destruct (map snd _).
Qed.
Print Assumptions C44_blocks.

(* The values read during the run, whenever the output is refreshed, are the samples of the
   complete blocks, once and in order. *)
Theorem C44_no_loss (V : Type) (size : nat) (names : list string) (es : list (Z * sview V)) (k : string) :
  (1 <= size)%nat -> In k names -> proper V es ->
  increasing (map fst es) -> Forall (fun e => 0 <= fst e) es ->
  seen_all V (Z.of_nat size) (buffer_init V names) k es =
  map snd (samples V (firstn (size * (length es / size)) es) k).
Proof. intros Hs Hk Hp Hi H0. exact (proj2 (buffer_seen V size Hs names es k Hk Hp Hi H0)). Qed.
Print Assumptions C44_no_loss.

(* The end of the run emits the others. *)
Theorem C44_finalize (V : Type) (size : nat) (names : list string) (es : list (Z * sview V)) (k : string) (t : Z) :
  (1 <= size)%nat -> In k names -> proper V es ->
  increasing (map fst es) -> Forall (fun e => 0 <= fst e) es ->
  let s := fold_left (buffer_trigger V (Z.of_nat size)) es (buffer_init V names) in
  let rest := map snd (samples V (skipn (size * (length es / size)) es) k) in
  (rest <> [] -> dget k (b_out V (buffer_finalize V s t)) = Some (rest, t)) /\
  (rest = [] -> dget k (b_out V (buffer_finalize V s t)) = dget k (b_out V s)).
Proof. intros Hs Hk Hp Hi H0. exact (buffer_final V size Hs names es k t Hk Hp Hi H0). Qed.
Print Assumptions C44_finalize.

Example C44_example :
  let s := fold_left (buffer_trigger Z 3) (calls 5) (buffer_init Z ["a"]) in
  seen_all Z 3 (buffer_init Z ["a"]) "a" (calls 5) = [0; 10; 20] /\
  dget "a" (b_out Z s) = Some ([0; 10; 20], 2) /\
  dget "a" (b_out Z (buffer_finalize Z s 4)) = Some ([30; 40], 4).
Proof. vm_compute. repeat split. Qed.

(* ------------------------------------------------------------------ C45 *)

(* A source gives, at each recorded time, the value recorded at that time, and leaves its
   output alone at the other times. *)
Theorem C45_source (V : Type) (files : storage V) (outputs : list string) (k : string) (x : series V) :
  NoDup outputs -> (forall k, In k outputs -> dget k files <> None) ->
  In k outputs -> dget k files = Some x -> increasing (map fst x) ->
  exists st, source_load V files outputs = Ok st /\
  forall o t, dget k o <> None ->
  (forall v, In (t, v) x -> dget k (source_trigger V st o t) = Some (Some v, t)) /\
  (~ In t (map fst x) -> dget k (source_trigger V st o t) = dget k o).
Proof.
  intros ND Hf Hk Ex Hi. destruct (source_load_ok V files outputs ND Hf) as (st & E1 & E2).
  exists st. split; [exact E1|]. intros o t Ho. rewrite source_trigger_get, E2.
  destruct (in_dec string_dec k outputs) as [_|Q]; [|contradiction]. rewrite Ex. cbn [option_map].
  rewrite load_increasing by exact Hi. destruct (dget k o) as [y|]; [|congruence]. cbn [option_map]. split.
  - intros v Hv. apply (tget_in V x t v Hi) in Hv. now rewrite Hv.
  - intros Hv. apply tget_none in Hv. now rewrite Hv.
Qed.
Print Assumptions C45_source.

(* Storing a run and reading it back: every sample received since the start time comes back,
   converted to the precision of the store, at the time it was received. *)
Theorem C45_store_and_replay (V : Type) (cast : V -> V) (f : format) (single : bool) (c : dcfg)
    (es : list (Z * sview V)) (e : Z * sview V) (k : string) :
  d_split c = 0 -> every c k = 1 -> proper V (es ++ [e]) -> increasing (map fst (es ++ [e])) ->
  (forall t, In t (map fst (es ++ [e])) -> saved_time f single t = t) ->
  let rec := samples V (started V (d_start c) (es ++ [e])) k in
  rec <> [] ->
  exists stored st, d_saved V (store_run V c (es ++ [e]) e) = [(EmptyString, stored)] /\
  source_load V (save_files V cast f single stored) [k] = Ok st /\
  forall o t, dget k o <> None ->
  (forall v, In (t, v) rec -> dget k (source_trigger V st o t) = Some (Some (cast v), t)) /\
  (~ In t (map fst rec) -> dget k (source_trigger V st o t) = dget k o).
Proof.
  intros Hs HN Hp Hi Ht rec Hrec.
  destruct (C40_downsampled V c es e k Hs ltac:(lia) Hp Hi) as (stored & E1 & E2 & _).
  specialize (E2 HN). fold rec in E2.
  assert (G : dget k (save_files V cast f single stored) = Some (map (fun tv => (fst tv, cast (snd tv))) rec)).
  { unfold save_files. rewrite (dget_map_snd (fun _ => file_of V cast f single) stored k).
    assert (Ek : dget k stored = Some rec).
    { unfold contents, ddef in E2. match type of E2 with context [match ?d with _ => _ end] => destruct d as [x|] eqn:Ek end;
        [now rewrite <- E2|]. elim Hrec. now symmetry. }
    etransitivity; [apply (f_equal (option_map (file_of V cast f single)) Ek)|]. cbn [option_map]. f_equal.
    unfold file_of. apply map_ext_in. intros [t v] Hin. cbn. f_equal. apply Ht. apply samples_in in Hin.
    apply in_map_iff in Hin as (e' & <- & Hin). apply filter_In in Hin as [Hin _]. now apply in_map. }
  assert (Hk : map fst (map (fun tv : Z * V => (fst tv, cast (snd tv))) rec) = map fst rec).
  { rewrite map_map. reflexivity. }
  destruct (C45_source V (save_files V cast f single stored) [k] k _ ltac:(repeat constructor; tauto)
             ltac:(intros k' [<-|[]]; rewrite G; discriminate) (or_introl eq_refl) G) as (st & F1 & F2).
  { rewrite Hk. apply samples_increasing. apply increasing_filter. exact Hi. }
  exists stored, st. split; [exact E1|]. split; [exact F1|]. intros o t Ho. destruct (F2 o t Ho) as [F3 F4].
  rewrite Hk in F4. split; [|exact F4]. intros v Hv. apply F3.
  apply in_map_iff. exists (t, v). split; [reflexivity|exact Hv].
Qed.
Print Assumptions C45_store_and_replay.

Definition replay (f : format) (single : bool) (ts : list Z) : res (list (option (option Z * Z))) :=
  match d_saved Z (store_run Z (mkDcfg 0 0 0 1 [])
          [call 16777215 1; call 16777216 2; call 16777217 3] (call 16777217 3)) with
  | [(_, s)] => st <- source_load Z (save_files Z (fun v => v) f single s) ["a"] ;;
                Ok (map (fun t => dget "a" (source_trigger Z st (source_init Z st) t)) ts)
  | _ => Err RuntimeError
  end.
Example C45_example :
  replay Fits true [16777214; 16777215; 16777216; 16777217] =
    Ok [Some (None, -1); Some (Some 1, 16777215); Some (Some 2, 16777216); Some (Some 3, 16777217)].
Proof. reflexivity. Qed.

(* With single-precision pickle files the replay can differ from what was recorded. *)
Theorem C45_pickle_refuted : exists (c : dcfg) (es : list (Z * sview Z)) (e : Z * sview Z) stored st t v,
  In (t, v) (samples Z (es ++ [e]) "a") /\ increasing (map fst (es ++ [e])) /\
  d_saved Z (store_run Z c (es ++ [e]) e) = [("", stored)] /\
  source_load Z (save_files Z (fun v => v) Pickle true stored) ["a"] = Ok st /\
  dget "a" (source_trigger Z st (source_init Z st) t) <> Some (Some v, t).
Proof.
  exists (mkDcfg 0 0 0 1 []), [call 16777215 1; call 16777216 2], (call 16777217 3).
  eexists. eexists. exists 16777216, 2. split; [cbn; tauto|]. split; [cbn; lia|].
  split; [reflexivity|]. split; [vm_compute; reflexivity|]. vm_compute. discriminate.
Qed.
Print Assumptions C45_pickle_refuted.
