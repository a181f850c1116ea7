(* C37-C39: signal generators. *)
From Coq Require Import List Bool PeanoNat ZArith QArith Qcanon Lia.
From Verif Require Import PyBase Arith ArithLemmas FilterModel FilterSpec SumLemmas FilterProofs IirProofs FilterFacts FilterFacts2
  MultirateModel MultirateProofs GenModel GenProofs Properties_Filter.
Import ListNotations.
Local Open Scope nat_scope.

(* --------------------------------------------------------------------------- C37 *)

(* C37: times increasing (w.r.t. any transitive comparison): at time [now] the generator
   gives every mode the value of its group in the value set whose index is the number
   of switch times not later than [now]. *)
Theorem C37_schedule : forall A T (leb : T -> T -> bool) (values : mat A) times modes ex now,
  (forall x y z, leb x y = true -> leb y z = true -> leb x z = true) -> ordered T leb times ->
  sched_init values times modes = Ok ex ->
  let n := length (filter (fun x => leb x now) times) in
  exists v vs, sched_code leb ex times now = Ok v /\ nth_error values n = Some vs /\ length v = list_sum modes /\
  forall b i, in_group (Some modes) b i -> nth i v zer = nth b vs zer.
Proof.
  intros A T leb values times modes ex now Ht Ho E n. unfold sched_init in E.
  destruct (Nat.eqb_spec (length values) (length times + 1)) as [L|]; cbn [negb] in E; [|discriminate].
  destruct (map_res_nth_error _ _ _ E) as [Lx H].
  assert (Hn : n <= length times) by apply (count_le_length T leb times now).
  destruct (nth_error values n) as [vs|] eqn:Ev; [|apply nth_error_None in Ev; lia].
  destruct (H n vs Ev) as (v & Hv & Hx). destruct (Nat.eqb_spec (length modes) (length vs)) as [Lm|]; [|discriminate].
  injection Hv as <-. exists (expand modes vs), vs.
  unfold sched_code. rewrite (searchsorted_count T leb Ht times now Ho). unfold count_le. fold n.
  replace (Nat.min n (length ex - 1)) with n by lia. rewrite Hx. split; auto. split; auto.
  split; [apply expand_length; auto|]. intros b i Hi. apply expand_nth; auto.
Qed.
Print Assumptions C37_schedule.

(* the constructor rejects value sets of the wrong number or size, and only those *)
Theorem C37_checked : forall A T (values : mat A) (times : list T) modes,
  (length values = length times + 1 /\ (forall vs, In vs values -> length vs = length modes) <->
   exists ex, sched_init values times modes = Ok ex) /\
  ((forall ex, sched_init values times modes <> Ok ex) -> sched_init values times modes = Err ValueError).
Proof.
  intros A T values times modes. unfold sched_init.
  destruct (Nat.eqb_spec (length values) (length times + 1)) as [L|L]; cbn [negb].
  2: { split; [split; [intros [? _]; congruence|intros [? [=]]]|auto]. }
  assert (G : forall vs : mat A, ((forall v, In v vs -> length v = length modes) ->
     exists ex, map_res (fun vs => if Nat.eqb (length modes) (length vs) then Ok (expand modes vs) else Err ValueError) vs = Ok ex) /\
    ((exists v, In v vs /\ length v <> length modes) ->
     map_res (fun vs => if Nat.eqb (length modes) (length vs) then Ok (expand modes vs) else Err ValueError) vs = Err ValueError)).
  { induction vs as [|v r IH]; split.
    - intros _. cbn. eauto.
    - intros (v & [] & _).
    - intros H. cbn [map_res]. rewrite (H v (or_introl eq_refl)), Nat.eqb_refl. cbn [bind].
      destruct (proj1 IH) as [ex ->]; [intros; apply H; simpl; auto|]. cbn [bind]. eauto.
    - intros (w & Hw & Hl). cbn [map_res]. destruct (Nat.eqb_spec (length modes) (length v)); [|reflexivity].
      destruct Hw as [->|Hw]; [congruence|]. cbn [bind]. rewrite (proj2 IH); eauto. }
  destruct (G values) as [G1 G2].
  assert (D : (forall v, In v values -> length v = length modes) \/ exists v, In v values /\ length v <> length modes).
  { clear. induction values as [|v r IH]; [left; intros ? []|]. destruct (Nat.eq_dec (length v) (length modes)) as [e|ne].
    - destruct IH as [H|(w & Hw & Hn)]; [left; intros w [<-|Hw]; auto|right; exists w; simpl; auto].
    - right. exists v. simpl. auto. }
  destruct D as [D|D].
  - destruct (G1 D) as [ex Ex]. rewrite Ex. split; [split; eauto|]. intros H. exfalso. exact (H ex eq_refl).
  - rewrite (G2 D). split; auto. split; [intros [_ H]|intros [? [=]]]. destruct D as (v & Hv & Hn). exfalso. auto.
Qed.
Print Assumptions C37_checked.

(* times that are not in increasing order are accepted, and the rule fails: at time 5 one
   switch time has passed but the first value set is still in force *)
Theorem C37_unsorted_refuted : exists (values : mat qc) (times : list Z) ex v,
  sched_init values times [1] = Ok ex /\ sched_code Z.leb ex times 5%Z = Ok v /\
  length (filter (fun x => Z.leb x 5%Z) times) = 1 /\ map this v = [10%Q] /\ map this (nth 1 values []) = [20%Q].
Proof.
  exists [[qi 10]; [qi 20]; [qi 30]; [qi 40]], [9%Z; 8%Z; 3%Z].
  exists [[qi 10]; [qi 20]; [qi 30]; [qi 40]], [qi 10].
  repeat split; vm_compute; reflexivity.
Qed.
Print Assumptions C37_unsorted_refuted.

Example C37_example :
  match sched_init (A := qc) [[qi 1; qi 2]; [qi 3; qi 4]; [qi 5; qi 6]] [10%Z; 20%Z] [2; 1] with
  | Ok ex => map (fun t => match sched_code Z.leb ex [10%Z; 20%Z] t with Ok v => map this v | Err _ => [] end) [0; 9; 10; 19; 20; 50]%Z
  | Err _ => [] end = [[1;1;2]; [1;1;2]; [3;3;4]; [3;3;4]; [5;5;6]; [5;5;6]]%Q.
Proof. vm_compute. reflexivity. Qed.

(* --------------------------------------------------------------------------- C38 *)

(* C38: row [min k (n-1)] at the k-th trigger, stamped with the time of the trigger; all
   triggers succeed. *)
Theorem C38_playback : forall V (hist : list V) v0 t0 ts d, hist <> [] ->
  exists l, grun (fun _ => th_code hist) (mkG v0 t0 0) ts = Ok l /\ length l = length ts /\
  forall k, k < length ts ->
    g_out (nth k l (mkG v0 t0 0)) = nth (Nat.min k (length hist - 1)) hist d /\
    g_time (nth k l (mkG v0 t0 0)) = nth k ts 0%Z.
Proof.
  intros V hist v0 t0 ts d Hh.
  destruct (grun_total (fun _ => th_code hist) ts (mkG v0 t0 0)) as [l E].
  { intros t k. exists (nth (Nat.min k (length hist - 1)) hist d). apply th_code_spec; auto. }
  exists l. destruct (grun_nth _ _ _ _ E) as [L H]. split; auto. split; auto. intros k Hk.
  destruct (H k Hk) as (v & Hv & ->). cbn in Hv. rewrite (th_code_spec hist k d Hh) in Hv. injection Hv as <-. auto.
Qed.
Print Assumptions C38_playback.

Theorem C38_empty_history : forall V (v0 : V) t0 t ts, grun (fun _ => th_code []) (mkG v0 t0 0) (t :: ts) = Err IndexError.
Proof. reflexivity. Qed.
Print Assumptions C38_empty_history.

Example C38_example : match grun (fun _ => th_code [7; 8; 9]%Z) (mkG 0%Z (-1)%Z 0) [0; 10; 20; 40; 50]%Z with
  | Ok l => map (fun s => (g_out s, g_time s)) l | Err _ => [] end = [(7, 0); (8, 10); (9, 20); (9, 40); (9, 50)]%Z.
Proof. reflexivity. Qed.

(* --------------------------------------------------------------------------- C39 *)

(* C39: the history exists exactly when there is an amplitude for each mode *)
Theorem C39_defined : forall A n_modes first (amps pattern : vec A) op ncycles nsamples grouped full,
  first <= n_modes ->
  (n_modes - first <= length amps -> exists H, pushpull n_modes first amps pattern op ncycles nsamples grouped full = Ok H) /\
  (length amps < n_modes - first -> pushpull n_modes first amps pattern op ncycles nsamples grouped full = Err IndexError).
Proof. intros. split; [apply pushpull_ok|apply pushpull_short]; auto. Qed.
Print Assumptions C39_defined.

(* its size and every entry.  [P] pattern entries, [L] cycles inside the block of a mode
   (1 if the whole sequence is repeated instead); row r is sample r/nsamples; mode m is
   poked in its own block of P*L samples, by amplitude times pattern; in a block the
   pattern repeats, or each pattern entry is held for L samples if grouped. *)
Theorem C39_history : forall A n_modes first (amps pattern : vec A) op ncycles nsamples grouped full H,
  first <= n_modes ->
  pushpull n_modes first amps pattern op ncycles nsamples grouped full = Ok H ->
  let pat := if op then [one] else pattern in
  let P := length pat in
  let L := if full then 1 else ncycles in
  let B := P * (n_modes - first) * L in
  length H = B * (if full then ncycles else 1) * nsamples /\
  (forall row, In row H -> length row = n_modes) /\
  forall r m, r < length H -> m < n_modes ->
    let q := (r / nsamples) mod B in
    nth m (nth r H []) zer =
    if Nat.eqb m (first + q / (P * L))
    then (nth (m - first) amps zer *
          nth (if grouped && negb full then (q mod (P * L)) / L else (q mod (P * L)) mod P) pat zer)%ar
    else zer.
Proof.
  intros A n_modes first amps pattern op ncycles nsamples grouped full H Hf E.
  exact (pushpull_entries n_modes first amps pattern op ncycles nsamples grouped full H Hf E).
Qed.
Print Assumptions C39_history.

(* at most one mode is poked at a time *)
Theorem C39_one_mode : forall A n_modes first (amps pattern : vec A) op ncycles nsamples grouped full H r m m',
  first <= n_modes -> pushpull n_modes first amps pattern op ncycles nsamples grouped full = Ok H ->
  r < length H -> m < n_modes -> m' < n_modes -> m <> m' ->
  nth m (nth r H []) zer = zer \/ nth m' (nth r H []) zer = zer.
Proof.
  intros A n_modes first amps pattern op ncycles nsamples grouped full H r m m' Hf E Hr Hm Hm' Hne.
  destruct (C39_history A _ _ _ _ _ _ _ _ _ H Hf E) as (_ & _ & HE). cbv zeta in HE.
  rewrite (HE r m), (HE r m') by auto.
  destruct (Nat.eqb_spec m (first + ((r / nsamples) mod (length (if op then [one] else pattern) * (n_modes - first) * (if full then 1 else ncycles))) / (length (if op then [one] else pattern) * (if full then 1 else ncycles)))); auto.
  destruct (Nat.eqb_spec m' (first + ((r / nsamples) mod (length (if op then [one] else pattern) * (n_modes - first) * (if full then 1 else ncycles))) / (length (if op then [one] else pattern) * (if full then 1 else ncycles)))); auto.
  lia.
Qed.
Print Assumptions C39_one_mode.

(* total of each mode; zero for a pattern of zero sum such as [1, -1] *)
Theorem C39_total : forall A (HF : is_field A) n_modes first (amps pattern : vec A) op ncycles nsamples grouped full H m,
  pushpull n_modes first amps pattern op ncycles nsamples grouped full = Ok H -> first <= m < n_modes ->
  sumn (length H) (fun r => nth m (nth r H []) zer) =
  (nth (m - first) amps zer * (of_nat (ncycles * nsamples)%nat * vsum (if op then [one] else pattern)))%ar.
Proof. intros. eapply pushpull_total; eauto. Qed.
Print Assumptions C39_total.

Theorem C39_pushpull_balances : forall A (HF : is_field A) n_modes first (amps : vec A) ncycles nsamples grouped full H m,
  pushpull n_modes first amps [one; opp one] false ncycles nsamples grouped full = Ok H -> first <= m < n_modes ->
  sumn (length H) (fun r => nth m (nth r H []) zer) = zer.
Proof.
  intros A HF n_modes first amps ncycles nsamples grouped full H m E Hm. rewrite (C39_total A HF _ _ _ _ _ _ _ _ _ _ _ E Hm).
  assert (HF' : Field_theory.field_theory (@zer A) one add mul sub opp dvd inv eq) by exact HF.
  pose proof (Field_theory.F_R HF') as R. cbv [vsum fold_left].
  rewrite (Ring_theory.Radd_0_l R), (Ring_theory.Ropp_def R).
  rewrite (Ring_theory.Rmul_comm R (of_nat _)), (Ring_theory.Rmul_comm R (nth _ _ _)).
  assert (Z : forall x : A, (zer * x)%ar = zer).
  { intros x. rewrite (Ring_theory.ARmul_0_l (Ring_theory.Rth_ARth (Eqsth _) (Eq_ext _ _ _) R)). reflexivity. }
  rewrite !Z. reflexivity.
Qed.
Print Assumptions C39_pushpull_balances.

(* the generator plays the rows; a trigger beyond the last row raises IndexError *)
Theorem C39_generator : forall A ty n_modes first (amps : option (vec A)) pattern ncycles nsamples grouped full H v0 t0 ts,
  pp_init ty n_modes first amps pattern ncycles nsamples grouped full = Ok H ->
  (length ts <= length H <-> exists l, grun (fun _ => pp_code H) (mkG v0 t0 0) ts = Ok l) /\
  forall l k, grun (fun _ => pp_code H) (mkG v0 t0 0) ts = Ok l -> k < length ts ->
    g_out (nth k l (mkG v0 t0 0)) = nth k H [] /\ g_time (nth k l (mkG v0 t0 0)) = nth k ts 0%Z.
Proof.
  intros A ty n_modes first amps pattern ncycles nsamples grouped full H v0 t0 ts _.
  assert (G : forall ts s, g_iter s + length ts <= length H -> exists l, grun (fun _ => pp_code H) s ts = Ok l).
  { clear. induction ts as [|t r IH]; intros s Hs; cbn [grun]; [eauto|]. unfold gstep, pp_code at 1.
    simpl length in Hs. destruct (nth_error H (g_iter s)) as [v|] eqn:E; [|apply nth_error_None in E; lia]. cbn [bind].
    destruct (IH (mkG v t (S (g_iter s)))) as [l ->]; [simpl; lia|]. cbn. eauto. }
  assert (G2 : forall l k, grun (fun _ => pp_code H) (mkG v0 t0 0) ts = Ok l -> k < length ts -> k < length H /\
    g_out (nth k l (mkG v0 t0 0)) = nth k H [] /\ g_time (nth k l (mkG v0 t0 0)) = nth k ts 0%Z).
  { intros l k E Hk. destruct (grun_nth _ _ _ _ E) as [_ Hn]. destruct (Hn k Hk) as (v & Hv & ->). cbn in Hv.
    unfold pp_code in Hv. destruct (nth_error H k) as [w|] eqn:En; [|discriminate]. injection Hv as <-.
    split; [apply nth_error_Some; congruence|]. cbn. rewrite (nth_error_nth _ _ _ En). auto. }
  split; [split|].
  - intros Hl. apply G. auto.
  - intros [l E]. destruct (Nat.le_gt_cases (length ts) (length H)) as [|Hg]; auto. destruct (G2 l (length H) E Hg). lia.
  - intros l k E Hk. apply (G2 l k E Hk).
Qed.
Print Assumptions C39_generator.

(* a single amplitude list is mandatory; several samples need the push-pull type *)
Theorem C39_rejects : forall A ty n_modes first (amps : vec A) pattern ncycles nsamples grouped full,
  pp_init ty n_modes first None pattern ncycles nsamples grouped full = Err ValueError /\
  (nsamples <> 1 -> ty <> PUSHPULL -> pp_init ty n_modes first (Some amps) pattern ncycles nsamples grouped full = Err ValueError) /\
  pp_init OtherType n_modes first (Some amps) pattern ncycles nsamples grouped full = Err ValueError.
Proof.
  intros A ty n_modes first amps pattern ncycles nsamples grouped full. split; [reflexivity|]. split.
  - intros Hs Ht. unfold pp_init. destruct (Nat.eqb_spec nsamples 1); [congruence|]. destruct ty; auto. congruence.
  - unfold pp_init. destruct (_ && _); reflexivity.
Qed.
Print Assumptions C39_rejects.

Definition hshow (r : res (mat qc)) := match r with Ok H => map (map this) H | Err _ => [] end.
(* two modes from mode 1 of 3; two cycles, two samples each *)
Example C39_example : hshow (pushpull 3 1 [qi 5; qi 7] [qi 1; qi (-1)] false 2 1 false false) =
  [[0;5;0]; [0;-5;0]; [0;5;0]; [0;-5;0]; [0;0;7]; [0;0;-7]; [0;0;7]; [0;0;-7]]%Q.
Proof. vm_compute. reflexivity. Qed.
Example C39_example_grouped : hshow (pushpull 3 1 [qi 5; qi 7] [qi 1; qi (-1)] false 2 1 true false) =
  [[0;5;0]; [0;5;0]; [0;-5;0]; [0;-5;0]; [0;0;7]; [0;0;7]; [0;0;-7]; [0;0;-7]]%Q.
Proof. vm_compute. reflexivity. Qed.
Example C39_example_full : hshow (pushpull 2 0 [qi 5; qi 7] [qi 1; qi (-1)] false 2 2 true true) =
  [[5;0]; [5;0]; [-5;0]; [-5;0]; [0;7]; [0;7]; [0;-7]; [0;-7];
   [5;0]; [5;0]; [-5;0]; [-5;0]; [0;7]; [0;7]; [0;-7]; [0;-7]]%Q.
Proof. vm_compute. reflexivity. Qed.
