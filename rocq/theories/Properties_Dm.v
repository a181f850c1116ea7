(* C51: surface of a deformable mirror. *)
From Coq Require Import List ZArith Bool Lia PeanoNat QArith Qcanon Field.
From Verif Require Import PyBase PyLemmas Arith ArithLemmas FilterSpec SumLemmas NpModel NpSpec NpProofs NpSegments VecModel VecProofs VecProofs2
  DmModel DmSpec DmProofs Properties_Filter.
Import ListNotations.
Local Open Scope nat_scope.

Definition dflt (d : Z) (o : option Z) : Z := match o with Some v => v | None => d end.

(* modes start, ..., nmodes-1: the first command element goes to mode [start] *)
Theorem C51_range : forall A (ifm : mat A) npix start nmodes sign c st0 (s n : nat) hist,
  dm_init ifm npix start nmodes None None sign = Ok (c, st0) ->
  dflt 0 start = Z.of_nat s -> dflt (zlen ifm) nmodes = Z.of_nat n -> s <= n <= length ifm -> hist <> [] ->
  exists st, dm_run c st0 hist = Ok st /\
    ds_phase st = map (pixel (map (fun i => signed sign (last_command (n - s) hist i)) (seq 0 (n - s)))
                             (firstn (n - s) (skipn s ifm))) (seq 0 npix).
Proof.
  intros A ifm npix start nmodes sign c st0 s n hist H Es En Hs Hh. unfold dm_init in H.
  assert (E : Ok (mkDm ifm npix (MSlice (dflt 0 start) (dflt (zlen ifm) nmodes)) (Z.max 0 (dflt (zlen ifm) nmodes - dflt 0 start))
                  (dflt (zlen ifm) nmodes - dflt 0 start) None sign, mkDmSt (zeros (length ifm)) [] (zeros npix)) = Ok (c, st0)).
  { rewrite <- H. unfold dflt. reflexivity. }
  clear H. injection E as <- <-. rewrite Es, En.
  replace (Z.of_nat n - Z.of_nat s)%Z with (Z.of_nat (n - s)) by lia. rewrite Z.max_r by lia.
  destruct (dm_direct (mkDm ifm npix (MSlice (Z.of_nat s) (Z.of_nat n)) (Z.of_nat (n - s)) (Z.of_nat (n - s)) None sign)
             (mkDmSt (zeros (length ifm)) [] (zeros npix)) (firstn (n - s) (skipn s ifm)) (n - s) (n - s) hist) as (st & R & _ & _ & P);
    cbn [dm_m2c dm_nmodes dm_nvalid dm_if dm_npix dm_valid ds_if ds_phase pick]; auto; try lia.
  - unfold slice2. rewrite take_segment; [|intros v E; injection E as <-; lia|intros v E; injection E as <-; lia].
    cbn [obound]. now rewrite !Nat2Z.id.
  - rewrite firstn_length, skipn_length. lia.
  - apply repeat_length.
  - exists st. split; [exact R|]. exact (P Hh).
Qed.
Print Assumptions C51_range.

(* a list of modes *)
Theorem C51_listed : forall A (ifm : mat A) npix is ps sign c st0 hist,
  dm_init ifm npix None None (Some is) None sign = Ok (c, st0) ->
  Forall2 (denotes (zlen ifm)) is ps -> length is <= length ifm -> hist <> [] ->
  exists st, dm_run c st0 hist = Ok st /\
    ds_phase st = map (pixel (map (fun i => signed sign (last_command (length ifm) hist i)) (seq 0 (length is)))
                             (map (fun p => nth (Z.to_nat p) ifm []) ps)) (seq 0 npix).
Proof.
  intros A ifm npix is ps sign c st0 hist H D L Hh. cbn [dm_init bind] in H. injection H as <- <-.
  assert (T : take_list ifm is = Ok (map (fun p => nth (Z.to_nat p) ifm []) ps)).
  { apply take_list_ok. exists ps. split; [exact D|]. split; [apply map_length|]. intros i p Hp.
    pose proof (denotes_range _ _ _ D p (nth_error_In _ _ Hp)) as R. split; [exact R|].
    rewrite nth_error_map, Hp. cbn. symmetry. apply nth_error_nth'. unfold zlen in R. lia. }
  destruct (dm_direct (mkDm ifm npix (MList is) (zlen is) (zlen ifm - 0) None sign)
             (mkDmSt (zeros (length ifm)) [] (zeros npix)) (map (fun p => nth (Z.to_nat p) ifm []) ps) (length ifm) (length is) hist) as (st & R & _ & _ & P);
    cbn [dm_m2c dm_nmodes dm_nvalid dm_if dm_npix dm_valid ds_if ds_phase pick]; auto; try lia.
  - unfold zlen. lia.
  - rewrite map_length. symmetry. now apply (Forall2_len _ _ _ D).
  - apply repeat_length.
  - exists st. split; [exact R|]. exact (P Hh).
Qed.
Print Assumptions C51_listed.

(* with a mode-to-command matrix: the commands are modes, converted to actuators *)
Theorem C51_modal : forall A (ifm : mat A) npix start nmodes sign M C c st0 (s n : nat) hist,
  dm_init ifm npix start nmodes None (Some M) sign = Ok (c, st0) ->
  dflt 0 start = Z.of_nat s -> dflt (zlen ifm) nmodes = Z.of_nat n -> s <= n <= C ->
  M <> [] -> length M <= length ifm -> (forall r, In r M -> length r = C) -> hist <> [] ->
  exists st, dm_run c st0 hist = Ok st /\
    let modes := map (fun i => plain (last_command (n - s) hist i)) (seq 0 (n - s)) in
    let actuators := mv (map (fun r => firstn (n - s) (skipn s r)) M) modes in
    ds_phase st = map (pixel (map (fun x => mul sign x) actuators ++ zeros (length ifm - length M)) ifm) (seq 0 npix).
Proof.
  intros A ifm npix start nmodes sign M C c st0 s n hist H Es En Hs HM HL HR Hh.
  assert (E : (mc <- (w <- pick_cols (MSlice (dflt 0 start) (dflt (zlen ifm) nmodes)) M ;; Ok (zeros (length (hd [] w)))) ;;
      Ok (mkDm ifm npix (MSlice (dflt 0 start) (dflt (zlen ifm) nmodes)) (Z.max 0 (dflt (zlen ifm) nmodes - dflt 0 start))
                  (dflt (zlen ifm) nmodes - dflt 0 start) (Some M) sign, mkDmSt (zeros (length ifm)) mc (zeros npix))) = Ok (c, st0)).
  { rewrite <- H. unfold dflt. reflexivity. }
  clear H. rewrite Es, En in E. set (W := map (fun r => firstn (n - s) (skipn s r)) M).
  assert (PW : pick_cols (MSlice (Z.of_nat s) (Z.of_nat n)) M = Ok W).
  { unfold pick_cols, W. clear. induction M as [|r M IH]; [reflexivity|]. cbn [map_res map]. unfold pick at 1. rewrite slice2_seg. cbn [bind]. now rewrite IH. }
  rewrite PW in E. cbn [bind] in E. injection E as <- <-.
  replace (Z.of_nat n - Z.of_nat s)%Z with (Z.of_nat (n - s)) by lia.
  assert (LW : length W = length M) by (unfold W; apply map_length).
  assert (RW : forall r, In r W -> length r = n - s).
  { intros r Hr. unfold W in Hr. apply in_map_iff in Hr as (x & <- & Hx). rewrite firstn_length, skipn_length, (HR x Hx). lia. }
  assert (HW : length (hd [] W) = n - s) by (destruct M as [|r M]; [congruence|]; apply RW; now left).
  destruct (dm_modal (mkDm ifm npix (MSlice (Z.of_nat s) (Z.of_nat n)) (Z.max 0 (Z.of_nat (n - s))) (Z.of_nat (n - s)) (Some M) sign)
             (mkDmSt (zeros (length ifm)) (zeros (length (hd [] W))) (zeros npix)) M W (n - s) (n - s) hist) as (st & R & _ & _ & _ & _ & P);
    cbn [dm_m2c dm_nmodes dm_nvalid dm_if dm_npix dm_valid ds_if ds_phase ds_m2c]; auto; try lia.
  all: try (rewrite LW; exact HL). all: try (now rewrite HW). all: try apply repeat_length. all: try reflexivity.
  exists st. split; [exact R|]. specialize (P Hh). cbn [dm_sign dm_if dm_npix] in P. rewrite LW in P. exact P.
Qed.
Print Assumptions C51_modal.

Lemma nth_seg {X} (l : list X) k s i d : i < k -> nth i (firstn k (skipn s l)) d = nth (s + i) l d.
Proof.
  intros H. revert s i k H. induction l as [|x l IH]; intros s i k H.
  - rewrite skipn_nil, firstn_nil. destruct i, s; reflexivity.
  - destruct s as [|s].
    + destruct k; [lia|]. destruct i; [reflexivity|]. cbn [skipn firstn nth Nat.add]. exact (IH 0 i k ltac:(lia)).
    + cbn [skipn nth Nat.add]. apply IH. exact H.
Qed.

(* Exact arithmetic: if no earlier command was longer than the last one, the surface is
   sign times the combination of the modes with the last command, missing elements
   counting as zero. *)
Theorem C51_last_command : forall A (ifm : mat A) npix start nmodes sign c st0 (s n : nat) hist x, is_field A ->
  dm_init ifm npix start nmodes None None sign = Ok (c, st0) ->
  dflt 0 start = Z.of_nat s -> dflt (zlen ifm) nmodes = Z.of_nat n -> s <= n <= length ifm ->
  (forall y, In y hist -> Nat.min (n - s) (length y) <= length x) ->
  exists st, dm_run c st0 (hist ++ [x]) = Ok st /\ length (ds_phase st) = npix /\
    forall j, j < npix -> nth j (ds_phase st) zer = mul sign (sumn (n - s) (fun i => mul (nth i x zer) (nth j (nth (s + i) ifm []) zer))).
Proof.
  intros A ifm npix start nmodes sign c st0 s n hist x HF H Es En Hs Hl.
  destruct (C51_range A ifm npix start nmodes sign c st0 s n (hist ++ [x]) H Es En Hs ltac:(intros Q; destruct hist; discriminate)) as (st & R & P).
  exists st. split; [exact R|]. split; [rewrite P, map_length, seq_length; reflexivity|]. intros j Hj. rewrite P, nth_map_seq by exact Hj.
  unfold pixel. rewrite (dot_sumn A _ _ (n - s)); [|now rewrite map_length, seq_length|rewrite map_length, firstn_length, skipn_length; lia].
  rewrite <- (sumn_scale A HF). apply sumn_ext. intros i Hi. rewrite nth_map_seq by exact Hi.
  assert (Q : nth i (map (fun r : vec A => nth j r zer) (firstn (n - s) (skipn s ifm))) zer = nth j (nth (s + i) ifm []) zer).
  { rewrite (nth_indep _ _ (nth j [] zer)) by (rewrite map_length, firstn_length, skipn_length; lia). rewrite (map_nth (fun r : vec A => nth j r zer)).
    f_equal. apply nth_seg. exact Hi. }
  rewrite Q. rewrite last_snoc. destruct HF as [[R0l Rac Ras M1l Mc Ma Dl Su Op] F1 F2 F3].
  assert (Z0 : forall a : A, mul zer a = zer).
  { intros a. assert (E : add (mul zer a) (mul zer a) = add zer (mul zer a)) by (rewrite <- Dl, !R0l; reflexivity).
    assert (T : add (add (mul zer a) (mul zer a)) (opp (mul zer a)) = add (add zer (mul zer a)) (opp (mul zer a))) by (now rewrite E).
    rewrite <- !Ras, !Op in T. rewrite Rac, R0l in T. rewrite T. apply R0l. }
  destruct (Nat.ltb_spec i (Nat.min (n - s) (length x))) as [L|L]; cbn [signed].
  - now rewrite Ma.
  - rewrite (nth_overflow x) by lia.
    assert (N : last_command (n - s) hist i = None).
    { unfold last_command. destruct (find _ (rev hist)) as [y|] eqn:F; [|reflexivity]. exfalso.
      apply find_some in F as [I T]. apply Nat.ltb_lt in T. apply in_rev in I. specialize (Hl y I). lia. }
    rewrite N. cbn [signed]. rewrite !Z0. rewrite Mc. symmetry. apply Z0.
Qed.
Print Assumptions C51_last_command.

(* A shorter command does not count as zero after a longer one: earlier elements stay. *)
Theorem C51_missing_is_zero_refuted : exists (ifm : mat qc) c st0 st,
  dm_init ifm 2 None None None None (qi (-1)) = Ok (c, st0) /\
  dm_run c st0 [[qi 1; qi 2]; [qi 3]] = Ok st /\ map this (ds_phase st) = map this [qi (-3); qi (-2)].
Proof.
  exists [[qi 1; qi 0]; [qi 0; qi 1]]. eexists. eexists. eexists. split; [reflexivity|]. split; [reflexivity|]. reflexivity.
Qed.
Print Assumptions C51_missing_is_zero_refuted.

Theorem C51_arguments : forall A (ifm : mat A) npix is s n m2c sign, s <> None \/ n <> None ->
  dm_init ifm npix s n (Some is) m2c sign = Err ValueError.
Proof. intros A ifm npix is [s|] [n|] m2c sign [H|H]; congruence || reflexivity. Qed.
Print Assumptions C51_arguments.

Example C51_example :
  let ifm : mat qc := [[qi 1; qi 10]; [qi 2; qi 20]; [qi 3; qi 30]] in
  let go (r : res (dm_cfg qc * dm_state qc)) hist := match r with Ok (c, s) => match dm_run c s hist with Ok t => Some (map this (ds_phase t)) | Err _ => None end | Err _ => None end in
  (* start mode 1, too long command cut *)
  go (dm_init ifm 2 (Some 1%Z) None None None (qi (-1))) [[qi 1; qi 1; qi 100]] = Some (map this [qi (-5); qi (-50)]) /\
  go (dm_init ifm 2 None None (Some [2; 0]%Z) None (qi 1)) [[qi 1; qi 2]] = Some (map this [qi 5; qi 50]) /\
  go (dm_init ifm 2 None (Some 2%Z) None (Some [[qi 1; qi 1]; [qi 0; qi 2]; [qi 0; qi 0]]) (qi 1)) [[qi 1; qi 3]] = Some (map this [qi 16; qi 160]).
Proof. vm_compute. repeat split; reflexivity. Qed.

(* Modes may be listed twice, but not more of them than the matrix has: then no command is accepted. *)
Theorem C51_too_many : forall A (ifm : mat A) npix is ps sign c st0 input, Forall2 (denotes (zlen ifm)) is ps -> length ifm < length is ->
  dm_init ifm npix None None (Some is) None sign = Ok (c, st0) -> dm_trigger c st0 input = Err ValueError.
Proof.
  intros A ifm npix is ps sign c st0 x D L H. cbn [dm_init bind] in H. injection H as <- <-.
  assert (T : take_list ifm is = Ok (map (fun p => nth (Z.to_nat p) ifm []) ps)).
  { apply take_list_ok. exists ps. split; [exact D|]. split; [apply map_length|]. intros i p Hp.
    pose proof (denotes_range _ _ _ D p (nth_error_In _ _ Hp)) as R. split; [exact R|].
    rewrite nth_error_map, Hp. cbn. symmetry. apply nth_error_nth'. unfold zlen in R. lia. }
  unfold dm_trigger. cbn [dm_m2c dm_nmodes dm_nvalid dm_if dm_npix dm_valid ds_if ds_phase dm_sign pick].
  replace (zlen ifm - 0)%Z with (Z.of_nat (length ifm)) by (unfold zlen; lia). rewrite take_prefix. cbn [bind].
  assert (Z1 : zlen (firstn (length ifm) x) = zlen (map (fun y => mul sign y) (firstn (length ifm) x))) by (unfold zlen; now rewrite map_length).
  rewrite Z1, assign_prefix by (rewrite map_length, firstn_length; unfold zeros; rewrite repeat_length; lia). cbn [bind].
  change (zlen is) with (Z.of_nat (length is)). change 0%Z with (Z.of_nat 0). rewrite slice2_seg. cbn [bind skipn]. rewrite T. cbn [bind]. unfold vecmat.
  match goal with |- context [Nat.eqb ?a ?b] => destruct (Nat.eqb_spec a b) as [Q|Q] end; [exfalso|reflexivity].
  pose proof (Forall2_len _ _ _ D) as LD. unfold zeros in Q. repeat (rewrite ?map_length, ?firstn_length, ?app_length, ?skipn_length, ?repeat_length in Q). lia.
Qed.
Print Assumptions C51_too_many.
Example C51_too_many_example :
  let ifm : mat qc := [[qi 1; qi 10]; [qi 2; qi 20]] in
  match dm_init ifm 2 None None (Some [0; 1; 1]%Z) None (qi (-1)) with Ok (c, s) => dm_trigger c s [qi 1; qi 2; qi 3] = Err ValueError | Err _ => False end.
Proof. reflexivity. Qed.
