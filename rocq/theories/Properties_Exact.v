(* Exact conditions and kinds of errors, and conventions that other theorems leave open. *)
From Coq Require Import String List ZArith Bool Arith Lia.
From Verif Require Import PyBase PyLemmas Arith.
From Verif Require ConnProofs ScreenProofs NpModel FieldModel RebinModel ScreenModel SecondsModel VecModel WindowModel RecModel SlopecModel GenModel OpticalModel NamesModel TagModel LoopModel FitsModel.
Import ListNotations.

(* ------------------------------------------------------------------- numbers *)
(* a time halfway between two representable ones is rounded to the even one *)
Theorem C23_halves : forall n d, (0 < d)%Z -> (2 * (n mod d) = d)%Z -> Z.even (SecondsModel.half_even n d) = true.
Proof.
  intros n d D H. unfold SecondsModel.half_even. cbv zeta. rewrite (Z.mul_comm (n / d) d). rewrite <- Z.mod_eq by lia. rewrite H, Z.compare_refl.
  destruct (Z.even (n / d)) eqn:E; [exact E|]. rewrite Z.even_add, E. reflexivity.
Qed.
Print Assumptions C23_halves.
Example C23_halves_example : SecondsModel.half_even 5 2 = 2%Z /\ SecondsModel.half_even 7 2 = 4%Z.
Proof. split; reflexivity. Qed.

(* ------------------------------------------------------------------- fields and arrays *)
(* two fields fit exactly when their sizes differ by the corner of the rectangle *)
Theorem C79_fits : forall A e e2 s, let c := match s with Some c => c | None => (0, 0)%Z end in
  FieldModel.check_other A e e2 s =
  if (Z.of_nat (FieldModel.ef_rows A e2) + fst c =? Z.of_nat (FieldModel.ef_rows A e))%Z && (Z.of_nat (FieldModel.ef_cols A e2) + snd c =? Z.of_nat (FieldModel.ef_cols A e))%Z then Ok c else Err ValueError.
Proof.
  intros A e e2 s c. unfold FieldModel.check_other. fold c. cbv zeta.
  set (r := Z.of_nat (FieldModel.ef_rows A e)). set (r2 := Z.of_nat (FieldModel.ef_rows A e2)). set (q := Z.of_nat (FieldModel.ef_cols A e)). set (q2 := Z.of_nat (FieldModel.ef_cols A e2)).
  destruct (Z.eqb_spec r2 (r - fst c)), (Z.eqb_spec (r2 + fst c) r), (Z.eqb_spec q2 (q - snd c)), (Z.eqb_spec (q2 + snd c) q); cbn [andb]; try lia; reflexivity.
Qed.
Print Assumptions C79_fits.
(* sampling to another size is refused exactly when the new size is empty *)
Theorem C66_sampling_refused : forall (A : arith) (a : FitsModel.arr2 A) (m n : nat), 
  RebinModel.rebin_sample A a m n = Err ZeroDivisionError <-> (m = 0 \/ n = 0) /\ ~ (FitsModel.a_r a = m /\ FitsModel.a_c a = n).
Proof.
  intros A a m n. unfold RebinModel.rebin_sample. destruct (Nat.eqb_spec (FitsModel.a_r a) m), (Nat.eqb_spec (FitsModel.a_c a) n), (Nat.eqb_spec m 0), (Nat.eqb_spec n 0); cbn [andb orb]; (split; [intros H; try discriminate; tauto|intros [B C]; try tauto; try reflexivity; exfalso; lia]).
Qed.
Print Assumptions C66_sampling_refused.
Theorem C66_sampling_errors : forall (A : arith) (a : FitsModel.arr2 A) (m n : nat) e, RebinModel.rebin_sample A a m n = Err e -> e = ZeroDivisionError.
Proof. intros A a m n e. unfold RebinModel.rebin_sample. destruct (_ && _); [discriminate|]. destruct (_ || _); [congruence|discriminate]. Qed.
Print Assumptions C66_sampling_errors.

(* ------------------------------------------------------------------- phase screens *)
(* a file with any of the four names is used as it is *)
Theorem C84_old_names : forall calc d r a x y, (forall x' y' b, ScreenModel.find_file d (ScreenModel.name_of x' y' r) = Some b -> b = a) ->
  ScreenModel.find_file d (ScreenModel.name_of x y r) = Some a -> ScreenModel.get_screen calc d r = (a, d).
Proof.
  intros calc d r a x y U H. unfold ScreenModel.get_screen.
  destruct (ScreenModel.find_file d (ScreenModel.name_of false false r)) as [b|] eqn:E1; [now rewrite (U _ _ _ E1)|].
  destruct (ScreenModel.find_file d (ScreenModel.name_of false true r)) as [b|] eqn:E2; [now rewrite (U _ _ _ E2)|].
  destruct (ScreenModel.find_file d (ScreenModel.name_of true false r)) as [b|] eqn:E3; [now rewrite (U _ _ _ E3)|].
  destruct (ScreenModel.find_file d (ScreenModel.name_of true true r)) as [b|] eqn:E4; [now rewrite (U _ _ _ E4)|].
  exfalso. destruct x, y; congruence.
Qed.
Print Assumptions C84_old_names.
(* without any of them it is computed once, and found the next time *)
Theorem C84_new_file : forall calc d r, (forall x y, ScreenModel.find_file d (ScreenModel.name_of x y r) = None) ->
  fst (ScreenModel.get_screen calc d r) = calc r /\ ScreenModel.get_screen calc (snd (ScreenModel.get_screen calc d r)) r = (calc r, snd (ScreenModel.get_screen calc d r)).
Proof.
  intros calc d r N. assert (E : ScreenModel.get_screen calc d r = (calc r, (ScreenModel.name_of false false r, calc r) :: d)) by (unfold ScreenModel.get_screen; rewrite !N; reflexivity).
  rewrite E. split; [reflexivity|]. cbn [snd]. unfold ScreenModel.get_screen. cbn [ScreenModel.find_file]. rewrite (proj2 (ScreenProofs.fname_eqb_true _ _) eq_refl). reflexivity.
Qed.
Print Assumptions C84_new_file.

(* ------------------------------------------------------------------- vectors *)
(* the combination of commands is set up exactly when no size is negative *)
Theorem C49_sizes : forall (A : arith) (c : VecModel.comb_cfg A), ((exists r, VecModel.comb_init c = Ok r) <->
  (0 <= VecModel.cc_out1 c /\ 0 <= VecModel.cc_out2 c /\ 0 <= VecModel.cc_out3 c /\ 0 <= VecModel.cc_LO1 c /\ VecModel.cc_LO1 c + VecModel.cc_LO3 c <= VecModel.cc_out1 c)%Z) /\
  (forall e, VecModel.comb_init c = Err e -> e = ValueError).
Proof.
  intros A c. unfold VecModel.comb_init.
  destruct (Z.ltb_spec (VecModel.cc_out1 c) 0), (Z.ltb_spec (VecModel.cc_out2 c) 0), (Z.ltb_spec (VecModel.cc_out3 c) 0), (Z.ltb_spec (VecModel.cc_LO1 c) 0), (Z.ltb_spec (VecModel.cc_out1 c - VecModel.cc_LO1 c - VecModel.cc_LO3 c) 0); cbn [orb];
  (split; [split; [intros [x Hx]; first [discriminate|lia]|intros Q; first [exfalso; lia|eexists; reflexivity]]|intros e Q; congruence]).
Qed.
Print Assumptions C49_sizes.
(* a window is set up exactly when its length is a positive multiple of the step *)
Theorem C34_setup : forall (A : arith) (c : WindowModel.wcfg A), (0 < WindowModel.w_loop c)%Z ->
  ((exists s, WindowModel.winit c = Ok s) <-> (0 < WindowModel.w_dt c)%Z /\ (WindowModel.w_loop c | WindowModel.w_dt c)%Z) /\ (forall e, WindowModel.winit c = Err e -> e = ValueError).
Proof.
  intros A c L. unfold WindowModel.winit. destruct (Z.leb_spec (WindowModel.w_dt c) 0) as [D|D]; [split; [split; [intros [s H]; discriminate|intros [H _]; lia]|congruence]|].
  destruct (Z.eqb_spec (WindowModel.w_loop c) 0) as [Z|Z]; [lia|]. destruct (Z.eqb_spec (WindowModel.w_dt c mod WindowModel.w_loop c) 0) as [M|M]; cbn [negb].
  - split; [split; [intros _; split; [exact D|now apply Z.mod_divide]|intros _; eexists; reflexivity]|discriminate].
  - split; [split; [intros [s H]; discriminate|intros [_ H]; exfalso; apply M; now apply Z.mod_divide]|congruence].
Qed.
Print Assumptions C34_setup.
(* products of matrices and vectors of different sizes are errors of the same kind *)
Theorem C52_products : forall (A : arith) (M N : mat A) e, RecModel.matmat M N = Err e -> e = ValueError /\ ~ (forall r, In r M -> length r = length N).
Proof.
  intros A M N e. unfold RecModel.matmat. destruct (forallb _ M) eqn:F; [discriminate|]. intros H. split; [congruence|]. intros Q. assert (X : forallb (fun r => Nat.eqb (length r) (length N)) M = true) by (apply forallb_forall; intros r I; apply Nat.eqb_eq; now apply Q). congruence.
Qed.
Print Assumptions C52_products.
Theorem C75_products : forall (A : arith) (v : vec A) (M : mat A) e, SlopecModel.vm A v M = Err e <-> e = ValueError /\ length v <> length M.
Proof.
  intros A v M e. unfold SlopecModel.vm. destruct (Nat.eqb_spec (length v) (length M)) as [E|E]; split; intros H; try discriminate; try (destruct H; contradiction); [split; [congruence|exact E]|]. destruct H as [-> _]. reflexivity.
Qed.
Print Assumptions C75_products.
(* a reconstructor of several sensors without tables of the right sizes is a ValueError *)
Theorem C53_errors : forall (A : arith) (recs : list (mat A)) masks n e, RecModel.mr_init recs masks n = Err e -> e = ValueError.
Proof.
  assert (T : forall (A : arith) l (t : list (list bool * mat A)) e, RecModel.mask_table t l = Err e -> e = ValueError).
  { intros A l. induction l as [|[m R] l IH]; intros t e H; cbn [RecModel.mask_table] in H; [discriminate|]. destruct (RecModel.mask_get m t); [congruence|]. eapply IH. exact H. }
  intros A recs masks n e H. unfold RecModel.mr_init in H. destruct n as [n|]; [|congruence]. destruct recs as [|r recs]; [congruence|]. destruct masks as [|m masks]; [congruence|].
  destruct (negb (Nat.eqb _ _)); [congruence|]. destruct (RecModel.mask_table [] _) as [t|e'] eqn:M; cbn [bind] in H; [|assert (e' = e) by congruence; subst; eapply T; exact M].
  repeat match type of H with (if ?b then _ else _) = _ => destruct b end; congruence.
Qed.
Print Assumptions C53_errors.
(* an implicit reconstructor lacking one of its matrices is a ValueError *)
Theorem C52_implicit_needs_all : forall (A : arith) (a : RecModel.rec_args A) b,
  RecModel.modalrec_init (RecModel.mkRecArgs (RecModel.ra_nmodes a) (RecModel.ra_recmat a) (RecModel.ra_projmat a) (RecModel.ra_intmat a) true (RecModel.ra_csize a) None false (RecModel.ra_ncut a) (RecModel.ra_discard a)) = Ok b ->
  RecModel.rc_R b = None \/ RecModel.rc_P b = None \/ RecModel.rc_D b = None -> RecModel.implicit_init a = Err ValueError.
Proof.
  intros A a b H N. unfold RecModel.implicit_init. rewrite H. cbn [bind]. destruct (RecModel.rc_R b), (RecModel.rc_P b), (RecModel.rc_D b); try reflexivity. destruct N as [N|[N|N]]; discriminate.
Qed.
Print Assumptions C52_implicit_needs_all.

(* ------------------------------------------------------------------- names and connections *)
(* an element of a list of inputs that is not a string is a TypeError *)
Theorem C01_not_a_string : forall v, (forall s, v <> YStr s) -> NamesModel.delay_v v = Err TypeError /\ NamesModel.owner_v v = Err TypeError.
Proof. intros v H. destruct v; try (split; reflexivity). exfalso. eapply H. reflexivity. Qed.
Print Assumptions C01_not_a_string.
(* an object or output that nobody has is a ValueError; a destination that nobody has is a KeyError *)
Theorem C67_unknown : forall hash (p : TagModel.process) name inp dst o, NamesModel.split_output name = Ok o ->
  (dget (NamesModel.o_obj o) (TagModel.p_objs p) = None -> dget (NamesModel.o_obj o) (TagModel.p_remote p) = None -> TagModel.connect hash p name inp dst = Err ValueError) /\
  (forall outs k, dget (NamesModel.o_obj o) (TagModel.p_objs p) = Some outs -> NamesModel.o_key o = Some k -> ~ In k outs -> TagModel.connect hash p name inp dst = Err ValueError) /\
  (forall outs, dget (NamesModel.o_obj o) (TagModel.p_objs p) = Some outs -> (forall k, NamesModel.o_key o = Some k -> In k outs) -> dget dst (TagModel.p_objs p) = None -> dget dst (TagModel.p_remote p) = None ->
     TagModel.connect hash p name inp dst = Err KeyError).
Proof.
  intros hash p name inp dst o S. unfold TagModel.connect. rewrite S. cbn [bind]. unfold TagModel.get_ref, dmem. split; [|split].
  - intros -> ->. reflexivity.
  - intros outs k -> -> N. replace (existsb (String.eqb k) outs) with false; [reflexivity|]. symmetry. apply not_true_is_false. intros E. apply existsb_exists in E. destruct E as [x [I E]]. apply String.eqb_eq in E. subst. contradiction.
  - intros outs -> K -> ->. replace (match NamesModel.o_key o with Some k => if existsb (String.eqb k) outs then Ok true else Err ValueError | None => Ok true end) with (@Ok bool true); [reflexivity|].
    destruct (NamesModel.o_key o) as [k|]; [|reflexivity]. replace (existsb (String.eqb k) outs) with true; [reflexivity|]. symmetry. apply existsb_exists. exists k. split; [now apply K|apply String.eqb_refl].
Qed.
Print Assumptions C67_unknown.

(* ------------------------------------------------------------------- running *)
(* without a step there are no iterations; otherwise as many as whole steps fit *)
Theorem C12_iterations : forall run dt t0, LoopModel.niters run 0 t0 = 0%Z /\ ((0 < dt)%Z -> (0 <= run + t0)%Z ->
  (LoopModel.niters run dt t0 * dt <= run + t0 < (LoopModel.niters run dt t0 + 1) * dt)%Z).
Proof.
  intros run dt t0. split; [reflexivity|]. intros D P. unfold LoopModel.niters. destruct (Z.eqb_spec dt 0) as [E|_]; [lia|]. pose proof (Z.quot_rem' (run + t0) dt) as Q. pose proof (Z.rem_bound_pos (run + t0) dt P D) as R. nia.
Qed.
Print Assumptions C12_iterations.
(* finishing a step that was not started is a RuntimeError *)
Theorem C11_not_started : forall St Dt outs cod t (w : LoopModel.world St) o, LoopModel.w_chg St w o = false ->
  LoopModel.obj_post St Dt outs cod t w o = Err RuntimeError.
Proof. intros St Dt outs cod t w o H. unfold LoopModel.obj_post. rewrite H. reflexivity. Qed.
Print Assumptions C11_not_started.
(* a first mode beyond the last is a ValueError as soon as something is to be poked *)
Theorem C39_first_mode : forall (A : arith) n_modes first (amps pattern : vec A) ncycles nsamples grouped, (n_modes < first)%nat -> pattern <> [] -> (0 < ncycles)%nat ->
  GenModel.pushpull n_modes first amps pattern false ncycles nsamples grouped false = Err ValueError.
Proof.
  intros A n_modes first amps pattern nc ns g H P C. unfold GenModel.pushpull. apply Nat.ltb_lt in H. rewrite H. cbn [andb]. destruct pattern as [|x l]; [congruence|]. replace (Nat.ltb 0 _) with true; [reflexivity|]. symmetry. apply Nat.ltb_lt. cbn [length]. nia.
Qed.
Print Assumptions C39_first_mode.
(* a column that does not exist is an IndexError, rows of different lengths are a ValueError *)
Theorem C70_columns : forall (A : Type) (zero : A) rows i, 
  ((forall r, In r rows -> length r <= i) -> (forall r r', In r rows -> In r' rows -> length r = length r') -> OpticalModel.column_i zero rows i = Err IndexError) /\
  (forall r r', In r rows -> In r' rows -> length r <> length r' -> OpticalModel.column_i zero rows i = Err ValueError).
Proof.
  intros A zero rows i. unfold OpticalModel.column_i. destruct rows as [|r0 rows]; [split; [reflexivity|intros r r' []]|]. split.
  - intros L S. replace (forallb _ (r0 :: rows)) with true; [|symmetry; apply forallb_forall; intros r I; apply Nat.eqb_eq; apply S; [exact I|now left]]. replace (i <? length r0) with false; [reflexivity|]. symmetry. apply Nat.ltb_ge. apply L. now left.
  - intros r r' I I' N. replace (forallb _ (r0 :: rows)) with false; [reflexivity|]. symmetry. apply not_true_is_false. intros F. rewrite forallb_forall in F. pose proof (F r I) as E. pose proof (F r' I') as E'. apply Nat.eqb_eq in E, E'. congruence.
Qed.
Print Assumptions C70_columns.

(* ------------------------------------------------------------------- files *)
(* an interaction matrix in a file without normalisation factor: the factor is zero, and read as the tag of the pupil *)
Theorem C57_no_factor : forall (A : arith) (ofz : Z -> A) fs name (f : FitsModel.fits A) m b, dget name fs = Some f -> FitsModel.f_blocks A f = [b; FitsModel.BMat A m] -> FitsModel.f_hdr A f = [] ->
  exists r, FitsModel.restore_intmat A ofz fs name = Ok r /\ FitsModel.im_mat A r = m /\ FitsModel.im_pup A r = FitsModel.ANum A (FitsModel.PFlt A (ofz 0%Z)).
Proof.
  intros A ofz fs name f m b H B N. unfold FitsModel.restore_intmat, FitsModel.open. rewrite H. cbn [bind]. unfold FitsModel.data_mat, FitsModel.data. rewrite B, N. eexists. split; [reflexivity|]. split; reflexivity.
Qed.
Print Assumptions C57_no_factor.
(* a source without band is a KeyError, with a number as band a TypeError; a vector where a matrix is expected is a TypeError *)
Theorem C58_block_kinds : forall (A : arith) (f : FitsModel.fits A) i v m,
  (nth_error (FitsModel.f_blocks A f) i = Some (FitsModel.BVec A v) -> FitsModel.data_vec A f i = Ok v /\ FitsModel.data_mat A f i = Err TypeError) /\
  (nth_error (FitsModel.f_blocks A f) i = Some (FitsModel.BMat A m) -> FitsModel.data_mat A f i = Ok m /\ FitsModel.data_vec A f i = Err TypeError) /\
  (nth_error (FitsModel.f_blocks A f) i = None -> FitsModel.data_mat A f i = Err IndexError /\ FitsModel.data_vec A f i = Err IndexError).
Proof.
  intros A f i v m. unfold FitsModel.data_vec, FitsModel.data_mat, FitsModel.data. split; [|split]; intros ->; split; reflexivity.
Qed.
Print Assumptions C58_block_kinds.
(* every file of a value says what it is, and which version *)
Theorem C58_value_header : forall (A : arith) finite ofz fs name (v : FitsModel.bval A) ow fs', FitsModel.save_bval A finite ofz fs name v ow = Ok fs' ->
  exists f, dget name fs' = Some f /\ dget "VERSION"%string (FitsModel.f_hdr A f) = Some (FitsModel.HNum A (FitsModel.PInt A 1%Z)) /\ dget "OBJ_TYPE"%string (FitsModel.f_hdr A f) = Some (FitsModel.HStr A "BaseValue"%string) /\
   (forall b, v = FitsModel.VArr A b -> FitsModel.f_blocks A f = [b]) /\ ((forall b, v <> FitsModel.VArr A b) -> FitsModel.f_blocks A f = [FitsModel.BVec A [ofz 0%Z; ofz 0%Z]]).
Proof.
  intros A finite ofz fs name v ow fs' H. unfold FitsModel.save_bval, FitsModel.write in H. destruct v; cbn -[dset dget dmem] in H; (destruct (dmem name fs && negb ow); [discriminate|]); injection H as <-; rewrite ConnProofs.dget_dset_eq; eexists; (split; [reflexivity|]); cbn; (split; [reflexivity|]); (split; [reflexivity|]); split; intros; try discriminate; try congruence; try reflexivity; exfalso; eapply H; reflexivity.
Qed.
Print Assumptions C58_value_header.
