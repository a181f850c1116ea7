(* C57, C58: saving data objects and restoring them. *)
From Coq Require Import String List ZArith Bool Arith Lia QArith Qcanon.
From Verif Require Import PyBase PyLemmas Arith ArithLemmas NpModel NpSpec NpProofs NpSegments ConnProofs ParamsProofs2
  SlopesModel SlopesSpec SlopesProofs FitsModel FitsSpec FitsProofs Properties_Filter Properties_Slopes.
Import ListNotations.
Local Open Scope nat_scope.
Local Open Scope string_scope.

Ltac nodup_keys := repeat constructor; cbn [map fst In]; intuition discriminate.
Section P.
Variable A : arith.
Variable finite : A -> bool.
Variable ofz : Z -> A.
Implicit Types fs : files A.

(* a number that may be written to a header *)
Definition fine (n : pnum A) : Prop := match n with PInt _ _ => True | PFlt _ x => finite x = true end.
(* all floating-point entries of a literal header are finite *)
Ltac finh := let k := fresh in let x := fresh in let H := fresh in
  intros k x H; cbn [In] in H; unfold hint, hnat, hflt in H;
  repeat (destruct H as [H|H]; [first [discriminate H | injection H; intros; subst;
     match goal with
     | [ Hf : fine ?n, E : ?n = PFlt _ ?y |- _ ] => rewrite E in Hf; exact Hf
     | _ => assumption
     end]|]); destruct H.

(* ---- interaction matrices ---- *)

Definition has_string_tags (o : intmat A) (pup sub : string) : Prop := im_pup A o = AStr A pup /\ im_sub A o = AStr A sub.
(* the slope statistics are arrays or absent *)
Definition stat_ok (a : attr A) : Prop := match a with ANone _ | AArr _ _ => True | _ => False end.

(* What comes back: the matrix is preserved; the other attributes are shifted, because the
   restoring code passes them to the wrong parameters. *)
Theorem C57_restored fs name o ow pup sub :
  writable fs name ow -> fine (im_norm A o) -> has_string_tags o pup sub -> stat_ok (im_mm A o) -> stat_ok (im_rms A o) ->
  exists fs', save_intmat A finite fs name o ow = Ok fs' /\ only_wrote name fs fs' /\
    restore_intmat A ofz fs' name =
      Ok (mkIM A (im_mat A o) (AStr A pup) (AStr A sub) (ANum A (PFlt A (to_float A ofz (im_norm A o)))) (AStr A "") (PFlt A (ofz 0))).
Proof.
  intros W F [Ep Es] Smm Srms. unfold save_intmat, intmat_header. rewrite Ep, Es. cbn [attr_hval bind].
  rewrite hputs_ok; [|nodup_keys|finh].
  cbn [bind]. destruct (im_mm A o) as [|mm| |]; try contradiction; destruct (im_rms A o) as [|rms| |]; try contradiction;
    cbn [attr_block bind app]; rewrite write_ok by exact W; eexists; (split; [reflexivity|]); (split; [apply only_dset|]);
    unfold restore_intmat; rewrite open_dset; reflexivity.
Qed.

(* A restored matrix cannot be saved. *)
Theorem C57_not_saved_again fs name o : restore_intmat A ofz fs name = Ok o ->
  forall fs2 name2 ow, exists e, save_intmat A finite fs2 name2 o ow = Err e.
Proof.
  intros H fs2 name2 ow. unfold restore_intmat in H.
  inv_bind H. inv_bind H. inv_bind H. inv_bind H. inv_bind H. inv_bind H. injection H as <-. unfold make_intmat, save_intmat.
  cbn [im_mm im_rms im_mat attr_block]. destruct (intmat_header A finite _) as [h|e]; cbn [bind]; eauto.
Qed.

(* ---- reconstructors ---- *)

Theorem C58_recmat fs name o ow : writable fs name ow -> ends_with ".fits" name = true -> fine (rm_norm A o) ->
  exists fs', save_recmat A finite ofz fs name o ow = Ok fs' /\ only_wrote name fs fs' /\
    restore_recmat A ofz fs' name = Ok (mkRM A (rm_mat A o) (PFlt A (to_float A ofz (rm_norm A o))) None).
Proof.
  intros W E F. unfold save_recmat. rewrite E. rewrite hputs_ok; [|nodup_keys|finh].
  rewrite write_ok by exact W. eexists. split; [reflexivity|]. split; [apply only_dset|].
  unfold restore_recmat. rewrite open_dset. destruct (rm_layer A o); reflexivity.
Qed.

Lemma ends_with_app s : ends_with ".fits" (s ++ ".fits") = true.
Proof. induction s as [|c s IH]; [reflexivity|]. cbn [append ends_with]. rewrite IH. apply orb_true_r. Qed.

(* Without the extension the file is written under another name and the given name is left alone. *)
Theorem C58_recmat_name fs name o ow : writable fs (name ++ ".fits") ow -> ends_with ".fits" name = false -> fine (rm_norm A o) ->
  exists fs', save_recmat A finite ofz fs name o ow = Ok fs' /\ only_wrote (name ++ ".fits") fs fs' /\
    dget name fs' = dget name fs /\
    restore_recmat A ofz fs' (name ++ ".fits") = Ok (mkRM A (rm_mat A o) (PFlt A (to_float A ofz (rm_norm A o))) None).
Proof.
  intros W E F. destruct (C58_recmat fs (name ++ ".fits") o ow W (ends_with_app name) F) as (fs' & S1 & S2 & S3).
  exists fs'. split; [|split; [exact S2|split; [|exact S3]]].
  - rewrite <- S1. unfold save_recmat. now rewrite E, ends_with_app.
  - apply (proj2 S2). intros Q. rewrite Q in E at 1. now rewrite ends_with_app in E.
Qed.

(* ---- modes to commands ---- *)

Theorem C58_m2c fs name o ow : writable fs name ow ->
  exists fs', save_m2c A finite fs name o ow = Ok fs' /\ only_wrote name fs fs' /\
    restore_m2c A fs' name = Ok (mkM2C A (mc_mat A o) None).
Proof.
  intros W. unfold save_m2c. rewrite hputs_ok; [|nodup_keys|finh]. rewrite write_ok by exact W.
  eexists. split; [reflexivity|]. split; [apply only_dset|]. unfold restore_m2c. now rewrite open_dset.
Qed.

(* ---- influence functions ---- *)

Theorem C58_ifunc fs name o ow : writable fs name ow -> rect (if_mat A o) ->
  exists fs', save_ifunc A finite ofz fs name o ow = Ok fs' /\ only_wrote name fs fs' /\ restore_ifunc A ofz fs' name = Ok o.
Proof.
  intros W R. unfold save_ifunc. rewrite hputs_ok; [|nodup_keys|finh]. rewrite write_ok by exact W.
  eexists. split; [reflexivity|]. split; [apply only_dset|]. unfold restore_ifunc. rewrite open_dset.
  cbn [bind data_mat data f_blocks nth_error]. rewrite T_T by exact R. unfold make_ifunc, cut_rows. rewrite cut_all. cbn [bind].
  destruct o as [[c rows] mask]. reflexivity.
Qed.

Theorem C58_ifuncinv fs name o ow : writable fs name ow -> rect (ii_mat A o) ->
  exists fs', save_ifuncinv A finite ofz fs name o ow = Ok fs' /\ only_wrote name fs fs' /\ restore_ifuncinv A ofz fs' name = Ok o.
Proof.
  intros W R. unfold save_ifuncinv. rewrite hputs_ok; [|nodup_keys|finh]. rewrite write_ok by exact W.
  eexists. split; [reflexivity|]. split; [apply only_dset|]. unfold restore_ifuncinv. rewrite open_dset.
  cbn [bind data_mat data f_blocks nth_error]. rewrite T_T by exact R. now destruct o.
Qed.

(* the file holds the transposed array *)
Theorem C58_ifunc_file fs name o ow fs' i j : writable fs name ow -> save_ifunc A finite ofz fs name o ow = Ok fs' ->
  i < a_r (if_mat A o) -> j < a_c (if_mat A o) ->
  exists f m, open A fs' name = Ok f /\ data A f 1 = Ok (BMat A m) /\ a_r m = a_c (if_mat A o) /\
    nth i (nth j (a_rows m) []) (ofz 0) = nth j (nth i (a_rows (if_mat A o)) []) (ofz 0).
Proof.
  intros W S Hi Hj. unfold save_ifunc in S. rewrite hputs_ok in S; [|nodup_keys|finh]. rewrite write_ok in S by exact W. injection S as <-.
  eexists. eexists. rewrite open_dset. split; [reflexivity|]. split; [reflexivity|]. split; [|now apply T_nth].
  unfold a_T, a_r. cbn [a_rows]. now rewrite map_length, seq_length.
Qed.

(* ---- sub-apertures and pupils ---- *)

Theorem C58_subap fs name o ow : writable fs name ow -> rect (sa_idx A o) -> finite (sa_th A o) = true ->
  exists fs', save_subap A finite ofz fs name o ow = Ok fs' /\ only_wrote name fs fs' /\ restore_subap A ofz fs' name = Ok o.
Proof.
  intros W R F. unfold save_subap. rewrite hputs_ok; [|nodup_keys|finh]. rewrite write_ok by exact W.
  eexists. split; [reflexivity|]. split; [apply only_dset|]. unfold restore_subap. rewrite open_dset.
  cbn -[a_T]. rewrite T_T by exact R. now destruct o.
Qed.

Theorem C58_pupdata fs name o ow : writable fs name ow ->
  exists fs', save_pupdata A finite ofz fs name o ow = Ok fs' /\ only_wrote name fs fs' /\
    restore_pupdata A ofz fs' name = Ok (mkPD A (pd_ind A o) (pd_radius A o) (pd_cx A o) (pd_cy A o) (pd_size A o) false).
Proof.
  intros W. unfold save_pupdata. rewrite hputs_ok; [|nodup_keys|finh]. rewrite write_ok by exact W.
  eexists. split; [reflexivity|]. split; [apply only_dset|]. unfold restore_pupdata. rewrite open_dset. destruct o as [i r x y [a b] f]. reflexivity.
Qed.

(* ---- frames ---- *)

Theorem C58_pixels fs name o ow : writable fs name ow -> (px_bpp A o <= 64)%Z -> type_ok (px_bpp A o) (px_signed A o) = true ->
  exists fs', save_pixels A finite fs name o ow = Ok fs' /\ only_wrote name fs fs' /\ restore_pixels A ofz fs' name = Ok o.
Proof.
  intros W B T. unfold save_pixels. rewrite hputs_ok; [|nodup_keys|finh]. rewrite write_ok by exact W.
  eexists. split; [reflexivity|]. split; [apply only_dset|]. unfold restore_pixels. rewrite open_dset.
  cbn [bind f_hdr f_blocks hget_int hget dget String.eqb Ascii.eqb Bool.eqb hint hnat Z.eqb Pos.eqb negb data_mat data nth_error].
  unfold make_pixels. replace (64 <? px_bpp A o)%Z with false by (symmetry; apply Z.ltb_ge; exact B). rewrite T.
  replace (0 <=? Z.of_nat (a_c (px_mat A o)))%Z with true by (symmetry; apply Z.leb_le; lia).
  replace (0 <=? Z.of_nat (a_r (px_mat A o)))%Z with true by (symmetry; apply Z.leb_le; lia). cbn [andb bind].
  unfold set_pixels. cbn [px_mat px_bpp px_signed]. rewrite !Nat2Z.id, same_shape_const by reflexivity. now destruct o.
Qed.

(* every object that can be created satisfies these conditions *)
Theorem C58_pixels_created x y b s o : make_pixels A ofz x y b s = Ok o ->
  (px_bpp A o <= 64)%Z /\ type_ok (px_bpp A o) (px_signed A o) = true /\ px_bpp A o = b /\ px_signed A o = s /\
  Z.of_nat (a_r (px_mat A o)) = y /\ Z.of_nat (a_c (px_mat A o)) = x.
Proof.
  unfold make_pixels. destruct (Z.ltb_spec 64 b) as [|B]; [discriminate|]. destruct (type_ok b s) eqn:T; [|discriminate].
  destruct (Z.leb_spec 0 x), (Z.leb_spec 0 y); cbn [andb]; try discriminate. intros E. injection E as <-.
  cbn [px_bpp px_signed px_mat]. destruct (const2_shape (Z.to_nat y) (Z.to_nat x) (ofz 0)) as [-> ->]. repeat split; auto; lia.
Qed.

Theorem C58_intensity fs name o ow : writable fs name ow ->
  exists fs', save_intensity A finite fs name o ow = Ok fs' /\ only_wrote name fs fs' /\ restore_intensity A ofz fs' name = Ok o.
Proof.
  intros W. unfold save_intensity. rewrite hputs_ok; [|nodup_keys|finh]. rewrite write_ok by exact W.
  eexists. split; [reflexivity|]. split; [apply only_dset|]. unfold restore_intensity. rewrite open_dset.
  cbn [bind f_hdr f_blocks obj_type_is hget_int hget dget String.eqb Ascii.eqb Bool.eqb hint hnat Z.eqb Pos.eqb negb data_mat data nth_error].
  unfold fill2. now rewrite !Nat2Z.id, same_shape_const.
Qed.

Theorem C58_layer fs name o ow : writable fs name ow -> a_r (la_phase A o) = a_r (la_amp A o) -> a_c (la_phase A o) = a_c (la_amp A o) ->
  fine (la_pitch A o) -> fine (la_height A o) -> finite (fst (la_shift A o)) = true -> finite (snd (la_shift A o)) = true ->
  fine (la_rot A o) -> fine (la_mag A o) ->
  exists fs', save_layer A finite fs name o ow = Ok fs' /\ only_wrote name fs fs' /\
    restore_layer A ofz fs' name = Ok (mkLayer A (la_amp A o) (la_phase A o)
      (PFlt A (to_float A ofz (la_pitch A o))) (PFlt A (to_float A ofz (la_height A o))) (la_shift A o)
      (PFlt A (to_float A ofz (la_rot A o))) (PFlt A (to_float A ofz (la_mag A o))) (PFlt A (ofz 0))).
Proof.
  intros W Er Ec F1 F2 F3 F4 F5 F6. unfold save_layer. rewrite hputs_ok; [|nodup_keys|finh]. rewrite write_ok by exact W.
  eexists. split; [reflexivity|]. split; [apply only_dset|]. unfold restore_layer. rewrite open_dset.
  cbn [bind f_hdr f_blocks obj_type_is hget_int hget_float hget dget String.eqb Ascii.eqb Bool.eqb hint hnat hflt Z.eqb Pos.eqb negb data_mat data nth_error].
  unfold fill2. rewrite !Nat2Z.id, !same_shape_const by auto. cbn [bind to_float]. now destruct (la_shift A o).
Qed.

(* Pupil stops: the amplitude is kept, the phase is reset to zero. *)
Theorem C58_pupilstop fs name o ow : writable fs name ow -> a_c (la_amp A o) = a_r (la_amp A o) ->
  fine (la_pitch A o) -> finite (fst (la_shift A o)) = true -> finite (snd (la_shift A o)) = true -> fine (la_rot A o) -> fine (la_mag A o) ->
  exists fs', save_pupilstop A finite fs name o ow = Ok fs' /\ only_wrote name fs fs' /\
    restore_pupilstop A ofz fs' name = Ok (mkLayer A (la_amp A o) (const2 (a_r (la_amp A o)) (a_r (la_amp A o)) (ofz 0))
      (PFlt A (to_float A ofz (la_pitch A o))) (PInt A 0) (la_shift A o)
      (PFlt A (to_float A ofz (la_rot A o))) (PFlt A (to_float A ofz (la_mag A o))) (PFlt A (ofz 0))).
Proof.
  intros W Ec F1 F3 F4 F5 F6. unfold save_pupilstop. rewrite hputs_ok; [|nodup_keys|finh]. rewrite write_ok by exact W.
  eexists. split; [reflexivity|]. split; [apply only_dset|]. unfold restore_pupilstop. rewrite open_dset.
  cbn [bind f_hdr f_blocks obj_type_is hget_int hget_float hget dget String.eqb Ascii.eqb Bool.eqb hint hnat hflt Z.eqb Pos.eqb negb data_mat data nth_error].
  unfold fill2. rewrite !Nat2Z.id, !same_shape_const by auto. cbn [bind to_float]. now destruct (la_shift A o).
Qed.

(* ---- slopes ---- *)

Theorem C58_slopes fs name s ow : writable fs name ow ->
  exists fs' r, save_slopes A finite fs name s ow = Ok fs' /\ only_wrote name fs fs' /\ restore_slopes A fs' name = Ok r /\
    sl_val r = sl_val s /\ sl_inter r = sl_inter s /\
    sl_ix r = sl_ix (new_slopes A (sl_val s) (sl_inter s)) /\ sl_iy r = sl_iy (new_slopes A (sl_val s) (sl_inter s)) /\
    sl_pup r = Some (tag_or_empty (sl_pup s)) /\ sl_sub r = Some (tag_or_empty (sl_sub s)).
Proof.
  intros W. unfold save_slopes. rewrite hputs_ok; [|nodup_keys|finh]. rewrite write_ok by exact W.
  eexists. eexists. split; [reflexivity|]. split; [apply only_dset|]. split.
  - unfold restore_slopes. rewrite open_dset. unfold slopes_of_header.
    cbn [bind f_hdr f_blocks hget_int hget hget_tag dget String.eqb Ascii.eqb Bool.eqb hint hnat Z.eqb Pos.eqb negb data_vec data nth_error
         Z.leb Z.compare Pos.compare Pos.compare_cont andb].
    unfold set_value, s_size. cbn [sl_val new_slopes_len new_slopes].
    assert (L : length (@zeros A (Z.to_nat (Z.of_nat (length (sl_val s))))) = length (sl_val s)) by (unfold zeros; rewrite repeat_length; lia).
    rewrite L, Nat.eqb_refl. rewrite assign_all_ok by (now rewrite L). cbn [bind]. reflexivity.
  - cbn [with_val sl_val sl_inter sl_ix sl_iy sl_pup sl_sub new_slopes_len new_slopes].
    assert (L : length (@zeros A (Z.to_nat (Z.of_nat (length (sl_val s))))) = length (sl_val s)) by (unfold zeros; rewrite repeat_length; lia).
    rewrite L. destruct (sl_inter s); cbn [Z.eqb negb]; auto 10.
Qed.

(* ---- values, histories, filters, sources ---- *)

Theorem C58_value fs name v ow : writable fs name ow -> (forall x, v = VScalar A x -> finite x = true) ->
  exists fs', save_bval A finite ofz fs name v ow = Ok fs' /\ only_wrote name fs fs' /\ restore_bval A finite fs' name = Ok v.
Proof.
  intros W F. destruct v as [|x|b]; unfold save_bval; (rewrite hputs_ok; [|nodup_keys|finh]); rewrite write_ok by exact W;
    eexists; (split; [reflexivity|]); (split; [apply only_dset|]); unfold restore_bval; rewrite open_dset; try reflexivity.
  cbn. now rewrite (F x eq_refl).
Qed.
(* a scalar that is not a finite number is saved but cannot be restored *)
Theorem C58_value_not_finite fs name x ow : writable fs name ow -> finite x = false ->
  exists fs', save_bval A finite ofz fs name (VScalar A x) ow = Ok fs' /\ exists e, restore_bval A finite fs' name = Err e.
Proof.
  intros W F. unfold save_bval. rewrite hputs_ok; [|nodup_keys|finh]. rewrite write_ok by exact W.
  eexists. split; [reflexivity|]. unfold restore_bval. rewrite open_dset. cbn. rewrite F. eauto.
Qed.

Theorem C58_history fs name b : ~ In name (dkeys fs) ->
  exists fs', save_history A finite fs name b = Ok fs' /\ only_wrote name fs fs' /\ restore_history A fs' name = Ok b.
Proof.
  intros W. unfold save_history. rewrite hputs_ok; [|nodup_keys|finh]. rewrite write_ok by (now right).
  eexists. split; [reflexivity|]. split; [apply only_dset|]. unfold restore_history. now rewrite open_dset.
Qed.

Theorem C58_filter fs name o :
  exists fs', save_iir A finite fs name o = Ok fs' /\ only_wrote name fs fs' /\ restore_iir A fs' name = Ok o.
Proof.
  unfold save_iir. rewrite hputs_ok; [|nodup_keys|finh]. rewrite write_ok by (now left).
  eexists. split; [reflexivity|]. split; [apply only_dset|]. unfold restore_iir. rewrite open_dset. now destruct o.
Qed.

Definition fine_source (o : source A) : Prop :=
  fine (fst (so_coord A o)) /\ fine (snd (so_coord A o)) /\ fine (fst (so_err A o)) /\ fine (snd (so_err A o)) /\
  fine (so_mag A o) /\ fine (so_wl A o) /\ fine (so_height A o) /\ fine (so_zero A o).
Theorem C58_source fs name o ow : writable fs name ow -> fine_source o ->
  exists fs', save_source A finite ofz fs name o ow = Ok fs' /\ only_wrote name fs fs' /\ restore_source A fs' name = Ok o /\
    forall o', restore_source A fs' name = Ok o' -> so_used A ofz o' = so_used A ofz o.
Proof.
  intros W (F1 & F2 & F3 & F4 & F5 & F6 & F7 & F8). unfold save_source. rewrite hputs_ok; [|nodup_keys|finh]. rewrite write_ok by exact W.
  eexists. split; [reflexivity|]. split; [apply only_dset|]. 
  assert (E : restore_source A (dset name (mkFits A
     [("VERSION", hint A 1); ("PCOORD0", HNum A (fst (so_coord A o))); ("PCOORD1", HNum A (snd (so_coord A o)));
            ("MAGNITUD", HNum A (so_mag A o)); ("WAVELENG", HNum A (so_wl A o)); ("HEIGHT", HNum A (so_height A o)); ("BAND", HStr A (so_band A o));
            ("ZEROPNT", HNum A (so_zero A o)); ("ERR_CRD0", HNum A (fst (so_err A o))); ("ERR_CRD1", HNum A (snd (so_err A o)))]
     [BVec A [ofz 0; ofz 0]]) fs) name = Ok o).
  { unfold restore_source. rewrite open_dset. destruct o as [[a b] [c d] m w h bd z]. reflexivity. }
  split; [exact E|]. intros o' H. rewrite E in H. injection H as <-. reflexivity.
Qed.

(* A source at infinity, the default, cannot be saved. *)
Theorem C58_source_infinite fs name o ow x : so_height A o = PFlt A x -> finite x = false ->
  save_source A finite ofz fs name o ow = Err ValueError.
Proof.
  intros E F. unfold save_source. rewrite (hputs_err finite _ "HEIGHT" x); [reflexivity| |exact F].
  rewrite E. cbn [In]. auto 10.
Qed.

(* ---- files are not replaced unless asked ---- *)

Theorem C58_not_replaced fs name : In name (dkeys fs) ->
  (forall o, exists e, save_m2c A finite fs name o false = Err e) /\
  (forall o, exists e, save_ifunc A finite ofz fs name o false = Err e) /\
  (forall o, exists e, save_ifuncinv A finite ofz fs name o false = Err e) /\
  (forall o, exists e, save_subap A finite ofz fs name o false = Err e) /\
  (forall o, exists e, save_pupdata A finite ofz fs name o false = Err e) /\
  (forall o, exists e, save_bval A finite ofz fs name o false = Err e) /\
  (forall o, exists e, save_source A finite ofz fs name o false = Err e) /\
  (forall b, exists e, save_history A finite fs name b = Err e) /\
  (ends_with ".fits" name = true -> forall o, exists e, save_recmat A finite ofz fs name o false = Err e).
Proof.
  intros H. assert (G : forall (h : res (header A)) bs, exists e, write A fs name false h bs = Err e).
  { intros h bs. unfold write. destruct h as [h|e]; cbn [bind]; [|eauto]. rewrite (dmem_true _ _ H). cbn. eauto. }
  unfold save_m2c, save_ifunc, save_ifuncinv, save_subap, save_pupdata, save_source, save_history, save_recmat.
  repeat (split; [intros; apply G|]) || idtac.
  split; [intros [| |]; apply G|]. repeat (split; [intros; apply G|]). intros -> o. apply G.
Qed.

(* ---- kinds of files ---- *)

(* Files without the right object type are refused by layers and intensities. *)
Theorem C58_kinds fs name f : dget name fs = Some f ->
  (dget "OBJ_TYPE" (f_hdr A f) <> Some (HStr A "Layer") -> restore_layer A ofz fs name = Err ValueError) /\
  (dget "OBJ_TYPE" (f_hdr A f) <> Some (HStr A "Intensity") -> restore_intensity A ofz fs name = Err ValueError) /\
  (dget "OBJ_TYPE" (f_hdr A f) <> Some (HStr A "Pupilstop") -> length (f_blocks A f) <> 4 -> restore_pupilstop A ofz fs name = Err ValueError).
Proof.
  intros E. unfold restore_layer, restore_intensity, restore_pupilstop, open. rewrite E. cbn [bind].
  assert (G : forall s, dget "OBJ_TYPE" (f_hdr A f) <> Some (HStr A s) -> obj_type_is A (f_hdr A f) s = false).
  { intros s H. unfold obj_type_is. destruct (dget "OBJ_TYPE" (f_hdr A f)) as [[n|t|x]|]; try reflexivity.
    apply String.eqb_neq. intros ->. now apply H. }
  split; [intros H; now rewrite (G _ H)|]. split; [intros H; now rewrite (G _ H)|]. intros H L. rewrite (G _ H). cbn [negb].
  unfold restore_passata. apply Nat.eqb_neq in L. now rewrite L.
Qed.
End P.

(* ---- witnesses ---- *)

Definition all_fine (x : qc) : bool := true.
Definition zq (z : Z) : qc := qi z.
Definition im0 : intmat qc := mkIM qc (mkA2 2 [[qi 1; qi 2]; [qi 3; qi 4]]) (AArr qc [qi 5; qi 6]) (AArr qc [qi 7; qi 8])
  (AStr qc "pup") (AStr qc "sub") (PFlt qc (qi 9)).

(* Restoring an interaction matrix does not return the statistics, tags and factor. *)
Theorem C57_refuted : exists (o r : intmat qc) fs, save_intmat qc all_fine [] "im.fits" o true = Ok fs /\
  restore_intmat qc zq fs "im.fits" = Ok r /\ im_mat qc r = im_mat qc o /\
  im_mm qc r <> im_mm qc o /\ im_rms qc r <> im_rms qc o /\ im_pup qc r <> im_pup qc o /\ im_sub qc r <> im_sub qc o /\ im_norm qc r <> im_norm qc o.
Proof.
  exists im0, (mkIM qc (im_mat qc im0) (AStr qc "pup") (AStr qc "sub") (ANum qc (PFlt qc (qi 9))) (AStr qc "") (PFlt qc (zq 0))).
  eexists. split; [reflexivity|]. split; [reflexivity|]. split; [reflexivity|].
  repeat split; cbn; try discriminate.
Qed.

(* A reconstructor saved under a name without extension is not found under that name. *)
Theorem C58_recmat_name_refuted : exists (o : recmat qc) fs, save_recmat qc all_fine zq [] "rec" o true = Ok fs /\
  restore_recmat qc zq fs "rec" = Err RuntimeError /\ exists r, restore_recmat qc zq fs "rec.fits" = Ok r.
Proof. exists (mkRM qc (mkA2 1 [[qi 1]]) (PInt qc 0) None). eexists. split; [reflexivity|]. split; [reflexivity|]. eexists. reflexivity. Qed.

(* The assignment of modes to layers is saved but not restored. *)
Theorem C58_recmat_layer_refuted : exists (o r : recmat qc) fs, save_recmat qc all_fine zq [] "rec.fits" o true = Ok fs /\
  restore_recmat qc zq fs "rec.fits" = Ok r /\ rm_layer qc o <> None /\ rm_layer qc r = None.
Proof.
  exists (mkRM qc (mkA2 1 [[qi 1]]) (PInt qc 0) (Some (mkA2 1 [[qi 1]]))). eexists. eexists.
  split; [reflexivity|]. split; [reflexivity|]. split; [discriminate|reflexivity].
Qed.

(* The normalisation factor of a modes-to-commands matrix is lost. *)
Theorem C58_m2c_refuted : exists (o r : m2c qc) fs, save_m2c qc all_fine [] "m.fits" o true = Ok fs /\
  restore_m2c qc fs "m.fits" = Ok r /\ mc_norm qc o <> None /\ mc_norm qc r = None.
Proof.
  exists (mkM2C qc (mkA2 1 [[qi 1]]) (Some (PInt qc 3))). eexists. eexists. split; [reflexivity|]. split; [reflexivity|]. split; [discriminate|reflexivity].
Qed.

(* The choice of slopes from intensity is lost. *)
Theorem C58_pupdata_refuted : exists (o r : pupdata qc) fs, save_pupdata qc all_fine zq [] "p.fits" o true = Ok fs /\
  restore_pupdata qc zq fs "p.fits" = Ok r /\ pd_int qc o = true /\ pd_int qc r = false.
Proof.
  exists (mkPD qc (mkA2 1 [[3]%Z]) [qi 1] [qi 2] [qi 3] (4, 4)%Z true). eexists. eexists. split; [reflexivity|]. split; [reflexivity|]. split; reflexivity.
Qed.

(* A square interaction matrix with slope statistics is accepted as a pupil stop. *)
Theorem C58_kinds_refuted : exists (o : intmat qc) fs r, save_intmat qc all_fine [] "im.fits" o true = Ok fs /\
  restore_pupilstop qc zq fs "im.fits" = Ok r /\ la_amp qc r = im_mat qc o.
Proof. exists im0. eexists. eexists. split; [reflexivity|]. split; reflexivity. Qed.

(* Only one of the two statistics: both are lost. *)
Example C57_example_one_statistic :
  match save_intmat qc all_fine [] "im.fits" (mkIM qc (mkA2 1 [[qi 1]]) (ANone qc) (AArr qc [qi 7]) (AStr qc "p") (AStr qc "s") (PInt qc 0)) true with
  | Ok fs => match dget "im.fits" fs with Some f => length (f_blocks qc f) = 3 | None => False end
  | Err _ => False end.
Proof. reflexivity. Qed.
Example C58_example_subap :
  match save_subap qc all_fine zq [] "s.fits" (mkSA qc (mkA2 2 [[0; 1]; [4; 5]; [8; 9]]%Z) [0; 1; 3]%Z 2 2 (qi 1)) false with
  | Ok fs => match restore_subap qc zq fs "s.fits" with
             | Ok o => a_rows (sa_idx qc o) = [[0; 1]; [4; 5]; [8; 9]]%Z /\ sa_map qc o = [0; 1; 3]%Z
             | Err _ => False end
  | Err _ => False end.
Proof. split; reflexivity. Qed.
Example C58_example_pixels : exists e, make_pixels qc zq 4 4 65 0 = Err e.
Proof. eexists. reflexivity. Qed.

Print Assumptions C57_restored.
Print Assumptions C57_not_saved_again.
Print Assumptions C57_refuted.
Print Assumptions C58_recmat.
Print Assumptions C58_recmat_name.
Print Assumptions C58_m2c.
Print Assumptions C58_ifunc.
Print Assumptions C58_ifuncinv.
Print Assumptions C58_ifunc_file.
Print Assumptions C58_subap.
Print Assumptions C58_pupdata.
Print Assumptions C58_pixels.
Print Assumptions C58_pixels_created.
Print Assumptions C58_intensity.
Print Assumptions C58_layer.
Print Assumptions C58_pupilstop.
Print Assumptions C58_slopes.
Print Assumptions C58_value.
Print Assumptions C58_value_not_finite.
Print Assumptions C58_history.
Print Assumptions C58_filter.
Print Assumptions C58_source.
Print Assumptions C58_source_infinite.
Print Assumptions C58_not_replaced.
Print Assumptions C58_kinds.
Print Assumptions C58_recmat_name_refuted.
Print Assumptions C58_recmat_layer_refuted.
Print Assumptions C58_m2c_refuted.
Print Assumptions C58_pupdata_refuted.
Print Assumptions C58_kinds_refuted.
