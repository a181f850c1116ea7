(* C121: analysis of a stored simulation in other directions. *)
From Coq Require Import String List Bool Arith ZArith Lia Ascii.
From Verif Require Import PyBase PyLemmas NamesModel NamesSpec NamesProofs TrigOrderModel TrigOrderSpec ParamsModel ParamsSpec ParamsProofs2 ParamsProofs4 CalFileModel FieldAnModel FieldAnProofs.
Import ListNotations.
Local Open Scope string_scope.

(* ---------------------------------------------------------------- the directions *)
(* a table of rows (radius, angle) gives these sources, except when it has two rows: it is then taken as the row of the
   radii and the row of the angles *)
Theorem C121_sources : forall (F : Type) (l : list (F * F)), length l <> 2%nat -> setup_sources (map (fun s => [fst s; snd s]) l) = Ok l.
Proof.
  intros F l N.
  assert (E : forall l : list (F * F), map_res (fun row => match row with [r; th] => Ok (r, th) | _ => Err ValueError end) (map (fun s => [fst s; snd s]) l) = Ok l).
  { clear. induction l as [|[r t] l IH]; [reflexivity|]. cbn [map map_res fst snd bind]. now rewrite IH. }
  destruct l as [|x [|y [|z l]]]; try (apply (E [])); try (apply (E [x])); try (apply (E (x :: y :: z :: l))). cbn in N. congruence.
Qed.
Print Assumptions C121_sources.
Theorem C121_two_rows : forall (F : Type) (a b : list F), length a = length b -> setup_sources [a; b] = Ok (combine a b).
Proof.
  intros F a. unfold setup_sources. induction a as [|x a IH]; intros [|y b] H; try discriminate; [reflexivity|]. cbn [pairs_of map_res bind combine].
  rewrite IH by (cbn in H; lia). reflexivity.
Qed.
Print Assumptions C121_two_rows.
Example C121_sources_example : setup_sources [[1; 10]; [2; 20]; [3; 30]]%Z = Ok [(1, 10); (2, 20); (3, 30)]%Z /\ setup_sources [[1; 2; 3]; [10; 20; 30]]%Z = Ok [(1, 10); (2, 20); (3, 30)]%Z
  /\ setup_sources [[1; 10]]%Z = Ok [(1, 10)]%Z /\ setup_sources [[1; 2; 3]]%Z = Err ValueError.
Proof. repeat split; reflexivity. Qed.
(* two sources given by rows are not the sources given *)
Theorem C121_two_sources_refuted : exists l : list (Z * Z), length l = 2%nat /\ setup_sources (map (fun s => [fst s; snd s]) l) <> Ok l.
Proof. exists [(0, 45); (30, 90)]%Z. split; [reflexivity|]. discriminate. Qed.
Print Assumptions C121_two_sources_refuted.

(* ---------------------------------------------------------------- the replay *)
Section Replay.
Context {F : Type} (ftext f0 f1 f2 : F -> string) (finf : yval) (ytext y2 : yval -> string).

Lemma numbered_in : forall (srcs : list (F * F)) i s, nth_error srcs i = Some s -> In (i, s) (numbered_list srcs).
Proof.
  intros srcs i s H. unfold numbered_list. assert (G : forall l k i, nth_error l i = Some s -> In ((k + i)%nat, s) (combine (seq k (length l)) l)).
  { induction l as [|x l IH]; intros k [|j] E; cbn in *; try discriminate.
    - injection E as ->. left. now rewrite Nat.add_0_r.
    - right. replace (k + S j)%nat with (S k + j)%nat by lia. now apply IH. }
  apply (G srcs 0%nat i H).
Qed.
Lemma numbered_keys : forall srcs : list (F * F), map fst (numbered_list srcs) = seq 0 (length srcs).
Proof.
  intros srcs. unfold numbered_list. generalize 0%nat. induction srcs as [|x l IH]; intros k; [reflexivity|]. cbn. now rewrite IH.
Qed.
Lemma add_sources_get : forall wl (srcs : list (F * F)) rp p, first_of "AtmoPropagation" rp = Some "prop" -> dget "prop" rp = Some p ->
  exists rp2, add_sources ftext finf wl srcs rp = Ok rp2 /\
  dget "prop" rp2 = Some (dset "outputs" (YList (map (fun i => YStr (out_key i)) (seq 0 (length srcs)))) (dset "source_dict_ref" (YList (map (fun i => YStr (source_key i)) (seq 0 (length srcs)))) p)) /\
  (forall i s, nth_error srcs i = Some s -> dget (source_key i) rp2 = Some (source_pars ftext finf wl s)) /\
  (forall k, k <> "prop" -> (forall i, k <> source_key i) -> dget k rp2 = dget k rp).
Proof.
  intros wl srcs rp p HF HP. unfold add_sources. rewrite HF.
  match goal with |- context [fold_left ?f (numbered_list srcs) rp] => set (rp1 := fold_left f (numbered_list srcs) rp) end.
  assert (ND : NoDup (map (fun ix : nat * (F * F) => source_key (fst ix)) (numbered_list srcs))).
  { rewrite <- (map_map fst source_key), numbered_keys. apply NoDup_inj; [|apply seq_NoDup]. intros a b E. apply str_nat_inj. exact (app_cancel _ _ _ E). }
  pose proof (fun k => fold_dset_get _ _ (fun ix : nat * (F * F) => source_key (fst ix)) (fun ix => source_pars ftext finf wl (snd ix)) (numbered_list srcs) rp k ND) as G.
  assert (G2 : dget "prop" rp1 = Some p).
  { destruct (G "prop") as [_ G2]. rewrite <- HP. apply G2. intros a _. discriminate. }
  rewrite G2. eexists. split; [reflexivity|]. split; [apply ConnProofs.dget_dset_eq|]. split.
  - intros i s Hs. rewrite ConnProofs.dget_dset_neq by discriminate. destruct (G (source_key i)) as [G1 _].
    apply (G1 (i, s)); [now apply numbered_in|reflexivity].
  - intros k N1 N2. rewrite ConnProofs.dget_dset_neq by congruence. destruct (G k) as [_ G1]. apply G1. intros a _ E. exact (N2 (fst a) (eq_sym E)).
Qed.
Lemma keyed_get : forall (key : nat -> string) (val : nat -> pars) n (rp : params) k, (forall a b, key a = key b -> a = b) ->
  (forall i, (i < n)%nat -> k = key i -> dget k (fold_left (fun rp i => dset (key i) (val i) rp) (seq 0 n) rp) = Some (val i)) /\
  ((forall i, k <> key i) -> dget k (fold_left (fun rp i => dset (key i) (val i) rp) (seq 0 n) rp) = dget k rp).
Proof.
  intros key val n rp k I.
  destruct (fold_dset_get _ _ key val (seq 0 n) rp k (NoDup_inj _ _ _ I (seq_NoDup _ _))) as [G1 G2]. split.
  - intros i Hi E. apply (G1 i); [apply in_seq; lia|congruence].
  - intros H. apply G2. intros a _ E. exact (H a (eq_sym E)).
Qed.
Lemma psf_key_inj : forall a b, psf_key a = psf_key b -> a = b.
Proof. intros a b E. apply str_nat_inj. exact (app_cancel _ _ _ E). Qed.
Lemma modal_key_inj : forall a b, modal_key a = modal_key b -> a = b.
Proof. intros a b E. apply str_nat_inj. exact (app_cancel _ _ _ E). Qed.

(* The propagation of the stored simulation gets the new sources only, one output for each; each PSF reads one of these
   outputs, and both its results are stored; all the other objects are those of the replay. *)
Theorem C121_psf : forall downsamp ps dir rp ps' wl pix start out (srcs : list (F * F)), wf_params ps -> ~ declared ps "data_source" ->
  param ps "prop" "class" = Some (YStr "AtmoPropagation") -> replay_base ytext downsamp ps dir = Ok (rp, ps') ->
  exists rp2, psf_params ftext f0 f1 f2 finf wl pix start out srcs rp = Ok rp2 /\
  param rp2 "prop" "source_dict_ref" = Some (YList (map (fun i => YStr ("field_source_" ++ str_nat i)) (seq 0 (length srcs)))) /\
  param rp2 "prop" "outputs" = Some (YList (map (fun i => YStr ("out_field_source_" ++ str_nat i ++ "_ef")) (seq 0 (length srcs)))) /\
  (forall name, name <> "source_dict_ref" -> name <> "outputs" -> param rp2 "prop" name = param rp "prop" name) /\
  (forall i r t, nth_error srcs i = Some (r, t) ->
     param rp2 ("field_source_" ++ str_nat i) "class" = Some (YStr "Source") /\
     param rp2 ("field_source_" ++ str_nat i) "polar_coordinates" = Some (YList [YFloat (ftext r); YFloat (ftext t)]) /\
     param rp2 ("field_source_" ++ str_nat i) "wavelengthInNm" = Some (YFloat (ftext wl)) /\
     param rp2 ("psf_field_" ++ str_nat i) "class" = Some (YStr "PSF") /\
     input rp2 ("psf_field_" ++ str_nat i) "in_ef" = Some (YStr ("prop.out_field_source_" ++ str_nat i ++ "_ef")) /\
     param rp2 ("psf_field_" ++ str_nat i) "outputs" = Some (YList [YStr "out_int_psf"; YStr "out_int_sr"]) /\
     param rp2 ("psf_field_" ++ str_nat i) "start_time" = Some start /\
     param rp2 ("psf_field_" ++ str_nat i) "pixel_size_mas" = Some (YFloat (ftext pix)) /\
     param rp2 ("psf_field_" ++ str_nat i) "wavelengthInNm" = Some (YFloat (ftext wl))) /\
  input rp2 "data_store_psf" "input_list" = Some (YList (map YStr (psf_entries f0 f1 f2 wl pix srcs))) /\
  param rp2 "data_store_psf" "store_dir" = Some (YStr out) /\
  (forall k, k <> "prop" -> k <> "data_store_psf" -> (forall i, k <> "field_source_" ++ str_nat i) -> (forall i, k <> "psf_field_" ++ str_nat i) -> dget k rp2 = dget k rp).
Proof.
  intros downsamp ps dir rp ps' wl pix start out srcs W Nd C H. unfold replay_base in H. inv_bind H. inv_bind H. injection H as ->. cbn [fst] in *.
  destruct (prop_first _ _ _ _ W Nd C E) as [HF [p [HP HC]]].
  destruct (add_sources_get wl srcs rp p HF HP) as (rp1 & A1 & A2 & A3 & A4).
  unfold psf_params. rewrite A1. cbn [bind]. eexists. split; [reflexivity|].
  pose proof (fun k => keyed_get psf_key (psf_pars ftext wl pix start) (length srcs) rp1 k psf_key_inj) as G.
  match goal with |- context [fold_left ?f (seq 0 (length srcs)) rp1] => set (rp3 := fold_left f (seq 0 (length srcs)) rp1) in * end.
  assert (P : forall k, k <> "data_store_psf" -> dget k (dset "data_store_psf" (store_pars out (psf_entries f0 f1 f2 wl pix srcs)) rp3) = dget k rp3).
  { intros k N. apply ConnProofs.dget_dset_neq. congruence. }
  assert (GP : dget "prop" rp3 = dget "prop" rp1) by (destruct (G "prop") as [_ G2]; apply G2; discriminate).
  unfold param, input. unfold param.
  rewrite P by discriminate. rewrite GP, A2. cbn [dget].
  split. { rewrite ConnProofs.dget_dset_neq by discriminate. now rewrite ConnProofs.dget_dset_eq. }
  split. { now rewrite ConnProofs.dget_dset_eq. }
  split. { intros name N1 N2. rewrite !ConnProofs.dget_dset_neq by congruence. now rewrite HP. }
  split.
  { intros i r t Hi. change ("field_source_" ++ str_nat i) with (source_key i). change ("psf_field_" ++ str_nat i) with (psf_key i).
    rewrite (P (source_key i)) by discriminate. rewrite (P (psf_key i)) by discriminate.
    destruct (G (source_key i)) as [_ G2]. rewrite G2 by discriminate. rewrite (A3 i _ Hi).
    destruct (G (psf_key i)) as [G1 _]. rewrite (G1 i) by (try reflexivity; apply nth_error_Some; congruence).
    repeat split; reflexivity. }
  split. { rewrite ConnProofs.dget_dset_eq. reflexivity. }
  split. { rewrite ConnProofs.dget_dset_eq. reflexivity. }
  intros k N1 N2 N3 N4. rewrite P by exact N2. destruct (G k) as [_ G2]. rewrite G2 by exact N4. now apply A4.
Qed.

(* the same for the analysis of modes: the parameters given take precedence over those of the analyser *)
Theorem C121_modal : forall downsamp ps dir rp ps' wl m out (srcs : list (F * F)), wf_params ps -> ~ declared ps "data_source" -> NoDup (map fst m) ->
  param ps "prop" "class" = Some (YStr "AtmoPropagation") -> replay_base ytext downsamp ps dir = Ok (rp, ps') ->
  exists rp2, modal_params ftext f1 finf ytext y2 wl m out srcs rp = Ok rp2 /\
  param rp2 "prop" "outputs" = Some (YList (map (fun i => YStr ("out_field_source_" ++ str_nat i ++ "_ef")) (seq 0 (length srcs)))) /\
  (forall i r t, nth_error srcs i = Some (r, t) ->
     param rp2 ("field_source_" ++ str_nat i) "polar_coordinates" = Some (YList [YFloat (ftext r); YFloat (ftext t)]) /\
     (forall name v, dget name m = Some v -> param rp2 ("modal_analysis_" ++ str_nat i) name = Some v) /\
     (dget "class" m = None -> param rp2 ("modal_analysis_" ++ str_nat i) "class" = Some (YStr "ModalAnalysis")) /\
     (dget "outputs" m = None -> param rp2 ("modal_analysis_" ++ str_nat i) "outputs" = Some (YList [YStr "out_modes"])) /\
     (dget "inputs" m = None -> input rp2 ("modal_analysis_" ++ str_nat i) "in_ef" = Some (YStr ("prop.out_field_source_" ++ str_nat i ++ "_ef")))) /\
  input rp2 "data_store_modal" "input_list" = Some (YList (map YStr (modal_entries f1 ytext y2 m srcs))) /\
  (forall k, k <> "prop" -> k <> "data_store_modal" -> (forall i, k <> "field_source_" ++ str_nat i) -> (forall i, k <> "modal_analysis_" ++ str_nat i) -> dget k rp2 = dget k rp).
Proof.
  intros downsamp ps dir rp ps' wl m out srcs W Nd NM C H. unfold replay_base in H. inv_bind H. inv_bind H. injection H as ->. cbn [fst] in *.
  destruct (prop_first _ _ _ _ W Nd C E) as [HF [p [HP HC]]].
  destruct (add_sources_get wl srcs rp p HF HP) as (rp1 & A1 & A2 & A3 & A4).
  unfold modal_params. rewrite A1. cbn [bind]. eexists. split; [reflexivity|].
  pose proof (fun k => keyed_get modal_key (modal_pars m) (length srcs) rp1 k modal_key_inj) as G.
  match goal with |- context [fold_left ?f (seq 0 (length srcs)) rp1] => set (rp3 := fold_left f (seq 0 (length srcs)) rp1) in * end.
  assert (P : forall k, k <> "data_store_modal" -> dget k (dset "data_store_modal" (store_pars out (modal_entries f1 ytext y2 m srcs)) rp3) = dget k rp3).
  { intros k N. apply ConnProofs.dget_dset_neq. congruence. }
  assert (GP : dget "prop" rp3 = dget "prop" rp1) by (destruct (G "prop") as [_ G2]; apply G2; discriminate).
  unfold param, input. unfold param.
  rewrite P by discriminate. rewrite GP, A2. cbn [dget].
  split. { now rewrite ConnProofs.dget_dset_eq. }
  split.
  { intros i r t Hi. change ("field_source_" ++ str_nat i) with (source_key i). change ("modal_analysis_" ++ str_nat i) with (modal_key i).
    rewrite (P (source_key i)) by discriminate. rewrite (P (modal_key i)) by discriminate.
    destruct (G (source_key i)) as [_ G2]. rewrite G2 by discriminate. rewrite (A3 i _ Hi).
    destruct (G (modal_key i)) as [G1 _]. rewrite (G1 i) by (try reflexivity; apply nth_error_Some; congruence).
    unfold modal_pars. split; [reflexivity|]. split; [|split; [|split]].
    - intros name v E1. rewrite dupdate_get by exact NM. now rewrite E1.
    - intros E1. rewrite dupdate_get by exact NM. now rewrite E1.
    - intros E1. rewrite dupdate_get by exact NM. now rewrite E1.
    - intros E1. rewrite dupdate_get by exact NM. rewrite E1. reflexivity. }
  split. { rewrite ConnProofs.dget_dset_eq. reflexivity. }
  intros k N1 N2 N3 N4. rewrite P by exact N2. destruct (G k) as [_ G2]. rewrite G2 by exact N4. now apply A4.
Qed.

(* phase cubes: the electric fields themselves are stored *)
Theorem C121_cube : forall downsamp ps dir rp ps' wl out (srcs : list (F * F)), wf_params ps -> ~ declared ps "data_source" ->
  param ps "prop" "class" = Some (YStr "AtmoPropagation") -> replay_base ytext downsamp ps dir = Ok (rp, ps') ->
  exists rp2, cube_params ftext f0 f1 finf wl out srcs rp = Ok rp2 /\
  param rp2 "prop" "outputs" = Some (YList (map (fun i => YStr ("out_field_source_" ++ str_nat i ++ "_ef")) (seq 0 (length srcs)))) /\
  (forall i r t, nth_error srcs i = Some (r, t) -> param rp2 ("field_source_" ++ str_nat i) "polar_coordinates" = Some (YList [YFloat (ftext r); YFloat (ftext t)])) /\
  input rp2 "data_store_cube" "input_list" = Some (YList (map YStr (cube_entries f0 f1 wl srcs))) /\
  (forall k, k <> "prop" -> k <> "data_store_cube" -> (forall i, k <> "field_source_" ++ str_nat i) -> dget k rp2 = dget k rp).
Proof.
  intros downsamp ps dir rp ps' wl out srcs W Nd C H. unfold replay_base in H. inv_bind H. inv_bind H. injection H as ->. cbn [fst] in *.
  destruct (prop_first _ _ _ _ W Nd C E) as [HF [p [HP HC]]].
  destruct (add_sources_get wl srcs rp p HF HP) as (rp1 & A1 & A2 & A3 & A4).
  unfold cube_params. rewrite A1. cbn [bind]. eexists. split; [reflexivity|].
  unfold param, input. unfold param.
  rewrite ConnProofs.dget_dset_neq by discriminate. rewrite A2.
  split. { now rewrite ConnProofs.dget_dset_eq. }
  split. { intros i r t Hi. change ("field_source_" ++ str_nat i) with (source_key i). rewrite ConnProofs.dget_dset_neq by discriminate. now rewrite (A3 i _ Hi). }
  split. { rewrite ConnProofs.dget_dset_eq. reflexivity. }
  intros k N1 N2 N3. rewrite ConnProofs.dget_dset_neq by congruence. now apply A4.
Qed.

(* a stored input that was downsampled is refused *)
Theorem C121_downsampled : forall downsamp (rp : params) (src : pars) l o z, dget "data_source" rp = Some src -> src <> [] -> dget "outputs" src = Some (YList l) ->
  dget "data_format" src = Some (YStr "fits") \/ dget "data_format" src = None ->
  In (YStr o) l -> downsamp (o ++ ".fits") = Ok (Some z) -> (1 < z)%Z -> (forall x, In x l -> exists h, downsamp (out_text ytext x ++ ".fits") = Ok h) ->
  not_downsampled ytext downsamp rp = Err ValueError.
Proof.
  intros downsamp rp src l o z HS NE HO HF HI HD Hz HA. unfold not_downsampled. rewrite HS. destruct src as [|kv src']; [congruence|].
  assert (X : match dget "data_format" (kv :: src') with None => Some ".fits" | Some (YStr "fits") => Some ".fits" | Some (YStr "pickle") => Some ".pickle" | Some _ => None end = Some ".fits").
  { destruct HF as [-> | ->]; reflexivity. }
  rewrite X, HO. clear X HO HF HS NE. revert HI HA. induction l as [|x l IH]; intros HI HA; [destruct HI|]. cbn [fold_res].
  destruct HI as [->|HI].
  - cbn [out_text]. rewrite HD. cbn [bind]. destruct (Z.ltb_spec 1 z); [reflexivity|lia].
  - destruct (HA x (or_introl eq_refl)) as [h ->]. cbn [bind]. destruct (1 <? match h with Some z => z | None => 1 end)%Z; [reflexivity|]. cbn [bind]. apply IH; [exact HI|]. intros y Hy. apply HA. now right.
Qed.

(* ---------------------------------------------------------------- names *)
Definition plain (s : string) : Prop := has_char ":" s = false /\ has_char "-" s = false.
(* without signs, the simulation stores the result i in the file of source i, under the name that is read afterwards *)
Theorem C121_stored : forall wl pix (srcs : list (F * F)) i s, nth_error srcs i = Some s ->
  plain (f1 (fst s)) -> plain (f1 (snd s)) -> plain (f2 pix) -> plain (f0 wl) ->
  (exists e, In e (psf_entries f0 f1 f2 wl pix srcs) /\ split_output e = Ok (mkOutput ("psf_field_" ++ str_nat i) (Some "out_int_psf") 0 (Some (psf_name f0 f1 f2 pix wl s)))) /\
  (exists e, In e (psf_entries f0 f1 f2 wl pix srcs) /\ split_output e = Ok (mkOutput ("psf_field_" ++ str_nat i) (Some "out_int_sr") 0 (Some (sr_name f0 f1 f2 pix wl s)))) /\
  (exists e, In e (cube_entries f0 f1 wl srcs) /\ split_output e = Ok (mkOutput "prop" (Some ("out_field_source_" ++ str_nat i ++ "_ef")) 0 (Some (cube_name f0 f1 wl s)))).
Proof.
  intros wl pix srcs i s Hi [A1 A2] [B1 B2] [C1 C2] [D1 D2]. pose proof (numbered_in srcs i s Hi) as HI.
  assert (FN : forall c, In c [":"; "-"; "."]%char -> has_char c (str_nat i) = false).
  { intros c Hc. apply str_nat_free. destruct Hc as [<-|[<-|[<-|[]]]]; reflexivity. }
  split; [|split].
  - exists (entry (psf_name f0 f1 f2 pix wl s) (psf_key i) "out_int_psf"). split; [apply in_flat_map; exists (i, s); split; [exact HI|now left]|].
    apply entry_ok; unfold psf_name; rewrite ?has_char_app, ?A1, ?A2, ?B1, ?B2, ?C1, ?C2, ?D1, ?D2; try reflexivity.
    intros c Hc. split; [unfold psf_key; rewrite has_char_app, FN by exact Hc|]; destruct Hc as [<-|[<-|[<-|[]]]]; reflexivity.
  - exists (entry (sr_name f0 f1 f2 pix wl s) (psf_key i) "out_int_sr"). split; [apply in_flat_map; exists (i, s); split; [exact HI|right; now left]|].
    apply entry_ok; unfold sr_name; rewrite ?has_char_app, ?A1, ?A2, ?B1, ?B2, ?C1, ?C2, ?D1, ?D2; try reflexivity.
    intros c Hc. split; [unfold psf_key; rewrite has_char_app, FN by exact Hc|]; destruct Hc as [<-|[<-|[<-|[]]]]; reflexivity.
  - exists (entry (cube_name f0 f1 wl s) "prop" (out_key i)). split; [apply in_map_iff; exists (i, s); split; [reflexivity|exact HI]|].
    apply entry_ok; unfold cube_name; rewrite ?has_char_app, ?A1, ?A2, ?B1, ?B2, ?D1, ?D2; try reflexivity.
    intros c Hc. split; [|unfold out_key; rewrite !has_char_app, FN by exact Hc]; destruct Hc as [<-|[<-|[<-|[]]]]; reflexivity.
Qed.
(* a negative radius or angle makes the stored references invalid: the simulation cannot be built *)
Theorem C121_negative : forall wl pix (srcs : list (F * F)) i s, nth_error srcs i = Some s ->
  has_char ":" (f1 (fst s)) = false -> has_char ":" (f1 (snd s)) = false -> has_char ":" (f2 pix) = false -> has_char ":" (f0 wl) = false ->
  has_char "-" (f1 (fst s)) = true \/ has_char "-" (f1 (snd s)) = true ->
  (exists e, In e (psf_entries f0 f1 f2 wl pix srcs) /\ split_output e = Err ValueError) /\ (exists e, In e (cube_entries f0 f1 wl srcs) /\ split_output e = Err ValueError).
Proof.
  intros wl pix srcs i s Hi A B C D HN. pose proof (numbered_in srcs i s Hi) as HI.
  assert (FN : has_char ":" (str_nat i) = false) by (apply str_nat_free; reflexivity).
  split.
  - exists (entry (psf_name f0 f1 f2 pix wl s) (psf_key i) "out_int_psf"). split; [apply in_flat_map; exists (i, s); split; [exact HI|now left]|].
    apply entry_bad.
    + unfold entry, psf_name, psf_key. rewrite !has_char_app, A, B, C, D, FN. reflexivity.
    + unfold psf_name. rewrite !has_char_app. destruct HN as [-> | ->]; rewrite ?orb_true_r; reflexivity.
  - exists (entry (cube_name f0 f1 wl s) "prop" (out_key i)). split; [apply in_map_iff; exists (i, s); split; [reflexivity|exact HI]|].
    apply entry_bad.
    + unfold entry, cube_name, out_key. rewrite !has_char_app, A, B, D, FN. reflexivity.
    + unfold cube_name. rewrite !has_char_app. destruct HN as [-> | ->]; rewrite ?orb_true_r; reflexivity.
Qed.
(* two sources share a file exactly when their coordinates have the same text with one decimal *)
Theorem C121_same_file : forall wl pix (s s' : F * F), (forall x, has_char "t" (f1 x) = false /\ has_char "_" (f1 x) = false) ->
  (psf_name f0 f1 f2 pix wl s = psf_name f0 f1 f2 pix wl s' <-> f1 (fst s) = f1 (fst s') /\ f1 (snd s) = f1 (snd s')) /\
  (cube_name f0 f1 wl s = cube_name f0 f1 wl s' <-> f1 (fst s) = f1 (fst s') /\ f1 (snd s) = f1 (snd s')).
Proof.
  intros wl pix s s' H. split; (split; [|intros [E1 E2]; unfold psf_name, cube_name; now rewrite E1, E2]); intros E.
  - unfold psf_name in E. apply (app_cancel "psf_r") in E. apply cut_at in E; [|apply H..]. destruct E as [E1 E]. split; [exact E1|].
    apply cut_at in E; [|apply H..]. apply E.
  - unfold cube_name in E. apply (app_cancel "cube_r") in E. apply cut_at in E; [|apply H..]. destruct E as [E1 E]. split; [exact E1|].
    apply cut_at in E; [|apply H..]. apply E.
Qed.

(* ---------------------------------------------------------------- results *)
(* when all the files exist they are the results, whatever the simulation would give *)
Theorem C121_reused : forall (D : Type) names make sim (fs : dict D), (forall l n, In l names -> In n l -> dget n fs <> None) ->
  exists out, compute names false make sim fs = Ok (out, fs) /\ length out = length names /\
  forall i l, nth_error names i = Some l -> exists ds, nth_error out i = Some ds /\ map (fun n => dget n fs) l = map Some ds.
Proof.
  intros D names make sim fs H. unfold compute. cbn [negb andb].
  assert (E : forallb (forallb (fun n => dmem n fs)) names = true).
  { apply forallb_forall. intros l Hl. apply forallb_forall. intros n Hn. unfold dmem. specialize (H l n Hl Hn). destruct (dget n fs); congruence. }
  rewrite E. cbn [bind].
  assert (R : forall l, (forall n, In n l -> dget n fs <> None) -> exists ds, map_res (read fs) l = Ok ds /\ map (fun n => dget n fs) l = map Some ds).
  { induction l as [|n l IH]; intros Hl; [now exists []|]. destruct (IH (fun x Hx => Hl x (or_intror Hx))) as [ds [R1 R2]].
    pose proof (Hl n (or_introl eq_refl)) as Hn. cbn [map_res map]. unfold read at 1. destruct (dget n fs) as [d|] eqn:Ed; [|congruence]. cbn [bind]. rewrite R1. exists (d :: ds). cbn. now rewrite R2. }
  clear E. induction names as [|l names IH]; cbn [map_res].
  - exists []. repeat split; try reflexivity. intros [|i] l Hi; discriminate.
  - destruct (R l (fun n Hn => H l n (or_introl eq_refl) Hn)) as [ds [R1 R2]]. rewrite R1. cbn [bind].
    destruct IH as [out [IH1 [IH2 IH3]]]; [intros; eapply H; [right; eassumption|assumption]|].
    destruct (map_res (map_res (read fs)) names) as [o|e]; cbn [bind] in *; [|discriminate]. injection IH1 as ->.
    exists (ds :: out). split; [reflexivity|]. split; [cbn; now rewrite IH2|]. intros [|i] l' Hi; cbn in *; [injection Hi as <-; eauto|now apply IH3].
Qed.
(* otherwise the simulation runs, and what it leaves is read *)
Theorem C121_computed : forall (D : Type) names force make sim (fs : dict D) rp fs', force = true \/ (exists l n, In l names /\ In n l /\ dget n fs = None) ->
  make = Ok rp -> sim rp fs = Ok fs' -> compute names force make sim fs = (out <- map_res (map_res (read fs')) names ;; Ok (out, fs')).
Proof.
  intros D names force make sim fs rp fs' H -> HS. unfold compute.
  assert (E : negb force && forallb (forallb (fun n => dmem n fs)) names = false).
  { destruct H as [-> | (l & n & Hl & Hn & E)]; [reflexivity|]. apply andb_false_iff. right. apply not_true_iff_false. intros C.
    rewrite forallb_forall in C. specialize (C l Hl). rewrite forallb_forall in C. specialize (C n Hn). unfold dmem in C. now rewrite E in C. }
  rewrite E. cbn [bind]. now rewrite HS.
Qed.
(* the file of an analysis of modes depends on a few of the parameters only *)
Theorem C121_modal_file : forall (m m' : pars) (s : F * F),
  (forall n, In n ["nmodes"; "nzern"; "ifunc_ref"; "ifunc_object"; "ifunc"; "ifunc_inv_ref"; "ifunc_inv_object"; "ifunc_inv"; "type_str"; "obsratio"] -> dget n m = dget n m') ->
  modal_name f1 ytext y2 m s = modal_name f1 ytext y2 m' s.
Proof.
  intros m m' s H. unfold modal_name, modal_tail.
  rewrite !(fun n I => H n I) by (cbn; tauto). reflexivity.
Qed.
End Replay.
Print Assumptions C121_psf.
Print Assumptions C121_modal.
Print Assumptions C121_cube.
Print Assumptions C121_downsampled.
Print Assumptions C121_stored.
Print Assumptions C121_negative.
Print Assumptions C121_same_file.
Print Assumptions C121_reused.
Print Assumptions C121_computed.
Print Assumptions C121_modal_file.

(* a simulation; numbers are in hundredths *)
Definition ex_text (z : Z) : string := str_of_Z z.
Definition ex_f1 (z : Z) : string := let t := ((z + 5) / 10)%Z in (if (t <? 0)%Z then "-" else "") ++ str_of_Z (Z.abs t / 10) ++ "." ++ str_of_Z (Z.abs t mod 10).
Definition ex_f0 (z : Z) : string := str_of_Z (z / 100).
Definition ex_y (v : yval) : string := match v with YInt z => str_of_Z z | YStr s => s | _ => "?" end.
Definition ex_ps : params :=
  [("main", [("class", YStr "SimulParams"); ("pixel_pupil", YInt 160)]);
   ("star", [("class", YStr "Source")]);
   ("atmo", [("class", YStr "AtmoEvolution"); ("simul_params_ref", YStr "main"); ("outputs", YList [YStr "layer_list"])]);
   ("prop", [("class", YStr "AtmoPropagation"); ("source_dict_ref", YList [YStr "star"]); ("inputs", YDict [("atmo_layer_list", YList [YStr "atmo.layer_list"]); ("common_layer_list", YList [YStr "dm.out_layer"])])]);
   ("dm", [("class", YStr "DM"); ("height", YInt 0); ("type_str", YStr "zernike"); ("nmodes", YInt 54); ("inputs", YDict [("in_command", YStr "control.out_comm")])]);
   ("control", [("class", YStr "Integrator")]);
   ("store", [("class", YStr "DataStore"); ("store_dir", YStr "data"); ("inputs", YDict [("input_list", YList [YStr "comm-control.out_comm"])])])].
Example C121_psf_example : exists rp ps' rp2, replay_base ex_y (fun _ => Ok (Some 1%Z)) ex_ps "tn" = Ok (rp, ps') /\
  psf_params ex_text ex_f0 ex_f1 ex_f1 (YFloat ".inf") 75000%Z 500%Z (YInt 0) "tn_PSF" [(1000, 4500); (2000, 0)]%Z rp = Ok rp2 /\
  dkeys rp2 = ["main"; "data_source"; "prop"; "atmo"; "dm"; "star"; "field_source_0"; "field_source_1"; "psf_field_0"; "psf_field_1"; "data_store_psf"] /\
  input rp2 "dm" "in_command" = Some (YStr "data_source.comm") /\
  input rp2 "data_store_psf" "input_list" = Some (YList [YStr "psf_r10.0t45.0_pix5.0mas_wl750nm-psf_field_0.out_int_psf"; YStr "sr_r10.0t45.0_pix5.0mas_wl750nm-psf_field_0.out_int_sr";
    YStr "psf_r20.0t0.0_pix5.0mas_wl750nm-psf_field_1.out_int_psf"; YStr "sr_r20.0t0.0_pix5.0mas_wl750nm-psf_field_1.out_int_sr"]).
Proof. do 3 eexists. split; [vm_compute; reflexivity|]. split; [vm_compute; reflexivity|]. now vm_compute. Qed.
Example C121_downsampled_example : replay_base ex_y (fun n => Ok (if String.eqb n "comm.fits" then Some 10%Z else None)) ex_ps "tn" = Err ValueError.
Proof. vm_compute. reflexivity. Qed.
Example C121_negative_example : map split_output (cube_entries ex_f0 ex_f1 75000%Z [(1000, -4500); (1000, 4500)]%Z)
  = [Err ValueError; Ok (mkOutput "prop" (Some "out_field_source_1_ef") 0 (Some "cube_r10.0t45.0_wl750nm"))].
Proof. vm_compute. reflexivity. Qed.
(* results for influence functions and for their inverses, of the same name, are in the same file *)
Theorem C121_inverse_refuted : exists (m m' : pars) (s : Z * Z), dget "ifunc_ref" m = Some (YStr "base") /\ dget "ifunc_inv_ref" m = None /\
  dget "ifunc_ref" m' = None /\ dget "ifunc_inv_ref" m' = Some (YStr "base") /\ modal_name ex_f1 ex_y ex_y m s = modal_name ex_f1 ex_y ex_y m' s.
Proof. exists [("ifunc_ref", YStr "base")], [("ifunc_inv_ref", YStr "base")], (1000, 4500)%Z. repeat split. Qed.
Print Assumptions C121_inverse_refuted.
(* sources closer than a tenth of an arcsecond get the same results *)
Theorem C121_distinct_refuted : exists s s' : Z * Z, s <> s' /\ psf_name ex_f0 ex_f1 ex_f1 500%Z 75000%Z s = psf_name ex_f0 ex_f1 ex_f1 500%Z 75000%Z s'.
Proof. exists (101, 0)%Z, (104, 0)%Z. split; [congruence|]. vm_compute. reflexivity. Qed.
Print Assumptions C121_distinct_refuted.
(* results of other parameters are taken for those asked for *)
Theorem C121_modal_refuted : exists (m m' : pars) (fs : dict Z), dget "npixels" m <> dget "npixels" m' /\
  let names := fun m => map (fun s => [modal_name ex_f1 ex_y ex_y m s]) [(1000, 4500)]%Z in
  forall make sim, compute (names m') false make sim fs = compute (names m) false make sim fs /\ compute (names m) false make sim fs = Ok ([[7%Z]], fs).
Proof.
  exists [("nmodes", YInt 10); ("npixels", YInt 160)], [("nmodes", YInt 10); ("npixels", YInt 80)], [("modal_r10.0t45.0_nmodes10", 7%Z)].
  split; [discriminate|]. intros names make sim. split; reflexivity.
Qed.
Print Assumptions C121_modal_refuted.

(* ---------------------------------------------------------------- modal parameters of the mirror *)
Lemma default_get : forall n v m k, dget k (default_to n v m) = if String.eqb k n then Some (match dget n m with Some w => w | None => v end) else dget k m.
Proof.
  intros n v m k. unfold default_to, dmem. destruct (String.eqb_spec k n) as [->|N].
  - destruct (dget n m) eqn:E; [exact E|apply ConnProofs.dget_dset_eq].
  - destruct (dget n m); [reflexivity|]. apply ConnProofs.dget_dset_neq. congruence.
Qed.
Lemma copy_get : forall names from m k, dget k (copy_params names from m) = if existsb (String.eqb k) names then (match dget k from with Some v => Some v | None => dget k m end) else dget k m.
Proof.
  induction names as [|n names IH]; intros from m k; [reflexivity|]. unfold copy_params in *. cbn [fold_left existsb]. rewrite IH.
  destruct (String.eqb_spec k n) as [->|N]; cbn [orb].
  - destruct (dget n from) eqn:E; [rewrite ConnProofs.dget_dset_eq|]; destruct (existsb (String.eqb n) names); reflexivity.
  - destruct (dget n from); [|reflexivity]. rewrite ConnProofs.dget_dset_neq by congruence. reflexivity.
Qed.
Lemma missing_keeps : forall names from m k v, dget k m = Some v -> dget k (copy_missing names from m) = Some v.
Proof.
  induction names as [|n names IH]; intros from m k v H; [exact H|]. unfold copy_missing in *. cbn [fold_left]. apply IH.
  destruct (dget n from); [|exact H]. unfold dmem. destruct (dget n m) eqn:E; [exact H|]. rewrite ConnProofs.dget_dset_neq; [exact H|congruence].
Qed.
Lemma missing_other : forall names from m k, ~ In k names -> dget k (copy_missing names from m) = dget k m.
Proof.
  induction names as [|n names IH]; intros from m k H; [reflexivity|]. unfold copy_missing in *. cbn [fold_left]. rewrite IH by (intros I; apply H; now right).
  destruct (dget n from); [|reflexivity]. destruct (dmem n m); [reflexivity|]. apply ConnProofs.dget_dset_neq. intros ->. apply H. now left.
Qed.
(* parameters of the first mirror of height zero are kept; without influence functions, a number of modes and a type are
   always there *)
Theorem C121_extract : forall zero ps,
  (forall p n v, ground_dm zero ps = Some p -> In n ["type_str"; "nmodes"; "nzern"; "npixels"; "obsratio"; "diaratio"; "ifunc_ref"; "ifunc_inv_ref"; "ifunc_object"; "ifunc_inv_object"] ->
     dget n p = Some v -> dget n (extract_modal zero ps) = Some v) /\
  (existsb (fun n => dmem n (extract_modal zero ps)) ["ifunc_ref"; "ifunc_inv_ref"; "ifunc_object"; "ifunc_inv_object"] = true \/
   ((dmem "nmodes" (extract_modal zero ps) = true \/ dmem "nzern" (extract_modal zero ps) = true) /\ dmem "type_str" (extract_modal zero ps) = true /\
    (param ps "main" "pixel_pupil" <> None -> dmem "npixels" (extract_modal zero ps) = true))) /\
  (ground_dm zero ps = None -> dget "nmodes" (extract_modal zero ps) = Some (YInt 100) /\ dget "type_str" (extract_modal zero ps) = Some (YStr "zernike")).
Proof.
  intros zero ps. unfold extract_modal.
  assert (PU : param ps "main" "pixel_pupil" = match dget "main" ps with Some p => dget "pixel_pupil" p | None => None end) by reflexivity.
  rewrite PU. clear PU. destruct (match dget "main" ps with Some p => dget "pixel_pupil" p | None => None end) as [pu|]; destruct (ground_dm zero ps) as [p|].
  1, 3: set (m0 := copy_params dm_names p []);
    set (m1 := match dget "ifunc_ref" p with Some (YStr r) => match dget r ps with Some ip => copy_missing ["nmodes"; "nzern"; "type_str"; "obsratio"] ip m0 | None => m0 end | _ => m0 end);
    assert (K0 : forall n v, In n dm_names -> dget n p = Some v -> dget n m0 = Some v) by
      (intros n v I E; unfold m0; rewrite copy_get; replace (existsb (String.eqb n) dm_names) with true by (symmetry; apply existsb_exists; exists n; split; [exact I|apply String.eqb_refl]); now rewrite E);
    assert (K : forall n v, In n dm_names -> dget n p = Some v -> dget n m1 = Some v) by
      (intros n v I E; specialize (K0 n v I E); unfold m1; destruct (dget "ifunc_ref" p) as [[]|]; try exact K0; destruct (dget s ps); [now apply missing_keeps|exact K0]);
    assert (NI : dget "ifunc" m1 = None /\ dget "ifunc_inv" m1 = None).
  1, 3: assert (N0 : dget "ifunc" m0 = None /\ dget "ifunc_inv" m0 = None) by (unfold m0; rewrite !copy_get; split; reflexivity);
    unfold m1; destruct N0; destruct (dget "ifunc_ref" p) as [[]|]; try (split; assumption); destruct (dget s ps); [|split; assumption];
    rewrite !missing_other by (cbn; intuition discriminate); split; assumption.
  - set (m2 := if dmem "nmodes" m1 || dmem "nzern" m1 then m1 else dset "nmodes" (YInt 100) m1).
    assert (M2 : forall n v, dget n m1 = Some v -> dget n m2 = Some v).
    { intros n v E. unfold m2. destruct (dmem "nmodes" m1 || dmem "nzern" m1) eqn:Q; [exact E|]. destruct (String.eqb_spec "nmodes" n) as [<-|N2]; [unfold dmem in Q; rewrite E in Q; discriminate|]. now rewrite ConnProofs.dget_dset_neq. }
    assert (M3 : dmem "nmodes" m2 = true \/ dmem "nzern" m2 = true).
    { unfold m2. destruct (dmem "nmodes" m1) eqn:Q1; [now left|]. destruct (dmem "nzern" m1) eqn:Q2; [now right|]. left. unfold dmem. cbn [orb]. now rewrite ConnProofs.dget_dset_eq. }
    assert (DM : forall k n v m, dmem k m = true -> dmem k (default_to n v m) = true).
    { intros k n v m E. unfold dmem in *. rewrite default_get. destruct (String.eqb k n); [reflexivity|exact E]. }
    assert (DN : forall n v m, dmem n (default_to n v m) = true).
    { intros n v m. unfold dmem. rewrite default_get. now rewrite String.eqb_refl. }
    assert (DG : forall k n v m w, dget k m = Some w -> dget k (default_to n v m) = Some w).
    { intros k n v m w E. rewrite default_get. destruct (String.eqb_spec k n) as [<-|]; [now rewrite E|exact E]. }
    split; [|split; [|discriminate]].
    + intros q n v Q I E. injection Q as <-. specialize (K n v I E). destruct (existsb (fun n => dmem n m1) ifunc_names); [exact K|]. auto.
    + destruct (existsb (fun n => dmem n m1) ifunc_names) eqn:Q.
      * left. unfold ifunc_names in Q. cbn [existsb] in *. destruct NI as [N1 N2]. unfold dmem in *. rewrite N1, N2, !orb_false_r in Q. now rewrite !orb_false_r.
      * right. split; [destruct M3; auto|]. split; [auto|auto].
  - set (m2 := if dmem "nmodes" m1 || dmem "nzern" m1 then m1 else dset "nmodes" (YInt 100) m1).
    assert (M2 : forall n v, dget n m1 = Some v -> dget n m2 = Some v).
    { intros n v E. unfold m2. destruct (dmem "nmodes" m1 || dmem "nzern" m1) eqn:Q; [exact E|]. destruct (String.eqb_spec "nmodes" n) as [<-|N2]; [unfold dmem in Q; rewrite E in Q; discriminate|]. now rewrite ConnProofs.dget_dset_neq. }
    assert (M3 : dmem "nmodes" m2 = true \/ dmem "nzern" m2 = true).
    { unfold m2. destruct (dmem "nmodes" m1) eqn:Q1; [now left|]. destruct (dmem "nzern" m1) eqn:Q2; [now right|]. left. unfold dmem. cbn [orb]. now rewrite ConnProofs.dget_dset_eq. }
    assert (DM : forall k n v m, dmem k m = true -> dmem k (default_to n v m) = true).
    { intros k n v m E. unfold dmem in *. rewrite default_get. destruct (String.eqb k n); [reflexivity|exact E]. }
    assert (DN : forall n v m, dmem n (default_to n v m) = true).
    { intros n v m. unfold dmem. rewrite default_get. now rewrite String.eqb_refl. }
    assert (DG : forall k n v m w, dget k m = Some w -> dget k (default_to n v m) = Some w).
    { intros k n v m w E. rewrite default_get. destruct (String.eqb_spec k n) as [<-|]; [now rewrite E|exact E]. }
    split; [|split; [|discriminate]].
    + intros q n v Q I E. injection Q as <-. specialize (K n v I E). destruct (existsb (fun n => dmem n m1) ifunc_names); [exact K|]. auto.
    + destruct (existsb (fun n => dmem n m1) ifunc_names) eqn:Q.
      * left. unfold ifunc_names in Q. cbn [existsb] in *. destruct NI as [N1 N2]. unfold dmem in *. rewrite N1, N2, !orb_false_r in Q. now rewrite !orb_false_r.
      * right. split; [destruct M3; auto|]. split; [auto|congruence].
  - split; [discriminate|]. split; [right; cbn; auto|]. intros _. split; reflexivity.
  - split; [discriminate|]. split; [right; cbn; repeat split; auto; congruence|]. intros _. split; reflexivity.
Qed.
Print Assumptions C121_extract.
Example C121_extract_example : extract_modal (fun _ => false) ex_ps = [("type_str", YStr "zernike"); ("nmodes", YInt 54); ("npixels", YInt 160)].
Proof. vm_compute. reflexivity. Qed.
(* the precision of the stored simulation is 0 or 1, or is not known *)
Theorem C121_precision : forall (rp : params) (d : pars), dget "data_source" rp = Some d ->
  (forall z, dget "global_precision" d = Some (YInt z) -> saved_precision (Some rp) = (if (z =? 0)%Z || (z =? 1)%Z then Some z else None)) /\
  (dget "global_precision" d = None -> saved_precision (Some rp) = None) /\
  (forall z, saved_precision (Some rp) = Some z -> z = 0%Z \/ z = 1%Z).
Proof.
  intros rp d H. unfold saved_precision. rewrite H. split; [|split].
  - intros z ->. reflexivity.
  - intros ->. reflexivity.
  - intros z. destruct (dget "global_precision" d) as [v|]; [|discriminate]. destruct v as [|b|y| | | |]; try discriminate.
    + destruct b; intros E; injection E as <-; auto.
    + destruct (Z.eqb_spec y 0); destruct (Z.eqb_spec y 1); cbn [orb]; intros E; try discriminate; injection E as <-; auto.
Qed.
Print Assumptions C121_precision.
Example C121_precision_example : saved_precision (Some [("data_source", [("global_precision", YInt 1)])]) = Some 1%Z /\ saved_precision (Some [("data_source", [("global_precision", YInt 2)])]) = None.
Proof. split; reflexivity. Qed.
