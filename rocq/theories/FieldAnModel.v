(* Analysis of a stored simulation in other directions: specula/field_analyser.py.  The replay of the stored simulation is
   that of ParamsModel; a simulation takes a parameter dictionary and writes files.

   Simplifications.
   - Floating point numbers are of any type, with their texts: the one in parameter files, and those with 0, 1 and 2
     decimals (f0, f1, f2) used in the names of the files.  ytext and y2 are the texts of parameters in names.
   - The coordinates are a table of equal rows.  The file params.yml is its dictionary; writing and reading the parameters
     of a replay as YAML gives them back.
   - A directory is a dictionary of the contents of its .fits files, without the extension.
   - The displays (display=True) and the messages are not modelled. *)
From Coq Require Import String List Bool Arith ZArith.
From Verif Require Import PyBase NamesModel TrigOrderModel ParamsModel CalFileModel.
Import ListNotations.
Local Open Scope string_scope.

Section Field.
Context {F : Type} (ftext f0 f1 f2 : F -> string) (finf : yval).
Context (ytext y2 : yval -> string).

(* ---------------------------------------------------------------- sources *)
(* the transpose of a table of two rows *)
Fixpoint pairs_of (a b : list F) : list (list F) := match a, b with x :: a, y :: b => [x; y] :: pairs_of a b | _, _ => [] end.
(* specula/field_analyser.py:79-96: _setup_sources *)
Definition setup_sources (table : list (list F)) : res (list (F * F)) :=
  let coords := match table with [a; b] => pairs_of a b | t => t end in
  map_res (fun row => match row with [r; th] => Ok (r, th) | _ => Err ValueError end) coords.

(* ---------------------------------------------------------------- names of files *)
(* specula/field_analyser.py:98-112: _get_psf_filenames *)
Definition psf_name (pix wl : F) (s : F * F) : string := "psf_r" ++ f1 (fst s) ++ "t" ++ f1 (snd s) ++ "_pix" ++ f2 pix ++ "mas_wl" ++ f0 wl ++ "nm".
Definition sr_name (pix wl : F) (s : F * F) : string := "sr_r" ++ f1 (fst s) ++ "t" ++ f1 (snd s) ++ "_pix" ++ f2 pix ++ "mas_wl" ++ f0 wl ++ "nm".
(* specula/field_analyser.py:114-154: _get_modal_filename *)
Definition modal_tail (m : pars) : string :=
  match dget "nmodes" m with Some v => "_nmodes" ++ ytext v | None =>
  match dget "nzern" m with Some v => "_nzern" ++ ytext v | None =>
  match dget "ifunc_ref" m with Some v => "_ifref" ++ ytext v | None =>
  match dget "ifunc_object" m with Some v => "_ifobj" ++ ytext v | None =>
  match dget "ifunc" m with Some v => "_ifunc" ++ match v with YStr s => s | _ => "custom" end | None =>
  match dget "ifunc_inv_ref" m with Some v => "_ifref" ++ ytext v | None =>
  match dget "ifunc_inv_object" m with Some v => "_ifobj" ++ ytext v | None =>
  match dget "ifunc_inv" m with Some v => "_ifunc" ++ match v with YStr s => s | _ => "custom" end | None => "" end end end end end end end end
  ++ match dget "type_str" m with Some v => "_" ++ ytext v | None => "" end
  ++ match dget "obsratio" m with Some v => "_obs" ++ y2 v | None => "" end.
Definition modal_name (m : pars) (s : F * F) : string := "modal_r" ++ f1 (fst s) ++ "t" ++ f1 (snd s) ++ modal_tail m.
(* specula/field_analyser.py:156-168: _get_cube_filename *)
Definition cube_name (wl : F) (s : F * F) : string := "cube_r" ++ f1 (fst s) ++ "t" ++ f1 (snd s) ++ "_wl" ++ f0 wl ++ "nm".

(* ---------------------------------------------------------------- the stored simulation *)
(* the names of the files of the data source: None is printed as such *)
Definition out_text (v : yval) : string := match v with YStr s => s | YNone => "None" | v => ytext v end.
(* specula/field_analyser.py:212-243: _validate_replay_inputs_are_not_downsampled.  downsamp gives the DOWNSAMP of the
   header of a file of the store. *)
Definition not_downsampled (downsamp : string -> res (option Z)) (rp : params) : res unit :=
  match dget "data_source" rp with
  | None | Some [] => Ok tt
  | Some src =>
      let ext := match dget "data_format" src with
                 | None => Some ".fits"
                 | Some (YStr "fits") => Some ".fits"
                 | Some (YStr "pickle") => Some ".pickle"
                 | Some _ => None
                 end in
      match ext with
      | None => Ok tt
      | Some ext =>
          let outs := match dget "outputs" src with Some (YList l) => l | _ => [] end in
          fold_res (fun _ o =>
            h <- downsamp (out_text o ++ ext) ;;
            if (1 <? match h with Some z => z | None => 1 end)%Z then Err ValueError else Ok tt) tt outs
      end
  end.
(* specula/field_analyser.py:188-210: _get_saved_replay_precision.  The dictionary of replay_params.yml, if there is one. *)
Definition saved_precision (saved : option params) : option Z :=
  match saved with
  | None => None
  | Some rp => match dget "data_source" rp with
               | None => None
               | Some d => match dget "global_precision" d with
                           | Some (YInt z) => if (z =? 0)%Z || (z =? 1)%Z then Some z else None
                           | Some (YBool b) => Some (if b then 1 else 0)%Z
                           | _ => None
                           end
               end
  end.
(* specula/field_analyser.py:170-185, _build_replay_params_from_datastore: the replay, and the parameters as they are left *)
Definition replay_base (downsamp : string -> res (option Z)) (ps : params) (dir : string) : res (params * params) :=
  r <- build_targeted_replay ps ["prop"] (Some dir) ;;
  _ <- not_downsampled downsamp (fst r) ;;
  Ok r.

(* ---------------------------------------------------------------- parameters of the replay *)
(* config.get('class') == c *)
Definition has_class (c : string) (p : pars) : bool := match dget "class" p with Some (YStr s) => String.eqb s c | _ => false end.
Fixpoint first_of (c : string) (ps : params) : option string :=
  match ps with [] => None | (k, p) :: r => if has_class c p then Some k else first_of c r end.
Definition source_key (i : nat) : string := "field_source_" ++ str_nat i.
Definition out_key (i : nat) : string := "out_field_source_" ++ str_nat i ++ "_ef".
Definition numbered_list {A} (l : list A) : list (nat * A) := combine (seq 0 (length l)) l.
Definition source_pars (wl : F) (s : F * F) : pars :=
  [("class", YStr "Source"); ("polar_coordinates", YList [YFloat (ftext (fst s)); YFloat (ftext (snd s))]); ("magnitude", YInt 8);
   ("wavelengthInNm", YFloat (ftext wl)); ("height", finf)].
(* specula/field_analyser.py:399-443: _add_field_sources_to_params *)
Definition add_sources (wl : F) (srcs : list (F * F)) (rp : params) : res params :=
  match first_of "AtmoPropagation" rp with
  | None => Err KeyError
  | Some prop =>
      let rp := fold_left (fun rp ix => dset (source_key (fst ix)) (source_pars wl (snd ix)) rp) (numbered_list srcs) rp in
      match dget prop rp with
      | None => Err KeyError
      | Some p =>
          let ids := seq 0 (length srcs) in
          let p := dset "source_dict_ref" (YList (map (fun i => YStr (source_key i)) ids)) p in
          let p := dset "outputs" (YList (map (fun i => YStr (out_key i)) ids)) p in
          Ok (dset prop p rp)
      end
  end.
Definition entry (file obj out : string) : string := file ++ "-" ++ obj ++ "." ++ out.
Definition store_pars (dir : string) (l : list string) : pars :=
  [("class", YStr "DataStore"); ("store_dir", YStr dir); ("data_format", YStr "fits"); ("create_tn", YBool false);
   ("inputs", YDict [("input_list", YList (map YStr l))])].
(* specula/field_analyser.py:265-320: _build_replay_params_psf, from the replay *)
Definition psf_key (i : nat) : string := "psf_field_" ++ str_nat i.
Definition psf_pars (wl pix : F) (start : yval) (i : nat) : pars :=
  [("class", YStr "PSF"); ("simul_params_ref", YStr "main"); ("wavelengthInNm", YFloat (ftext wl)); ("pixel_size_mas", YFloat (ftext pix));
   ("start_time", start); ("inputs", YDict [("in_ef", YStr ("prop." ++ out_key i))]); ("outputs", YList [YStr "out_int_psf"; YStr "out_int_sr"])].
Definition psf_entries (wl pix : F) (srcs : list (F * F)) : list string :=
  flat_map (fun ix => [entry (psf_name pix wl (snd ix)) (psf_key (fst ix)) "out_int_psf"; entry (sr_name pix wl (snd ix)) (psf_key (fst ix)) "out_int_sr"]) (numbered_list srcs).
Definition psf_params (wl pix : F) (start : yval) (dir : string) (srcs : list (F * F)) (rp : params) : res params :=
  rp <- add_sources wl srcs rp ;;
  let rp := fold_left (fun rp i => dset (psf_key i) (psf_pars wl pix start i) rp) (seq 0 (length srcs)) rp in
  Ok (dset "data_store_psf" (store_pars dir (psf_entries wl pix srcs)) rp).
(* specula/field_analyser.py:322-365: _build_replay_params_modal *)
Definition modal_key (i : nat) : string := "modal_analysis_" ++ str_nat i.
Definition modal_pars (m : pars) (i : nat) : pars :=
  dupdate [("class", YStr "ModalAnalysis"); ("inputs", YDict [("in_ef", YStr ("prop." ++ out_key i))]); ("outputs", YList [YStr "out_modes"])] m.
Definition modal_entries (m : pars) (srcs : list (F * F)) : list string :=
  map (fun ix => entry (modal_name m (snd ix)) (modal_key (fst ix)) "out_modes") (numbered_list srcs).
Definition modal_params (wl : F) (m : pars) (dir : string) (srcs : list (F * F)) (rp : params) : res params :=
  rp <- add_sources wl srcs rp ;;
  let rp := fold_left (fun rp i => dset (modal_key i) (modal_pars m i) rp) (seq 0 (length srcs)) rp in
  Ok (dset "data_store_modal" (store_pars dir (modal_entries m srcs)) rp).
(* specula/field_analyser.py:367-397: _build_replay_params_cube *)
Definition cube_entries (wl : F) (srcs : list (F * F)) : list string :=
  map (fun ix => entry (cube_name wl (snd ix)) "prop" (out_key (fst ix))) (numbered_list srcs).
Definition cube_params (wl : F) (dir : string) (srcs : list (F * F)) (rp : params) : res params :=
  rp <- add_sources wl srcs rp ;;
  Ok (dset "data_store_cube" (store_pars dir (cube_entries wl srcs)) rp).

(* ---------------------------------------------------------------- results *)
Section Run.
Context {D : Type}.
(* fits.open of a file that does not exist: FileNotFoundError, here KeyError *)
Definition read (fs : dict D) (name : string) : res D := match dget name fs with Some d => Ok d | None => Err KeyError end.
(* specula/field_analyser.py:552-582, 601-627, 632-658: the files of the sources exist, or the simulation runs; the
   results are read from the files.  names are the files of each source; make gives the parameters; sim runs them: it
   returns the new contents of the directory. *)
Definition compute (names : list (list string)) (force : bool) (make : res params) (sim : params -> dict D -> res (dict D)) (fs : dict D) :
    res (list (list D) * dict D) :=
  fs' <- (if negb force && forallb (forallb (fun n => dmem n fs)) names then Ok fs
          else rp <- make ;; sim rp fs) ;;
  out <- map_res (map_res (read fs')) names ;;
  Ok (out, fs').
End Run.

(* ---------------------------------------------------------------- modal parameters of the mirror *)
Definition copy_params (names : list string) (from : pars) (m : pars) : pars :=
  fold_left (fun m n => match dget n from with Some v => dset n v m | None => m end) names m.
Definition copy_missing (names : list string) (from : pars) (m : pars) : pars :=
  fold_left (fun m n => match dget n from with Some v => if dmem n m then m else dset n v m | None => m end) names m.
Definition default_to (n : string) (v : yval) (m : pars) : pars := if dmem n m then m else dset n v m.
(* obj_config.get('height', None) == 0 *)
Definition zero_height (zero : string -> bool) (p : pars) : bool :=
  match dget "height" p with Some (YInt z) => (z =? 0)%Z | Some (YFloat s) => zero s | Some (YBool b) => negb b | _ => false end.
Fixpoint ground_dm (zero : string -> bool) (ps : params) : option pars :=
  match ps with [] => None | (_, p) :: r => if has_class "DM" p && zero_height zero p then Some p else ground_dm zero r end.
Definition dm_names : list string :=
  ["type_str"; "nmodes"; "nzern"; "npixels"; "obsratio"; "diaratio"; "ifunc_ref"; "ifunc_inv_ref"; "ifunc_object"; "ifunc_inv_object"].
Definition ifunc_names : list string := ["ifunc_ref"; "ifunc_inv_ref"; "ifunc_object"; "ifunc_inv_object"; "ifunc"; "ifunc_inv"].
(* specula/field_analyser.py:741-800: _extract_modal_params_from_dm *)
Definition extract_modal (zero : string -> bool) (ps : params) : pars :=
  let pupil := match dget "main" ps with Some p => dget "pixel_pupil" p | None => None end in
  let npix := fun m => match pupil with Some v => default_to "npixels" v m | None => m end in
  match ground_dm zero ps with
  | Some p =>
      let m := copy_params dm_names p [] in
      let m := match dget "ifunc_ref" p with
               | Some (YStr r) => match dget r ps with Some ip => copy_missing ["nmodes"; "nzern"; "type_str"; "obsratio"] ip m | None => m end
               | _ => m
               end in
      if existsb (fun n => dmem n m) ifunc_names then m
      else npix (default_to "type_str" (YStr "zernike") (if dmem "nmodes" m || dmem "nzern" m then m else dset "nmodes" (YInt 100) m))
  | None => npix [("type_str", YStr "zernike"); ("nmodes", YInt 100)]
  end.
End Field.
