(* Where calibrations are written and read.
   Modelled code:
   - specula/calib_manager.py (CalibManager.root_subdir, filename)
   - specula/processing_objects/sn_calibrator.py (SnCalibrator)
   - specula/processing_objects/rec_calibrator.py, im_calibrator.py, sh_subap_calibrator.py,
     pyr_pupdata_calibrator.py: names of the files
   - specula/processing_objects/multi_rec_calibrator.py, multi_im_calibrator.py: names of the files
   Paths are POSIX paths compared as strings.  FileExistsError and FileNotFoundError are subclasses of
   OSError, for which RuntimeError stands. *)
From Coq Require Import String Ascii List Bool PeanoNat ZArith DecimalString.
From Verif Require Import PyBase Arith MultirateModel.
Import ListNotations.
Local Open Scope string_scope.

(* ---- paths ---- *)
Definition starts_slash (s : string) : bool := match s with String "/" _ => true | _ => false end.
Fixpoint ends_slash (s : string) : bool :=
  match s with EmptyString => false | String c EmptyString => Ascii.eqb c "/" | String _ r => ends_slash r end.
Fixpoint ends_with (suffix s : string) : bool :=
  String.eqb suffix s || match s with EmptyString => false | String _ r => ends_with suffix r end.
(* os.path.join(a, b) *)
Definition join (a b : string) : string :=
  if starts_slash b then b else if String.eqb a "" || ends_slash a then a ++ b else a ++ "/" ++ b.
(* if not name.endswith('.fits'): name += '.fits' *)
Definition fits_name (s : string) : string := if ends_with ".fits" s then s else s ++ ".fits".
(* s.rstrip('/') *)
Fixpoint rstrip (s : string) : string :=
  match s with
  | EmptyString => EmptyString
  | String c r => match rstrip r with
                  | EmptyString => if Ascii.eqb c "/" then EmptyString else String c EmptyString
                  | r' => String c r'
                  end
  end.
(* the part up to the last slash *)
Fixpoint head_of (s : string) : string :=
  match s with
  | EmptyString => EmptyString
  | String c r => match head_of r with
                  | EmptyString => if Ascii.eqb c "/" then String c EmptyString else EmptyString
                  | h => String c h
                  end
  end.
(* os.path.dirname *)
Definition dirname (s : string) : string :=
  let h := head_of s in if String.eqb (rstrip h) "" then h else rstrip h.

(* ---- calib_manager.py ---- *)
(* calib_manager.py:15-81 *)
Definition subdirs : dict string := [
  ("phasescreen", "phasescreens/"); ("AtmoRandomPhase", "phasescreens/"); ("AtmoEvolution", "phasescreens/");
  ("AtmoEvolutionUpDown", "phasescreens/"); ("AtmoInfiniteEvolution", "phasescreens/");
  ("AtmoInfiniteEvolutionUpDown", "phasescreens/"); ("slopenull", "slopenulls/"); ("SnCalibrator", "slopenulls/");
  ("sn", "slopenulls/"); ("background", "backgrounds/"); ("pupils", "pupils/"); ("pupdata", "pupils"); ("PupData", "pupils");
  ("PyrPupdataCalibrator", "pupils/"); ("DynamicPyrPupdataCalibrator", "pupils/"); ("DynamicDarkCalibrator", "dark/");
  ("subapdata", "subapdata/"); ("ShSubapCalibrator", "subapdata/"); ("iir_filter_data", "filter/"); ("IirFilterData", "filter/");
  ("ssr_filter_data", "filter/"); ("SsrFilterData", "filter/"); ("rec", "rec/"); ("recmat", "rec/"); ("Recmat", "rec/");
  ("intmat", "im/"); ("Intmat", "im/"); ("ImCalibrator", "im/"); ("MultiImCalibrator", "im/"); ("projmat", "rec/");
  ("RecCalibrator", "rec/"); ("MultiRecCalibrator", "rec/"); ("im", "im/"); ("ifunc", "ifunc/"); ("IFunc", "ifunc/");
  ("ifunc_inv", "ifunc/"); ("IFuncInv", "ifunc/"); ("m2c", "m2c/"); ("M2C", "m2c/"); ("filter", "filter/");
  ("kernel", "kernels/"); ("sh", "kernels/"); ("SH", "kernels/"); ("convolution_kernel", "kernels/");
  ("ConvolutionKernel", "kernels/"); ("gaussian_convolution_kernel", "kernels/"); ("GaussianConvolutionKernel", "kernels/");
  ("pupilstop", "pupilstop/"); ("Pupilstop", "pupilstop/"); ("maskef", "maskef/"); ("ElectricField", "ef/");
  ("Intensity", "intensity/"); ("LaserLaunchTelescope", "data/"); ("Lenslet", "lenslet/"); ("Pixels", "pixels/");
  ("Slopes", "slopes/"); ("TimeHistory", "data/"); ("time_hist", "data/"); ("Source", "data/"); ("SpatioTempArray", "arrays/");
  ("SubapData", "subapdata/"); ("vibrations", "vibrations/"); ("Layer", "layers/"); ("data", "data/"); ("projection", "popt/")].
(* calib_manager.py:84-94 *)
Definition root_subdir (root type : string) : res string :=
  match dget type subdirs with Some d => Ok (join root d) | None => Err KeyError end.
(* calib_manager.py:96-110 *)
Definition filename (root type name : string) : res string :=
  match dget type subdirs with Some d => Ok (fits_name (join (join root d) name)) | None => Err KeyError end.

(* ---- the tag of a calibrator, sn_calibrator.py:26-32, rec_calibrator.py:39-40, 58-61,
   sh_subap_calibrator.py:31-37 ---- *)
Definition pick_tag (tag template : option string) : res string :=
  match tag with
  | Some t => if String.eqb t "auto" then match template with Some m => Ok m | None => Err ValueError end else Ok t
  | None => match template with Some m => Ok m | None => Err ValueError end
  end.
(* the path that is checked: sn_calibrator.py:37-39, rec_calibrator.py:63-68, im_calibrator.py:48-50; the
   last two also write there *)
Definition checked_path (dir name : string) : string := fits_name (join dir name).
(* the path that is written: sn_calibrator.py:61-66, sh_subap_calibrator.py:70-75, pyr_pupdata_calibrator.py:590-595 *)
Definition written_path (dir name : string) : string := join dir (fits_name name).

(* ---- files ---- *)
Section World.
Context {A : arith}.
Record world := mkW { w_files : dict (vec A); w_dirs : list string }.
Definition has_dir (w : world) (d : string) : bool := String.eqb d "" || existsb (String.eqb d) (w_dirs w).
(* every directory above *)
Fixpoint above (fuel : nat) (d : string) : list string :=
  match fuel with
  | 0 => []
  | S f => let u := dirname d in if String.eqb u "" || String.eqb u d then [] else u :: above f u
  end.
(* os.makedirs(d, exist_ok=True).  Simplification: it fails for the empty name only. *)
Definition makedirs (w : world) (d : string) : res world :=
  if String.eqb d "" then Err RuntimeError
  else let d' := if String.eqb (rstrip d) "" then d else rstrip d in
       Ok (mkW (w_files w) (w_dirs w ++ d' :: above (String.length d') d')).
(* fits.writeto(path, ..., overwrite) *)
Definition save_file (w : world) (p : string) (c : vec A) (overwrite : bool) : res world :=
  if negb (has_dir w (dirname p)) then Err RuntimeError
  else if dmem p (w_files w) && negb overwrite then Err RuntimeError
  else Ok (mkW (dset p c (w_files w)) (w_dirs w)).

(* sn_calibrator.py: directory, file name, overwrite, slopes, number of frames *)
Record sncal := mkSn { sn_dir : string; sn_name : string; sn_over : bool; sn_sum : option (vec A); sn_count : nat }.
(* sn_calibrator.py:22-41 *)
Definition sn_new (w : world) (dir : string) (tag template : option string) (overwrite : bool) : res sncal :=
  name <- pick_tag tag template ;;
  if dmem (checked_path dir name) (w_files w) && negb overwrite then Err RuntimeError
  else Ok (mkSn dir name overwrite None 0).
(* sn_calibrator.py:51-56.  numpy raises ValueError for vectors of different sizes (sizes one apart from that) *)
Definition sn_trigger (s : sncal) (v : vec A) : res sncal :=
  match sn_sum s with
  | None => Ok (mkSn (sn_dir s) (sn_name s) (sn_over s) (Some v) (S (sn_count s)))
  | Some u => if Nat.eqb (length u) (length v)
              then Ok (mkSn (sn_dir s) (sn_name s) (sn_over s) (Some (vadd u v)) (S (sn_count s)))
              else Err ValueError
  end.
(* sn_calibrator.py:58-66 *)
Definition sn_finalize (s : sncal) (w : world) : res (sncal * world) :=
  match sn_sum s with
  | None => Err AttributeError
  | Some u =>
      let m := map (fun x => dvd x (of_nat (sn_count s))) u in
      let p := written_path (sn_dir s) (sn_name s) in
      w1 <- makedirs w (dirname p) ;;
      w2 <- save_file w1 p m (sn_over s) ;;
      Ok (mkSn (sn_dir s) (sn_name s) (sn_over s) (Some m) (sn_count s), w2)
  end.

(* multi_rec_calibrator.py:48-52 (checked in setup, lines 90-96) and 73-79 (written); the contents are
   given by [rec] *)
Definition str_nat (i : nat) : string := NilEmpty.string_of_uint (Nat.to_uint i).
Definition multi_path (dir tag : string) (i : nat) : string := join dir (tag ++ str_nat i ++ ".fits").
Definition multi_setup (w : world) (dir tag : string) (overwrite : bool) (n : nat) : res unit :=
  if existsb (fun i => dmem (multi_path dir tag i) (w_files w) && negb overwrite) (seq 0 n) then Err RuntimeError else Ok tt.
Definition multi_finalize (w : world) (dir tag : string) (overwrite : bool) (recs : list (vec A)) : res world :=
  w1 <- fold_res (fun w ir => save_file w (join dir (multi_path dir tag (fst ir))) (snd ir) overwrite) w
          (combine (seq 0 (length recs)) recs) ;;
  makedirs w1 dir.
End World.
Arguments world : clear implicits. Arguments sncal : clear implicits.
