(* Saving data objects to FITS files and restoring them.

   Files are modelled as a header and a list of data blocks (HDUs); block 0 is the data of
   the primary HDU.  Simplifications: the library astropy.io.fits returns the header values
   and arrays that were written (numbers are not rounded, strings have no trailing blanks),
   arrays have at least one element, conversions between floating-point types are not
   modelled, and a data block of another kind than expected is an error. *)
From Coq Require Import String List ZArith Bool Arith Ascii.
From Verif Require Import PyBase Arith NpModel VecModel SlopesModel.
Import ListNotations.
Local Open Scope string_scope.

Section Fits.
Variable A : arith.
Notation V := (car A).
(* numbers that may be written to a header: astropy refuses nan and inf with ValueError *)
Variable finite : V -> bool.
(* float() of an integer *)
Variable ofz : Z -> V.

(* two-dimensional arrays: number of columns, rows *)
Record arr2 (X : Type) := mkA2 { a_c : nat; a_rows : list (list X) }.
Arguments mkA2 {X}. Arguments a_c {X}. Arguments a_rows {X}.
Definition a_r {X} (m : arr2 X) : nat := length (a_rows m).
(* m.T *)
Definition a_T {X} (d : X) (m : arr2 X) : arr2 X :=
  mkA2 (a_r m) (map (fun j => map (fun r => nth j r d) (a_rows m)) (seq 0 (a_c m))).

Inductive block :=
| BNone                       (* primary HDU without data *)
| BVec (v : list V)
| BMat (m : arr2 V)
| BZVec (v : list Z)
| BZMat (m : arr2 Z).

(* Python numbers as they appear in attributes and headers *)
Inductive pnum := PInt (z : Z) | PFlt (x : V).
Definition to_float (n : pnum) : V := match n with PInt z => ofz z | PFlt x => x end.

Inductive hval := HNum (n : pnum) | HStr (s : string) | HText (x : V) (* str(number) *).
Definition header := dict hval.

Record fits := mkFits { f_hdr : header; f_blocks : list block }.
Definition files := dict fits.

(* hdr[key] = value *)
Definition hput (h : header) (k : string) (v : hval) : res header :=
  match v with
  | HNum (PFlt x) => if finite x then Ok (dset k v h) else Err ValueError
  | _ => Ok (dset k v h)
  end.
Definition hputs (kvs : list (string * hval)) : res header :=
  fold_res (fun h kv => hput h (fst kv) (snd kv)) [] kvs.
(* hdr[key] *)
Definition hget (h : header) (k : string) : res hval :=
  match dget k h with Some v => Ok v | None => Err KeyError end.
Definition hget_int (h : header) (k : string) : res Z :=
  v <- hget h k ;; match v with HNum (PInt z) => Ok z | _ => Err TypeError end.
(* float(hdr[key]) *)
Definition hget_float (h : header) (k : string) : res V :=
  v <- hget h k ;; match v with HNum n => Ok (to_float n) | _ => Err ValueError end.
Definition hget_num (h : header) (k : string) : res pnum :=
  v <- hget h k ;; match v with HNum n => Ok n | _ => Err TypeError end.
(* hdr.get(key, default) for strings *)
Definition hget_str (h : header) (k d : string) : res string :=
  match dget k h with None => Ok d | Some (HStr s) => Ok s | _ => Err TypeError end.
(* hdr.get('VERSION') compared with the expected number *)
Definition version_is (h : header) (n : Z) : bool :=
  match dget "VERSION" h with Some (HNum (PInt z)) => Z.eqb z n | _ => false end.
Definition obj_type_is (h : header) (s : string) : bool :=
  match dget "OBJ_TYPE" h with Some (HStr t) => String.eqb t s | _ => false end.

(* writeto(filename, overwrite) followed by appending blocks; the file must not exist unless
   overwrite is set (OSError) *)
Definition write (fs : files) (name : string) (overwrite : bool) (h : res header) (bs : list block) : res files :=
  hdr <- h ;;
  if dmem name fs && negb overwrite then Err RuntimeError else Ok (dset name (mkFits hdr bs) fs).
Definition open (fs : files) (name : string) : res fits :=
  match dget name fs with Some f => Ok f | None => Err RuntimeError end.
(* hdul[i].data *)
Definition data (f : fits) (i : nat) : res block :=
  match nth_error (f_blocks f) i with Some b => Ok b | None => Err IndexError end.
Definition data_mat (f : fits) (i : nat) : res (arr2 V) :=
  b <- data f i ;; match b with BMat m => Ok m | _ => Err TypeError end.
Definition data_zmat (f : fits) (i : nat) : res (arr2 Z) :=
  b <- data f i ;; match b with BZMat m => Ok m | _ => Err TypeError end.
Definition data_vec (f : fits) (i : nat) : res (list V) :=
  b <- data f i ;; match b with BVec v => Ok v | _ => Err TypeError end.
Definition data_zvec (f : fits) (i : nat) : res (list Z) :=
  b <- data f i ;; match b with BZVec v => Ok v | _ => Err TypeError end.

Definition hint (z : Z) : hval := HNum (PInt z).
Definition hnat (n : nat) : hval := hint (Z.of_nat n).
Definition hflt (x : V) : hval := HNum (PFlt x).

(* ---- Intmat ---- *)

(* attributes holding None, arrays, strings or numbers: the slope statistics and tags of an
   interaction matrix *)
Inductive attr := ANone | AArr (v : list V) | AStr (s : string) | ANum (n : pnum).
(* specula/data_objects/intmat.py:41-79 *)
Record intmat := mkIM { im_mat : arr2 V; im_mm : attr; im_rms : attr; im_pup : attr; im_sub : attr; im_norm : pnum }.

(* intmat.py:137-143: hdr[key] = tag *)
Definition attr_hval (a : attr) : res hval :=
  match a with AStr s => Ok (HStr s) | ANum n => Ok (HNum n) | ANone => Err ValueError | AArr _ => Err ValueError end.
Definition intmat_header (o : intmat) : res header :=
  p <- attr_hval (im_pup o) ;; s <- attr_hval (im_sub o) ;;
  hputs [("VERSION", hint 1); ("PUP_TAG", p); ("SA_TAG", s); ("NORMFACT", HNum (im_norm o))].
(* ImageHDU(data=a): arrays only *)
Definition attr_block (a : attr) : res (list block) :=
  match a with
  | ANone => Ok []
  | AArr v => Ok [BVec v]
  | AStr _ | ANum _ => Err TypeError
  end.
(* intmat.py:145-155 *)
Definition save_intmat (fs : files) (name : string) (o : intmat) (overwrite : bool) : res files :=
  h <- intmat_header o ;;
  mm <- attr_block (im_mm o) ;; rms <- attr_block (im_rms o) ;;
  write fs name overwrite (Ok h) ([BNone; BMat (im_mat o)] ++ mm ++ rms).

(* Intmat(intmat, nmodes, nslopes, slope_mm, slope_rms, pupdata_tag, ...): intmat.py:41-79.
   [nmodes] and [nslopes] are not used when the matrix is given *)
Definition make_intmat (m : arr2 V) (nmodes nslopes : attr) (mm rms pup sub : attr) (norm : pnum) : intmat :=
  mkIM m mm rms pup sub norm.
(* intmat.py:161-176: the values after the matrix are passed by position *)
Definition restore_intmat (fs : files) (name : string) : res intmat :=
  f <- open fs name ;;
  m <- data_mat f 1 ;;
  norm <- match dget "NORMFACT" (f_hdr f) with None => Ok (ofz 0) | Some (HNum n) => Ok (to_float n) | _ => Err ValueError end ;;
  pup <- hget_str (f_hdr f) "PUP_TAG" "" ;;
  sub <- hget_str (f_hdr f) "SA_TAG" "" ;;
  mmrms <- (if Nat.leb 4 (length (f_blocks f)) then
              mm <- data_vec f 2 ;; rms <- data_vec f 3 ;; Ok (AArr mm, AArr rms)
            else Ok (ANone, ANone)) ;;
  Ok (make_intmat m (fst mmrms) (snd mmrms) (AStr pup) (AStr sub) (ANum (PFlt norm)) (AStr "") (PFlt (ofz 0))).

(* ---- Recmat ---- *)

(* specula/data_objects/recmat.py:14-28; [rm_layer] is modes2recLayer *)
Record recmat := mkRM { rm_mat : arr2 V; rm_norm : pnum; rm_layer : option (arr2 V) }.
Fixpoint ends_with (suffix s : string) : bool :=
  String.eqb suffix s || match s with EmptyString => false | String _ r => ends_with suffix r end.
(* recmat.py:75-83 *)
Definition save_recmat (fs : files) (name : string) (o : recmat) (overwrite : bool) : res files :=
  let name := if ends_with ".fits" name then name else (name ++ ".fits")%string in
  write fs name overwrite (hputs [("VERSION", hint 1); ("NORMFACT", HNum (rm_norm o))])
    ([BVec [ofz 0; ofz 0]; BMat (rm_mat o)] ++ match rm_layer o with Some l => [BMat l] | None => [] end).
(* recmat.py:89-104; the constructor ignores modes2recLayer *)
Definition restore_recmat (fs : files) (name : string) : res recmat :=
  f <- open fs name ;;
  v <- hget_int (f_hdr f) "VERSION" ;;
  if negb (Z.eqb v 1) then Err ValueError else
  norm <- hget_float (f_hdr f) "NORMFACT" ;;
  m <- data_mat f 1 ;;
  layer <- (if Nat.leb 3 (length (f_blocks f)) then l <- data f 2 ;; Ok (Some l) else Ok None) ;;
  Ok (mkRM m (PFlt norm) None).

(* ---- M2C ---- *)

(* specula/data_objects/m2c.py:16-29 *)
Record m2c := mkM2C { mc_mat : arr2 V; mc_norm : option pnum }.
(* m2c.py:64-78 *)
Definition save_m2c (fs : files) (name : string) (o : m2c) (overwrite : bool) : res files :=
  write fs name overwrite (hputs [("VERSION", hint 1)]) [BNone; BMat (mc_mat o)].
(* m2c.py:80-90 *)
Definition restore_m2c (fs : files) (name : string) : res m2c :=
  f <- open fs name ;;
  if negb (version_is (f_hdr f) 1) then Err ValueError else
  m <- data_mat f 1 ;; Ok (mkM2C m None).

(* ---- cut_modes, IFunc, IFuncInv ---- *)

(* an explicit list of modes, or a range *)
Definition mode_slice (start nmodes : option Z) (orig : nat) : pyslice :=
  let a := match start with Some s => s | None => 0%Z end in
  let n := match nmodes with Some n => n | None => Z.of_nat orig end in
  mkSlice (Some a) (Some (a + n)%Z) None.
(* specula/data_objects/ifunc_inv.py:6-47, one axis of the matrix at a time *)
Definition cut_list {X} (l : list X) (start nmodes : option Z) (idx : option (list Z)) : res (list X) :=
  match idx with
  | Some is => take_list l is
  | None => take_slice l (mode_slice start nmodes (length l))
  end.
Definition cut_rows {X} (m : arr2 X) start nmodes idx : res (arr2 X) :=
  r <- cut_list (a_rows m) start nmodes idx ;; Ok (mkA2 (a_c m) r).
(* matrix[:, new_slice]: the selected column numbers are the same for every row *)
Definition cut_cols {X} (m : arr2 X) start nmodes idx : res (arr2 X) :=
  cs <- cut_list (seq 0 (a_c m)) start nmodes idx ;;
  rows <- map_res (fun r => cut_list r start nmodes idx) (a_rows m) ;;
  Ok (mkA2 (length cs) rows).

(* specula/data_objects/ifunc.py:19-98, ifunc and mask given *)
Record ifunc := mkIF { if_mat : arr2 V; if_mask : arr2 V }.
Definition make_ifunc (m mask : arr2 V) (start nmodes : option Z) (idx : option (list Z)) : res ifunc :=
  c <- cut_rows m start nmodes idx ;; Ok (mkIF c mask).
(* ifunc.py:204-211 *)
Definition save_ifunc (fs : files) (name : string) (o : ifunc) (overwrite : bool) : res files :=
  write fs name overwrite (hputs [("VERSION", hint 1)]) [BNone; BMat (a_T (ofz 0) (if_mat o)); BMat (if_mask o)].
(* ifunc.py:213-218, exten = 1 *)
Definition restore_ifunc (fs : files) (name : string) : res ifunc :=
  f <- open fs name ;;
  m <- data_mat f 1 ;; mask <- data_mat f 2 ;;
  make_ifunc (a_T (ofz 0) m) mask None None None.

(* specula/data_objects/ifunc_inv.py:50-80 *)
Record ifuncinv := mkII { ii_mat : arr2 V; ii_mask : arr2 V }.
(* ifunc_inv.py:87-101 *)
Definition save_ifuncinv (fs : files) (name : string) (o : ifuncinv) (overwrite : bool) : res files :=
  write fs name overwrite (hputs [("VERSION", hint 1)]) [BNone; BMat (a_T (ofz 0) (ii_mat o)); BMat (ii_mask o)].
Definition restore_ifuncinv (fs : files) (name : string) : res ifuncinv :=
  f <- open fs name ;;
  m <- data_mat f 1 ;; mask <- data_mat f 2 ;; Ok (mkII (a_T (ofz 0) m) mask).

(* ---- SubapData, PupData ---- *)

(* specula/data_objects/subap_data.py:16-52 *)
Record subap := mkSA { sa_idx : arr2 Z; sa_map : list Z; sa_nx : Z; sa_ny : Z; sa_th : V }.
(* subap_data.py:75-85 *)
Definition save_subap (fs : files) (name : string) (o : subap) (overwrite : bool) : res files :=
  write fs name overwrite
    (hputs [("VERSION", hint 1); ("ENRGYTH", hflt (sa_th o)); ("NP_SUB", hint (Z.sqrt (Z.of_nat (a_c (sa_idx o)))));
            ("NX", hint (sa_nx o)); ("NY", hint (sa_ny o))])
    [BVec [ofz 0; ofz 0]; BZMat (a_T 0%Z (sa_idx o)); BZVec (sa_map o)].
(* subap_data.py:87-103 *)
Definition restore_subap (fs : files) (name : string) : res subap :=
  f <- open fs name ;;
  if negb (version_is (f_hdr f) 1) then Err ValueError else
  th <- hget_float (f_hdr f) "ENRGYTH" ;;
  nx <- hget_int (f_hdr f) "NX" ;; ny <- hget_int (f_hdr f) "NY" ;;
  idx <- data_zmat f 1 ;; map <- data_zvec f 2 ;;
  Ok (mkSA (a_T 0%Z idx) map nx ny th).

(* specula/data_objects/pupdata.py:13-58 *)
Record pupdata := mkPD { pd_ind : arr2 Z; pd_radius : list V; pd_cx : list V; pd_cy : list V; pd_size : Z * Z; pd_int : bool }.
(* pupdata.py:124-137 *)
Definition save_pupdata (fs : files) (name : string) (o : pupdata) (overwrite : bool) : res files :=
  write fs name overwrite
    (hputs [("VERSION", hint 2); ("FSIZEX", hint (fst (pd_size o))); ("FSIZEY", hint (snd (pd_size o)))])
    [BVec [ofz 0; ofz 0]; BZMat (pd_ind o); BVec (pd_radius o); BVec (pd_cx o); BVec (pd_cy o)].
(* pupdata.py:139-166; 41-42: without cy it is set to four zeros *)
Definition restore_pupdata (fs : files) (name : string) : res pupdata :=
  f <- open fs name ;;
  if negb (version_is (f_hdr f) 2) then Err ValueError else
  x <- hget_int (f_hdr f) "FSIZEX" ;; y <- hget_int (f_hdr f) "FSIZEY" ;;
  ind <- data_zmat f 1 ;; radius <- data_vec f 2 ;; cx <- data_vec f 3 ;;
  cy <- (if Nat.leb 5 (length (f_blocks f)) then data_vec f 4 else Ok [ofz 0; ofz 0; ofz 0; ofz 0]) ;;
  Ok (mkPD ind radius cx cy (x, y) false).

(* ---- frames ---- *)

Definition same_shape {X Y} (m : arr2 X) (n : arr2 Y) : bool := Nat.eqb (a_r m) (a_r n) && Nat.eqb (a_c m) (a_c n).
Definition const2 {X} (r c : nat) (x : X) : arr2 X := mkA2 c (repeat (repeat x c) r).

(* specula/data_objects/pixels.py:13-58: the type has at most 64 bits; the table of types
   (60-77) has 8 rows and 2 columns, negative indices count from the end *)
Record pixels := mkPix { px_mat : arr2 V; px_bpp : Z; px_signed : Z }.
Definition type_ok (bits signed : Z) : bool :=
  let r := ((bits - 1) / 8)%Z in ((-8 <=? r) && (r <? 8) && (-2 <=? signed) && (signed <? 2))%Z.
Definition make_pixels (dimx dimy bits signed : Z) : res pixels :=
  if (64 <? bits)%Z then Err ValueError else
  if type_ok bits signed then
    if (0 <=? dimx)%Z && (0 <=? dimy)%Z then Ok (mkPix (const2 (Z.to_nat dimy) (Z.to_nat dimx) (ofz 0)) bits signed)
    else Err ValueError
  else Err ValueError.
(* pixels.py:79-88 *)
Definition set_pixels (o : pixels) (m : arr2 V) : res pixels :=
  if same_shape m (px_mat o) then Ok (mkPix m (px_bpp o) (px_signed o)) else Err AssertionError.
(* pixels.py:109-127; the name of the type is not read back and not modelled *)
Definition save_pixels (fs : files) (name : string) (o : pixels) (overwrite : bool) : res files :=
  write fs name overwrite
    (hputs [("VERSION", hint 1); ("OBJ_TYPE", HStr "Pixels"); ("BPP", hint (px_bpp o)); ("BYTESPP", hint ((px_bpp o + 7) / 8));
            ("SIGNED", hint (px_signed o)); ("DIMX", hnat (a_c (px_mat o))); ("DIMY", hnat (a_r (px_mat o)))])
    [BNone; BMat (px_mat o)].
(* pixels.py:129-148 *)
Definition restore_pixels (fs : files) (name : string) : res pixels :=
  f <- open fs name ;;
  v <- hget_int (f_hdr f) "VERSION" ;;
  if negb (Z.eqb v 1) then Err ValueError else
  x <- hget_int (f_hdr f) "DIMX" ;; y <- hget_int (f_hdr f) "DIMY" ;;
  b <- hget_int (f_hdr f) "BPP" ;; s <- hget_int (f_hdr f) "SIGNED" ;;
  o <- make_pixels x y b s ;;
  m <- data_mat f 1 ;; set_pixels o m.

(* specula/data_objects/intensity.py:13-65 *)
Definition save_intensity (fs : files) (name : string) (o : arr2 V) (overwrite : bool) : res files :=
  write fs name overwrite
    (hputs [("VERSION", hint 1); ("OBJ_TYPE", HStr "Intensity"); ("DIMX", hnat (a_c o)); ("DIMY", hnat (a_r o))]) [BNone; BMat o].
(* intensity.py:67-86: x[:] = m where both have the same shape *)
Definition fill2 (shape m : arr2 V) : res (arr2 V) := if same_shape m shape then Ok m else Err ValueError.
Definition restore_intensity (fs : files) (name : string) : res (arr2 V) :=
  f <- open fs name ;;
  if negb (obj_type_is (f_hdr f) "Intensity") then Err ValueError else
  v <- hget_int (f_hdr f) "VERSION" ;;
  if negb (Z.eqb v 1) then Err ValueError else
  x <- hget_int (f_hdr f) "DIMX" ;; y <- hget_int (f_hdr f) "DIMY" ;;
  m <- data_mat f 1 ;; fill2 (const2 (Z.to_nat y) (Z.to_nat x) (ofz 0)) m.

(* specula/data_objects/layer.py:13-49, electric_field.py:14-58.  S0 is the flux density of the
   field; height, rotation and magnification may be given as integers *)
Record layer := mkLayer { la_amp : arr2 V; la_phase : arr2 V; la_pitch : pnum; la_height : pnum;
  la_shift : V * V; la_rot : pnum; la_mag : pnum; la_s0 : pnum }.
(* layer.py:53-75 *)
Definition save_layer (fs : files) (name : string) (o : layer) (overwrite : bool) : res files :=
  write fs name overwrite
    (hputs [("VERSION", hint 1); ("OBJ_TYPE", HStr "Layer"); ("DIMX", hnat (a_c (la_amp o))); ("DIMY", hnat (a_r (la_amp o)));
            ("PIXPITCH", HNum (la_pitch o)); ("HEIGHT", HNum (la_height o)); ("SHIFTX", hflt (fst (la_shift o)));
            ("SHIFTY", hflt (snd (la_shift o))); ("ROTATION", HNum (la_rot o)); ("MAGNIFIC", HNum (la_mag o))])
    [BNone; BMat (la_amp o); BMat (la_phase o)].
(* layer.py:77-102 *)
Definition restore_layer (fs : files) (name : string) : res layer :=
  f <- open fs name ;;
  let h := f_hdr f in
  if negb (obj_type_is h "Layer") then Err ValueError else
  v <- hget_int h "VERSION" ;;
  if negb (Z.eqb v 1) then Err ValueError else
  x <- hget_int h "DIMX" ;; y <- hget_int h "DIMY" ;;
  pitch <- hget_float h "PIXPITCH" ;; height <- hget_float h "HEIGHT" ;;
  sx <- hget_float h "SHIFTX" ;; sy <- hget_float h "SHIFTY" ;;
  rot <- hget_float h "ROTATION" ;; mag <- hget_float h "MAGNIFIC" ;;
  let blank := const2 (Z.to_nat y) (Z.to_nat x) (ofz 0) in
  a <- data_mat f 1 ;; amp <- fill2 blank a ;;
  p <- data_mat f 2 ;; phase <- fill2 blank p ;;
  Ok (mkLayer amp phase (PFlt pitch) (PFlt height) (sx, sy) (PFlt rot) (PFlt mag) (PFlt (ofz 0))).

(* specula/data_objects/pupilstop.py:17-60: a layer at height 0.  The mask diameters only serve
   to draw the mask (make_mask) and are not modelled *)
(* pupilstop.py:78-100 *)
Definition save_pupilstop (fs : files) (name : string) (o : layer) (overwrite : bool) : res files :=
  write fs name overwrite
    (hputs [("VERSION", hint 1); ("OBJ_TYPE", HStr "Pupilstop"); ("PIXPUPIL", hnat (a_r (la_amp o)));
            ("PIXPITCH", HNum (la_pitch o)); ("SHIFTX", hflt (fst (la_shift o)));
            ("SHIFTY", hflt (snd (la_shift o))); ("ROTATION", HNum (la_rot o)); ("MAGNIFIC", HNum (la_mag o))])
    [BNone; BMat (la_amp o)].
(* pupilstop.py:136-149 restore_from_passata *)
Definition restore_passata (f : fits) : res layer :=
  if Nat.eqb (length (f_blocks f)) 4 then
    p <- data_vec f 3 ;; pitch <- take1 p 0 ;;
    a <- data_mat f 1 ;;
    let n := a_r a in
    amp <- fill2 (const2 n n (ofz 0)) a ;;
    Ok (mkLayer amp (const2 n n (ofz 0)) (PFlt pitch) (PInt 0) (ofz 0, ofz 0) (PFlt (ofz 0)) (PFlt (ofz 1)) (PFlt (ofz 0)))
  else Err ValueError.
(* pupilstop.py:102-134 *)
Definition restore_pupilstop (fs : files) (name : string) : res layer :=
  f <- open fs name ;;
  let h := f_hdr f in
  if negb (obj_type_is h "Pupilstop") then restore_passata f else
  v <- hget_int h "VERSION" ;;
  if negb (Z.eqb v 1) then Err ValueError else
  n <- hget_int h "PIXPUPIL" ;;
  pitch <- hget_float h "PIXPITCH" ;;
  sx <- hget_float h "SHIFTX" ;; sy <- hget_float h "SHIFTY" ;;
  rot <- hget_float h "ROTATION" ;; mag <- hget_float h "MAGNIFIC" ;;
  let blank := const2 (Z.to_nat n) (Z.to_nat n) (ofz 0) in
  a <- data_mat f 1 ;; amp <- fill2 blank a ;;
  Ok (mkLayer amp blank (PFlt pitch) (PInt 0) (sx, sy) (PFlt rot) (PFlt mag) (PFlt (ofz 0))).

(* ---- Slopes ---- *)

Definition tag_or_empty (t : option string) : string := match t with Some s => s | None => "" end.
(* specula/data_objects/slopes.py:219-250 *)
Definition save_slopes (fs : files) (name : string) (s : slopes A) (overwrite : bool) : res files :=
  write fs name overwrite
    (hputs [("VERSION", hint 3); ("OBJ_TYPE", HStr "Slopes"); ("INTRLVD", hint (if sl_inter s then 1 else 0));
            ("LENGTH", hnat (length (sl_val s))); ("PUPDTAG", HStr (tag_or_empty (sl_pup s))); ("SUBAPTAG", HStr (tag_or_empty (sl_sub s)))])
    [BNone; BVec (sl_val s)].
Definition hget_tag (h : header) (k : string) : res (option string) :=
  match dget k h with None => Ok None | Some (HStr s) => Ok (Some s) | _ => Err TypeError end.
(* slopes.py:252-266 *)
Definition slopes_of_header (h : header) : res (slopes A) :=
  v <- hget_int h "VERSION" ;;
  if negb ((1 <=? v) && (v <=? 3))%Z then Err ValueError else
  i <- hget_int h "INTRLVD" ;;
  let inter := negb (Z.eqb i 0) in
  s <- (if Z.eqb v 3 then n <- hget_int h "LENGTH" ;; Ok (new_slopes_len A (Z.to_nat n) inter) else Ok (new_slopes_len A 1 inter)) ;;
  if (2 <=? v)%Z then
    p <- hget_tag h "PUPDTAG" ;; q <- hget_tag h "SUBAPTAG" ;;
    Ok (mkSlopes (sl_val s) (sl_inter s) (sl_ix s) (sl_iy s) (sl_mask s) (sl_map s) p q)
  else Ok s.
(* slopes.py:268-278 *)
Definition restore_slopes (fs : files) (name : string) : res (slopes A) :=
  f <- open fs name ;;
  s <- slopes_of_header (f_hdr f) ;;
  v <- data_vec f 1 ;;
  n <- hget_int (f_hdr f) "VERSION" ;;
  if (3 <=? n)%Z then set_value A s v else Ok (with_val A (resize A s (length v)) v).

(* ---- values, time histories, filters, sources ---- *)

(* specula/base_value.py:7-26: no value, a scalar or an array *)
Inductive bval := VNone | VScalar (x : V) | VArr (b : block).
(* base_value.py:43-55 *)
Definition save_bval (fs : files) (name : string) (v : bval) (overwrite : bool) : res files :=
  match v with
  | VArr b => write fs name overwrite (hputs [("VERSION", hint 1); ("OBJ_TYPE", HStr "BaseValue"); ("NDARRAY", hint 1)]) [b]
  | VNone => write fs name overwrite (hputs [("VERSION", hint 1); ("OBJ_TYPE", HStr "BaseValue"); ("NDARRAY", hint 0)]) [BVec [ofz 0; ofz 0]]
  | VScalar x => write fs name overwrite
      (hputs [("VERSION", hint 1); ("OBJ_TYPE", HStr "BaseValue"); ("NDARRAY", hint 0); ("VALUE", HText x)]) [BVec [ofz 0; ofz 0]]
  end.
(* base_value.py:57-70; the text of a number is evaluated as an expression: the texts nan and
   inf are undefined names (NameError, here UnboundLocalError) *)
Definition restore_bval (fs : files) (name : string) : res bval :=
  f <- open fs name ;;
  n <- hget_int (f_hdr f) "NDARRAY" ;;
  b <- data f 0 ;;
  if negb (Z.eqb n 0) then Ok (VArr b) else
  match dget "VALUE" (f_hdr f) with
  | None => Ok VNone
  | Some (HText x) => if finite x then Ok (VScalar x) else Err UnboundLocalError
  | Some _ => Err TypeError
  end.

(* specula/data_objects/time_history.py:33-49: no overwriting *)
Definition save_history (fs : files) (name : string) (b : block) : res files :=
  write fs name false (hputs [("VERSION", hint 1); ("OBJ_TYPE", HStr "TimeHistory")]) [b].
Definition restore_history (fs : files) (name : string) : res block :=
  f <- open fs name ;;
  if negb (version_is (f_hdr f) 1) then Err ValueError else data f 0.

(* specula/data_objects/iir_filter_data.py:744-773 *)
Record iir := mkIIR { ir_on : list Z; ir_od : list Z; ir_num : arr2 V; ir_den : arr2 V }.
Definition save_iir (fs : files) (name : string) (o : iir) : res files :=
  write fs name true (hputs [("VERSION", hint 1)]) [BNone; BZVec (ir_on o); BZVec (ir_od o); BMat (ir_num o); BMat (ir_den o)].
Definition restore_iir (fs : files) (name : string) : res iir :=
  f <- open fs name ;;
  v <- hget_int (f_hdr f) "VERSION" ;;
  if negb (Z.eqb v 1) then Err ValueError else
  a <- data_zvec f 1 ;; b <- data_zvec f 2 ;; n <- data_mat f 3 ;; d <- data_mat f 4 ;; Ok (mkIIR a b n d).

(* specula/data_objects/source.py:17-71; the coordinates in use are the given ones plus the error *)
Record source := mkSrc { so_coord : pnum * pnum; so_err : pnum * pnum; so_mag : pnum; so_wl : pnum; so_height : pnum;
  so_band : string; so_zero : pnum }.
Definition so_used (o : source) : V * V :=
  (add (to_float (fst (so_coord o))) (to_float (fst (so_err o))), add (to_float (snd (so_coord o))) (to_float (snd (so_err o)))).
(* source.py:73-84, 168-170 *)
Definition save_source (fs : files) (name : string) (o : source) (overwrite : bool) : res files :=
  write fs name overwrite
    (hputs [("VERSION", hint 1); ("PCOORD0", HNum (fst (so_coord o))); ("PCOORD1", HNum (snd (so_coord o)));
            ("MAGNITUD", HNum (so_mag o)); ("WAVELENG", HNum (so_wl o)); ("HEIGHT", HNum (so_height o)); ("BAND", HStr (so_band o));
            ("ZEROPNT", HNum (so_zero o)); ("ERR_CRD0", HNum (fst (so_err o))); ("ERR_CRD1", HNum (snd (so_err o)))])
    [BVec [ofz 0; ofz 0]].
(* source.py:172-190 *)
Definition restore_source (fs : files) (name : string) : res source :=
  f <- open fs name ;;
  let h := f_hdr f in
  v <- hget_int h "VERSION" ;;
  if negb (Z.eqb v 1) then Err ValueError else
  c0 <- hget_num h "PCOORD0" ;; c1 <- hget_num h "PCOORD1" ;; m <- hget_num h "MAGNITUD" ;; w <- hget_num h "WAVELENG" ;;
  ht <- hget_num h "HEIGHT" ;;
  b <- match dget "BAND" h with Some (HStr s) => Ok s | Some _ => Err TypeError | None => Err KeyError end ;;
  z <- hget_num h "ZEROPNT" ;; e0 <- hget_num h "ERR_CRD0" ;; e1 <- hget_num h "ERR_CRD1" ;;
  Ok (mkSrc (c0, c1) (e0, e1) m w ht b z).
End Fits.
Arguments mkA2 {X}. Arguments a_c {X}. Arguments a_rows {X}.
