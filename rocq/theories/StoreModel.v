(* Model of data storage, buffering and replay.

   Modelled code:
   - specula/processing_objects/data_store.py:62-103, 118-121, 127-131, 166-171 (options,
     downsampling, storage, times and data of the saved files)
   - specula/processing_objects/data_store.py:193-261 (create_TN_folder, trigger_code, save,
     finalize)
   - specula/processing_objects/data_buffer.py:14-85
   - specula/processing_objects/data_source.py:20-93

   Simplifications.
   - A value is an element of an arbitrary type; conversion to the floating point type of the
     store is a function [cast].  Headers, params.yml and replay_params.yml are not modelled.
   - All values of one input have the same shape (np.array would fail otherwise).
   - The save functions write one file for each stored key; the keys missing in the inputs,
     which they skip, do not occur.
   - Files are not read back from disk: a saved file is the list of its times and values. *)
From Coq Require Import String List ZArith Bool DecimalString.
From Verif Require Import PyBase.
Import ListNotations.
Local Open Scope Z_scope.

(* Ordered dictionaries whose keys are times *)
Fixpoint tset {V} (t : Z) (v : V) (d : list (Z * V)) : list (Z * V) :=
  match d with
  | [] => [(t, v)]
  | (t', v') :: r => if t =? t' then (t, v) :: r else (t', v') :: tset t v r
  end.
Fixpoint tget {V} (t : Z) (d : list (Z * V)) : option V :=
  match d with
  | [] => None
  | (t', v) :: r => if t =? t' then Some v else tget t r
  end.

(* Value of a defaultdict *)
Definition ddef {A} (x : A) (k : string) (d : dict A) : A :=
  match dget k d with Some v => v | None => x end.

(* -------------------------------------------------------- floating point time stamps *)

(* conversion of an integer to a binary floating point number with [p] significant bits,
   round to nearest, ties to even (the exponent range is not an issue for times) *)
Definition to_float (p : Z) (t : Z) : Z :=
  let e := Z.log2 (Z.abs t) + 1 - p in
  if e <=? 0 then t
  else let u := 2 ^ e in
       let q := Z.abs t / u in
       let r := Z.abs t mod u in
       let q' := if 2 * r <? u then q
                 else if u <? 2 * r then q + 1
                 else if Z.even q then q else q + 1 in
       Z.sgn t * (q' * u).

Inductive format := Fits | Pickle.

(* data_store.py:119 (pickle: dtype of the store) and 167 (fits: uint64) *)
Definition saved_time (f : format) (single : bool) (t : Z) : Z :=
  match f with
  | Fits => t mod 2 ^ 64
  | Pickle => to_float (if single then 24 else 53) t
  end.

Section Store.
Variable V : Type.
Variable cast : V -> V.              (* conversion to the dtype of the store *)

(* An input of the store: absent, or the value and generation time of its data object *)
Definition item := option (V * Z).
Definition sview := dict item.

Definition series := list (Z * V).
Definition storage := dict series.

(* ---------------------------------------------------------------------- DataStore *)
Record dcfg := mkDcfg {
  d_split : Z; d_first : Z; d_start : Z;
  d_factor : Z; d_by_input : dict Z
}.

(* data_store.py:73-84, 96-101 *)
Definition store_init (split first start factor : Z) (by_input : option (dict Z)) : res dcfg :=
  if factor <? 1 then Err ValueError
  else match by_input with
       | None => Ok (mkDcfg split first start factor [])
       | Some d => if negb (factor =? 1) then Err ValueError
                   else if existsb (fun kv => snd kv <? 1) d then Err ValueError
                   else Ok (mkDcfg split first start factor d)
       end.

(* data_store.py:104, 109 *)
Definition every (c : dcfg) (k : string) : Z :=
  match dget k (d_by_input c) with Some n => n | None => d_factor c end.

Record dst := mkDst {
  d_store : storage;
  d_cnt : dict Z;                       (* input_sample_counters *)
  d_iter : Z;                           (* iter_counter *)
  d_saved : list (string * storage)     (* suffix of the folder and contents of each save *)
}.
Definition dst0 : dst := mkDst [] [] 0 [].

(* data_store.py:215-221 for one input *)
Definition store_one (c : dcfg) (t : Z) (s : dst) (ki : string * item) : dst :=
  match snd ki with
  | Some (v, g) =>
      if g =? t then
        let k := fst ki in
        let idx := ddef 0 k (d_cnt s) in
        let cnt := dset k (idx + 1) (d_cnt s) in
        if idx mod every c k =? 0
        then mkDst (dset k (tset t v (ddef [] k (d_store s))) (d_store s)) cnt (d_iter s) (d_saved s)
        else mkDst (d_store s) cnt (d_iter s) (d_saved s)
      else s
  | None => s
  end.

(* str() of an integer *)
Definition str_int (z : Z) : string := NilZero.string_of_int (Z.to_int z).

(* data_store.py:211-234 *)
Definition store_trigger (c : dcfg) (s : dst) (e : Z * sview) : dst :=
  if fst e <? d_start c then s
  else
    let s1 := fold_left (store_one c (fst e)) (snd e) s in
    let it := d_iter s1 + 1 in
    if (0 <? d_split c) && (it mod d_split c =? 0)
    then mkDst [] (d_cnt s1) it
               (d_saved s1 ++ [(("_" ++ str_int (it - d_split c + d_first c))%string, d_store s1)])
    else mkDst (d_store s1) (d_cnt s1) it (d_saved s1).

(* data_store.py:244-261: [e] holds the current time and the inputs at that moment *)
Definition store_finalize (c : dcfg) (s : dst) (e : Z * sview) : dst :=
  let s1 := store_trigger c s e in
  if d_split c =? 0
  then mkDst (d_store s1) (d_cnt s1) (d_iter s1) (d_saved s1 ++ [(EmptyString, d_store s1)])
  else s1.

(* a run: the triggers of the loop, then finalize *)
Definition store_run (c : dcfg) (es : list (Z * sview)) (ef : Z * sview) : dst :=
  store_finalize c (fold_left (store_trigger c) es dst0) ef.

(* data_store.py:118-121, 166-169: the contents of one file *)
Definition file_of (f : format) (single : bool) (x : series) : series :=
  map (fun tv => (saved_time f single (fst tv), cast (snd tv))) x.
Definition save_files (f : format) (single : bool) (s : storage) : storage :=
  map (fun kx => (fst kx, file_of f single (snd kx))) s.

(* ---------------------------------------------------------------------- DataSource *)

(* data_source.py:64, 73: dictionary {time: value}, later entries replace earlier ones *)
Definition load (x : series) : series := fold_left (fun d tv => tset (fst tv) (snd tv) d) x [].

(* value and generation time of each output *)
Definition sout := dict (option V * Z).

(* data_source.py:34-38, 55-73: the files of the listed outputs are loaded *)
Definition source_load (files : storage) (outputs : list string) : res storage :=
  fold_res (fun st k =>
    match dget k files with
    | Some x => Ok (dset k (load x) st)
    | None => Err RuntimeError                   (* FileNotFoundError *)
    end) [] outputs.
Definition source_init (st : storage) : sout := map (fun kx => (fst kx, (None, -1))) st.

(* data_source.py:82-93 *)
Definition source_trigger (st : storage) (o : sout) (t : Z) : sout :=
  map (fun kx => match dget (fst kx) st with
                 | Some x => match tget t x with
                             | Some v => (fst kx, (Some v, t))
                             | None => kx
                             end
                 | None => kx
                 end) o.

(* ---------------------------------------------------------------------- DataBuffer *)
Record bst := mkBst {
  b_store : dict (list V);           (* storage: values in order of arrival *)
  b_step : Z;                        (* step_counter *)
  b_out : dict (list V * Z)          (* emitted arrays with their generation times *)
}.

(* data_buffer.py:29-37 *)
Definition buffer_init (names : list string) : bst :=
  mkBst [] 0 (map (fun k => (k, ([], -1))) names).

(* data_buffer.py:52-63; [b_out] is indexed by the name of the input *)
Definition emit (t : Z) (s : bst) : dict (list V * Z) :=
  fold_left (fun o kx =>
    match snd kx with
    | [] => o
    | _ => if dmem (fst kx) o then dset (fst kx) (snd kx, t) o else o
    end) (b_store s) (b_out s).

(* data_buffer.py:39-50, 72-78 *)
Definition buffer_trigger (size : Z) (s : bst) (e : Z * sview) : bst :=
  let st := fold_left (fun st (ki : string * item) =>
              match snd ki with
              | Some (v, g) => if g =? fst e then dset (fst ki) (ddef [] (fst ki) st ++ [v]) st else st
              | None => st
              end) (snd e) (b_store s) in
  let n := b_step s + 1 in
  if size <=? n then mkBst [] 0 (emit (fst e) (mkBst st n (b_out s)))
  else mkBst st n (b_out s).

(* data_buffer.py:80-85; [t] is the current time *)
Definition buffer_finalize (s : bst) (t : Z) : bst :=
  if 0 <? b_step s then mkBst [] 0 (emit t s) else s.

End Store.

(* ------------------------------------------------------------------- result folders *)

(* data_store.py:193-208: [today] is the time stamp, [exists_] tells which paths exist.
   [None]: still searching after [fuel] attempts. *)
Section Folder.
Variable exists_ : string -> bool.
Local Open Scope string_scope.

Definition base_path (dir today suffix : string) : string := dir ++ "/" ++ today ++ suffix.
Definition candidate (base : string) (i : option nat) : string :=
  match i with
  | None => base
  | Some n => base ++ "." ++ NilZero.string_of_uint (Nat.to_uint n)
  end.
Fixpoint create_TN_folder (fuel : nat) (base : string) (i : option nat) : option string :=
  match fuel with
  | O => None
  | S fuel =>
      if exists_ (candidate base i)
      then create_TN_folder fuel base (Some match i with None => O | Some n => S n end)
      else Some (candidate base i)
  end.
End Folder.
