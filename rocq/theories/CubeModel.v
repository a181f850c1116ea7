(* Arrays that evolve in time, and phase screens given as a cube. *)
From Coq Require Import String List ZArith Bool Arith QArith Qcanon Ascii.
From Verif Require Import PyBase Arith OpticalModel ExtModel NpModel FitsModel RebinModel SlopecModel GenModel FieldModel InterpModel ExtrapModel.
Import ListNotations.
Local Open Scope nat_scope.

(* ------------------------------------------------------------------- SpatioTempArray *)
Section Sta.
Variable V : Type.
Variable d : V.
(* an array of any number of dimensions: shape and values in row order *)
Record nd := mkND { nd_shape : list nat; nd_data : list V }.
Definition size_of (s : list nat) : nat := fold_right Nat.mul 1 s.
(* numpy.moveaxis(a, -1, 0), made contiguous *)
Definition last_to_first (a : nd) : nd :=
  let T := last (nd_shape a) 0 in let s := removelast (nd_shape a) in let K := size_of s in
  mkND (T :: s) (map (fun q => nth (q mod K * T + q / K) (nd_data a) d) (seq 0 (T * K))).

(* specula/data_objects/spatio_temp_array.py:16-67.  The time vector is one-dimensional. *)
Record sta := mkSTA { sa_array : nd; sa_time : list V }.
Definition sta_init (a : nd) (times : list V) (axis : Z) : res sta :=
  if negb ((axis =? 0) || (axis =? -1))%Z then Err ValueError
  else match nd_shape a with
       | [] => Err ValueError
       | n0 :: _ =>
           let n := if (axis =? 0)%Z then n0 else last (nd_shape a) 0 in
           if negb (Nat.eqb n (length times)) then Err ValueError
           else if (axis =? -1)%Z && Nat.ltb 1 (length (nd_shape a)) then Ok (mkSTA (last_to_first a) times)
           else Ok (mkSTA a times)
       end.
Fixpoint same_shape (a b : list nat) : bool :=
  match a, b with [], [] => true | x :: a', y :: b' => Nat.eqb x y && same_shape a' b' | _, _ => false end.
(* spatio_temp_array.py:73-90 set_value *)
Definition sta_set (o : sta) (v : nd) : res sta :=
  let s := nd_shape (sa_array o) in
  if same_shape (nd_shape v) s then Ok (mkSTA v (sa_time o))
  else if Nat.eqb (length (nd_shape v)) (length s) && Nat.ltb 1 (length (nd_shape v)) && Nat.eqb (last (nd_shape v) 0) (hd 0 s)
          && same_shape (nd_shape (last_to_first v)) s then Ok (mkSTA (last_to_first v) (sa_time o))
  else Err ValueError.
(* spatio_temp_array.py:96-98 set_time_vector: assignment in place, one value is repeated *)
Definition sta_set_time (o : sta) (t : list V) : res sta :=
  if Nat.eqb (length t) (length (sa_time o)) then Ok (mkSTA (sa_array o) t)
  else match t with [x] => Ok (mkSTA (sa_array o) (repeat x (length (sa_time o)))) | _ => Err ValueError end.
(* spatio_temp_array.py:100-149 save, restore: the file holds a version, the array in its
   internal layout and the times; types of numbers are not represented *)
Record sta_file := mkSF { sf_version : Z; sf_array : nd; sf_time : list V }.
Definition sta_save (o : sta) : sta_file := mkSF 1 (sa_array o) (sa_time o).
Definition sta_restore (f : sta_file) : res sta :=
  if (sf_version f =? 1)%Z then sta_init (sf_array f) (sf_time f) 0 else Err ValueError.
End Sta.
Arguments mkND {V}. Arguments nd_shape {V}. Arguments nd_data {V}. Arguments mkSTA {V}. Arguments sa_array {V}. Arguments sa_time {V}.

(* ------------------------------------------------------------------- PhaseScreenCube *)
(* array[i, :, :] of an array of three dimensions *)
Definition slice_at (a : nd Qc) (r c i : nat) : arr2 Qc := tab qc r c (fun y x => nth ((i * r + y) * c + x) (nd_data a) 0%Qc).
Definition slices (a : nd Qc) : res (list (arr2 Qc)) :=
  match nd_shape a with [t; r; c] => Ok (map (slice_at a r c) (seq 0 t)) | _ => Err IndexError end.

(* str.replace(old, new), all occurrences from left to right; old is not empty *)
Fixpoint str_replace (fuel : nat) (old new s : string) : string :=
  match fuel with
  | O => s
  | S f => match s with
           | EmptyString => EmptyString
           | String ch r =>
               if String.prefix old s then (new ++ str_replace f old new (substring (String.length old) (String.length s - String.length old) s))%string
               else String ch (str_replace f old new r)
           end
  end.

(* specula/processing_objects/phase_screen_cube.py:18-106.  The configuration: pupil size and
   pitch, the screens and their times (s), their pitch, the factor. *)
Record psc := mkPSC { pc_pupil : nat; pc_pitch : Qc; pc_screens : list (arr2 Qc); pc_times : list Qc; pc_scale : Qc; pc_factor : Qc }.
(* A layer output and the field output that shares its arrays: names, phase (None when it is
   not made of numbers), amplitude, generation times, flux of the field. *)
Record pair_out := mkPair { po_layer : string; po_ef : string; po_ph : option (arr2 Qc); po_amp : arr2 Qc; po_tl : Z; po_te : Z; po_S0 : Qc }.
(* phase_screen_cube.py:73-91; no sources stand for one nameless output.  The names of a
   dictionary are different. *)
Definition out_names (sources : list (string * Qc)) : list (string * string * Qc) :=
  match sources with
  | [] => [("out_layer", "out_ef", 0%Qc)]%string
  | _ => map (fun s => ("out_" ++ fst s ++ "_layer", "out_" ++ fst s ++ "_ef", snd s))%string sources
  end.
Definition psc_outputs (n : nat) (sources : list (string * Qc)) : list pair_out :=
  map (fun s => mkPair (fst (fst s)) (snd (fst s)) (Some (tab qc n n (fun _ _ => 0%Qc))) (tab qc n n (fun _ _ => 1%Qc)) (-1) (-1) (snd s)) (out_names sources).
Definition dim1 (p : psc) : nat := match pc_screens p with s :: _ => a_r s | [] => 0 end.
Definition bin_fact (p : psc) : Qc := (qn (dim1 p) / qn (pc_pupil p) * pc_scale p / pc_pitch p)%Qc.
Definition seconds (t : Z) : Qc := (qz t / qz 1000000000)%Qc.
Definition qle (a b : Qc) : bool := negb (qlt b a).
(* phase_screen_cube.py:108-124: the screen at a time (ns); a difference of times of zero gives
   no numbers.  Index -1 is the last. *)
Definition cur_screen (p : psc) (t : Z) : res (option (arr2 Qc)) :=
  let tau := pc_times p in
  match tau with
  | [] => Err ValueError
  | t0 :: _ =>
      if forallb (fun u => qlt u (seconds t)) tau then Err ValueError else
      let dt := map (fun u => u - seconds t)%Qc tau in
      let f := Z.min (Z.of_nat (searchsorted_right qle dt 0%Qc)) (zlen tau - 1) in
      let l := (f - 1)%Z in
      tf <- take1 tau f ;; tl <- take1 tau l ;; df <- take1 dt f ;; dl <- take1 dt l ;;
      sl <- take1 (pc_screens p) l ;; sf <- take1 (pc_screens p) f ;;
      let step := (tf - tl)%Qc in
      let adl := if qlt dl 0%Qc then (- dl)%Qc else dl in
      if is0 step then Ok None else
      Ok (Some (tab qc (a_r sl) (a_c sl) (fun i j => (pc_factor p / step * (df * ent qc sl i j + adl * ent qc sf i j))%Qc)))
  end.
(* phase_screen_cube.py:126-140: a field with amplitude one, resampled to the pupil.  The
   constructor takes the columns first. *)
Definition psc_prepare (p : psc) (t : Z) : res (option (arr2 Qc)) :=
  if Nat.eqb (pc_pupil p) 0 || is0 (pc_pitch p) then Err ZeroDivisionError else
  s <- cur_screen p t ;;
  match s with
  | None => Ok None
  | Some s =>
      e <- new_ef qc (Z.of_nat (a_r s)) (Z.of_nat (a_c s)) (pc_scale p) 0%Qc ;;
      ph <- assign2 qc (ef_ph qc e) s ;;
      o <- resample_ef (mkEF qc (ef_A qc e) ph (ef_pitch qc e) (ef_S0 qc e)) (pc_pupil p) (pc_pupil p) None 0%Qc 0%Qc (bin_fact p) (Q2Qc (1 # 1000)) false ;;
      Ok (Some (ef_ph qc o))
  end.
(* phase_screen_cube.py:152-163.  The field output is found by its name. *)
Definition stamp_ef (name : string) (t : Z) (l : list pair_out) : res (list pair_out) :=
  if existsb (fun o => String.eqb (po_ef o) name) l
  then Ok (map (fun o => if String.eqb (po_ef o) name then mkPair (po_layer o) (po_ef o) (po_ph o) (po_amp o) (po_tl o) t (po_S0 o) else o) l)
  else Err KeyError.
Definition show (ph : option (arr2 Qc)) (amp : arr2 Qc) (t : Z) (o : pair_out) : res pair_out :=
  p <- match ph, po_ph o with
       | Some a, Some b => x <- assign2 qc b a ;; Ok (Some x)
       | Some a, None => x <- assign2 qc (po_amp o) a ;; Ok (Some x)
       | None, _ => Ok None
       end ;;
  a <- assign2 qc (po_amp o) amp ;;
  Ok (mkPair (po_layer o) (po_ef o) p a t (po_te o) (po_S0 o)).
Definition at_layer (name : string) (f : pair_out -> res pair_out) (l : list pair_out) : res (list pair_out) :=
  map_res (fun o => if String.eqb (po_layer o) name then f o else Ok o) l.
Definition psc_code (ph : option (arr2 Qc)) (amp : arr2 Qc) (t : Z) (outs : list pair_out) : res (list pair_out) :=
  fold_res (fun l name => l' <- at_layer name (show ph amp t) l ;; stamp_ef (str_replace (String.length name) "_layer" "_ef" name) t l')
    outs (map po_layer outs).
Definition psc_trigger (p : psc) (t : Z) (pupilstop : option (arr2 Qc)) (outs : list pair_out) : res (list pair_out) :=
  ph <- psc_prepare p t ;;
  match pupilstop with None => Err AttributeError | Some a => psc_code ph a t outs end.
