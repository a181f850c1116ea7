(* Calibration of interaction matrices.

   Modelled code: specula/processing_objects/im_calibrator.py (trigger_code, finalize),
   multi_im_calibrator.py (trigger_code, finalize) and Intmat.build_from_slopes
   (data_objects/intmat.py).  A matrix is the list of its columns, one per mode.
   [nz] is the test of numpy.nonzero and [ofn] the conversion of a count to the number
   type.  Not modelled: tags, files, the per-mode copies of the columns (out_single_im),
   display data. *)
From Coq Require Import List ZArith Bool PeanoNat.
From Verif Require Import PyBase Arith NpModel VecModel.
Import ListNotations.
Local Open Scope ar_scope.

Section Cal.
Context {A : arith} (nz : A -> bool) (ofn : nat -> A).

(* u += v on an existing array u *)
Definition iadd (u v : vec A) : res (vec A) :=
  if Nat.eqb (length u) (length v) then Ok (map2 add u v)
  else match v with [y] => Ok (map (fun x => x + y) u) | _ => Err ValueError end.

(* numpy.nonzero( v )[0] *)
Definition nonzero (v : vec A) : list nat := filter (fun i => nz (nth i v 0)) (seq 0 (length v)).

(* columns and number of contributions of each *)
Record cal := mkCal { cl_cols : list (vec A); cl_counts : list nat }.

(* im_calibrator.py:60-61, 54-55: no slopes yet *)
Definition cal_new (nmodes : nat) : cal := mkCal (repeat [] nmodes) (repeat 0%nat nmodes).

(* intmat.py:101-109 set_nslopes on a matrix with no slopes *)
Definition set_nslopes (n : nat) (c : cal) : cal := mkCal (map (fun _ => zeros n) (cl_cols c)) (cl_counts c).
(* nslopes of a matrix with [nmodes] columns; the number of rows is the same for all *)
Definition nslopes (c : cal) : nat := length (hd [] (cl_cols c)).

(* im.modes[mode] += slopes / amps ; count[mode] += 1 *)
Definition contribute (c : cal) (mode : Z) (slopes amps : vec A) : res cal :=
  col <- take1 (cl_cols c) mode ;;
  d <- bcast dvd slopes amps ;;
  col' <- iadd col d ;;
  cols <- assign_list (cl_cols c) [mode] [col'] ;;
  n <- take1 (cl_counts c) mode ;;
  counts <- assign_list (cl_counts c) [mode] [S n] ;;
  Ok (mkCal cols counts).

(* the loop body shared by the calibrators, im_calibrator.py:178-184,
   multi_im_calibrator.py:125-133 *)
Definition record (nmodes : nat) (first : Z) (c : cal) (slopes cmds : vec A) : res cal :=
  match nonzero cmds with
  | [] => Ok c
  | i :: _ =>
      let mode := (Z.of_nat i - first)%Z in
      if (mode <? Z.of_nat nmodes)%Z
      then contribute c mode slopes (map (fun k => nth k cmds 0) (nonzero cmds))
      else Ok c
  end.

(* one frame: time of the trigger, slopes and their generation time, commands *)
Record frame := mkFrame { fr_t : Z; fr_slopes : vec A; fr_gen : Z; fr_cmds : vec A }.

(* im_calibrator.py:160-184 trigger_code *)
Definition im_trigger (nmodes : nat) (first : Z) (c : cal) (f : frame) : res cal :=
  if (fr_gen f =? fr_t f)%Z then
    let c1 := if Nat.eqb (nslopes c) 0 then set_nslopes (length (fr_slopes f)) c else c in
    record nmodes first c1 (fr_slopes f) (fr_cmds f)
  else Ok c.

(* im_calibrator.py:198-202 finalize: the columns saved *)
Definition normalise (c : cal) : list (vec A) :=
  map (fun p => if Nat.ltb 0 (snd p) then map (fun x => x / ofn (snd p)) (fst p) else fst p) (combine (cl_cols c) (cl_counts c)).

Definition im_calibrate (nmodes : nat) (first : Z) (hist : list frame) : res (list (vec A)) :=
  c <- fold_res (im_trigger nmodes first) (cal_new nmodes) hist ;; Ok (normalise c).

(* intmat.py:250-270 build_from_slopes, for the slopes and the disturbance of each time;
   numpy.where( amp )[0][0] raises IndexError if all the elements are zero *)
Definition build_from_slopes (data : list (vec A * vec A)) : res (list (vec A)) :=
  match data with
  | [] => Err IndexError
  | (s0, a0) :: _ =>
      let nmodes := length a0 in
      c <- fold_res (fun c p =>
             match nonzero (snd p) with
             | [] => Err IndexError
             | i :: _ => contribute c (Z.of_nat i) (fst p) [nth i (snd p) 0]
             end) (set_nslopes (length s0) (cal_new nmodes)) data ;;
      Ok (normalise c)
  end.

(* multi_im_calibrator.py:113-137 trigger_code: the slopes of the sensors and the
   commands, whatever their generation times *)
Definition zip_res (f : cal -> vec A -> res cal) (cs : list cal) (ss : list (vec A)) : res (list cal) :=
  l <- map_res (fun p => f (fst p) (snd p)) (combine cs ss) ;; Ok (l ++ skipn (length ss) cs).
Definition multi_trigger (nmodes : nat) (cs : list cal) (slopes cmds : list (vec A)) : res (list cal) :=
  match cs with
  | [] => Err IndexError
  | c0 :: _ =>
      cs1 <- (if Nat.eqb (nslopes c0) 0 then zip_res (fun c s => Ok (set_nslopes (length s) c)) cs slopes else Ok cs) ;;
      fold_res (fun cs cc => zip_res (fun c s => record nmodes 0 c s cc) cs slopes) cs1 cmds
  end.

(* multi_im_calibrator.py:139-160 finalize: the matrix of each sensor, and all of them
   one above the other *)
Definition multi_calibrate (n_inputs nmodes : nat) (hist : list (list (vec A) * list (vec A))) : res (list (list (vec A)) * list (vec A)) :=
  cs <- fold_res (fun cs f => multi_trigger nmodes cs (fst f) (snd f)) (repeat (cal_new nmodes) n_inputs) hist ;;
  let ims := map normalise cs in
  Ok (ims, map (fun m => concat (map (fun im => nth m im []) ims)) (seq 0 nmodes)).
End Cal.
Arguments cal : clear implicits. Arguments frame : clear implicits.
