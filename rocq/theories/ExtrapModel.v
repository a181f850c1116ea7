(* Resampling of electric fields, with extrapolation of the phase beyond the edge of the pupil. *)
From Coq Require Import List ZArith Bool Arith QArith Qcanon.
From Verif Require Import PyBase Arith OpticalModel ExtModel NpModel FitsModel RebinModel SlopecModel FieldModel InterpModel.
Import ListNotations.

(* specula/lib/extrapolation_2d.py:27, 76-82: a pixel of the image, not below the threshold *)
Definition lit (thr : Qc) (a : arr2 Qc) (y x : Z) : bool :=
  (0 <=? y)%Z && (y <? Z.of_nat (a_r a))%Z && (0 <=? x)%Z && (x <? Z.of_nat (a_c a))%Z
  && negb (qlt (ent qc a (Z.to_nat y) (Z.to_nat x)) thr).
(* extrapolation_2d.py:58-63 *)
Definition directions : list (Z * Z) := [(1, 0); (-1, 0); (0, 1); (0, -1)]%Z.
(* extrapolation_2d.py:30-31: scipy's binary_dilation with its default structure (a cross),
   minus the mask; np.where goes row by row *)
Definition is_edge (thr : Qc) (a : arr2 Qc) (y x : Z) : bool :=
  negb (lit thr a y x) && existsb (fun d => lit thr a (y + fst d) (x + snd d)) directions.
Definition edges (thr : Qc) (a : arr2 Qc) : list (nat * nat) :=
  filter (fun p => is_edge thr a (Z.of_nat (fst p)) (Z.of_nat (snd p)))
    (flat_map (fun i => map (fun j => (i, j)) (seq 0 (a_c a))) (seq 0 (a_r a))).

(* A reference (None for -1; linear indices as pairs) and its coefficient (None for NaN).  The
   coefficients are exact, not 32 bit numbers. *)
Definition slot : Type := option (nat * nat) * option Qc.
Definition ref (y x : Z) : option (nat * nat) := Some (Z.to_nat y, Z.to_nat x).
(* extrapolation_2d.py:70-110: one direction; the number of valid directions and the slots so far *)
Definition look (thr : Qc) (a : arr2 Qc) (y x : Z) (st : nat * list (slot * slot)) (d : Z * Z) : nat * list (slot * slot) :=
  let y1 := (y + fst d)%Z in let x1 := (x + snd d)%Z in
  let y2 := (y + 2 * fst d)%Z in let x2 := (x + 2 * snd d)%Z in
  let '(n, s) := st in
  if lit thr a y1 x1 then
    if lit thr a y2 x2 then (S n, s ++ [((ref y1 x1, Some (qz 2)), (ref y2 x2, Some (qz (-1))))])
    else if Nat.eqb n 0 then (S n, s ++ [((ref y1 x1, Some (qz 1)), (None, None))])
    else (n, s ++ [((ref y1 x1, Some (qz 0)), (None, Some (qz 0)))])
  else (n, s ++ [((None, Some (qz 0)), (None, Some (qz 0)))]).
(* extrapolation_2d.py:113-119: NaN is different from zero and stays NaN *)
Definition times (f : Qc) (s : slot) : slot := (fst s, option_map (fun c => (c * f)%Qc) (snd s)).
Definition nonzero (s : slot) : bool := match snd s with Some c => negb (is0 c) | None => true end.
Definition rescale (f : Qc) (p : slot * slot) : slot * slot :=
  if nonzero (fst p) then (times f (fst p), if nonzero (snd p) then times f (snd p) else snd p) else p.
Definition edge_row (thr : Qc) (a : arr2 Qc) (y x : Z) : list (slot * slot) :=
  let '(n, s) := fold_left (look thr a y x) directions (O, []) in
  if Nat.ltb 1 n then map (rescale (1 / qn n)%Qc) s else s.
(* extrapolation_2d.py:11-125.  The arrays of fixed size hold the edge pixels first; the rest
   (-1) is never used: all edge pixels have a number in their first coefficient. *)
Definition edge_table (thr : Qc) (a : arr2 Qc) : list ((nat * nat) * list (slot * slot)) :=
  map (fun p => (p, edge_row thr a (Z.of_nat (fst p)) (Z.of_nat (snd p)))) (edges thr a).

(* extrapolation_2d.py:163-176: coefficients without a reference count as zero (a reference
   never has NaN) *)
Definition worth (data : arr2 Qc) (s : slot) : Qc :=
  match s with (Some p, Some c) => (c * ent qc data (fst p) (snd p))%Qc | _ => 0%Qc end.
Definition row_value (data : arr2 Qc) (row : list (slot * slot)) : Qc :=
  fold_left (fun acc p => (acc + worth data (fst p) + worth data (snd p))%Qc) row 0%Qc.
Definition at_pos (i j : nat) (q : (nat * nat) * list (slot * slot)) : bool := Nat.eqb (fst (fst q)) i && Nat.eqb (snd (fst q)) j.
(* extrapolation_2d.py:423-434: phase times mask, then the edge pixels of the table *)
Definition extrapolated (thr : Qc) (table : list ((nat * nat) * list (slot * slot))) (amp ph : arr2 Qc) : arr2 Qc :=
  tab qc (a_r ph) (a_c ph) (fun i j =>
    match find (at_pos i j) table with
    | Some q => row_value ph (snd q)
    | None => (ent qc ph i j * if lit thr amp (Z.of_nat i) (Z.of_nat j) then 1 else 0)%Qc
    end).

(* extrapolation_2d.py:404-411: all values within 1/1000 of 0 or 1 *)
Definition close (x y : Qc) : bool := let d := (x - y)%Qc in qlt (if qlt d 0%Qc then (- d)%Qc else d) (Q2Qc (1 # 1000)).
Definition binary (a : arr2 Qc) : bool := forallb (forallb (fun x => close x 0%Qc || close x 1%Qc)) (a_rows a).

(* extrapolation_2d.py:184-344.  An interpolator: threshold, the inner interpolator with its
   parameters (absent when there is nothing to do), the table and the flag of binary amplitudes
   once computed, the output field.  The input field is an argument of the methods: the code
   reads its present content.  The shared cache of output fields is not represented (each
   interpolator owns its output). *)
Record inner := mkInner { in_ip : interp; in_rot : option (Qc * Qc); in_rs : Qc; in_cs : Qc; in_mag : Qc }.
Record efi := mkEFI { fi_thr : Qc; fi_inner : option inner; fi_table : option (list ((nat * nat) * list (slot * slot)) * bool); fi_out : efield qc }.
(* the angle is given by cosine and sine; None is an angle of zero *)
Definition negated (rot : option (Qc * Qc)) : option (Qc * Qc) := option_map (fun p => (fst p, - snd p)%Qc) rot.
Definition tiny : Qc := Q2Qc (1 # 1000000).
(* extrapolation_2d.py:325-334: the x shift is given as shift of the rows *)
Definition new_inner (inr inc outr outc : nat) (rot : option (Qc * Qc)) (x y mag : Qc) : res inner :=
  ip <- interp_init inr inc outr outc (negated rot) x y mag None None ;;
  Ok (mkInner ip (negated rot) x y mag).
(* extrapolation_2d.py:215-344 *)
Definition efi_init (e : efield qc) (outr outc : nat) (rot : option (Qc * Qc)) (x y mag thr : Qc) (force : bool) : res efi :=
  let inr := ef_rows qc e in let inc := ef_cols qc e in
  if Nat.eqb inr 0 || Nat.eqb inc 0 then Err ZeroDivisionError else
  if negb (Nat.eqb (outr * inc) (outc * inr)) then Err ValueError else
  if qlt mag tiny then Err ValueError else
  if Nat.eqb inr outr && Nat.eqb inc outc && is_none rot && is0 x && is0 y && is1 mag && negb force then
    Ok (mkEFI thr None None e)
  else if Nat.eqb outr 0 then Err ZeroDivisionError else
    o <- new_ef qc (Z.of_nat outr) (Z.of_nat outc) (ef_pitch qc e / (qn outr / qn inr))%Qc 0%Qc ;;
    k <- new_inner inr inc outr outc rot x y mag ;;
    Ok (mkEFI thr (Some k) None o).
(* extrapolation_2d.py:346-372.  The angle is recovered from the inner interpolator, which
   knows the shift of the columns as shift_x and that of the rows as shift_y.  A new angle is
   given as Some rot.  Comparing None with a number is a TypeError. *)
Definition efi_update (st : efi) (e : efield qc) (x y : option Qc) (rot : option (option (Qc * Qc))) (mag : option Qc) : res efi :=
  match mag with
  | None => Err TypeError
  | Some m =>
    if qlt m tiny then Err ValueError else
    match fi_inner st with
    | None => Err AttributeError
    | Some k =>
      let nx := match x with Some v => v | None => in_cs k end in
      let ny := match y with Some v => v | None => in_rs k end in
      let nr := match rot with Some r => r | None => negated (in_rot k) end in
      k' <- new_inner (ef_rows qc e) (ef_cols qc e) (ef_rows qc (fi_out st)) (ef_cols qc (fi_out st)) nr nx ny m ;;
      Ok (mkEFI (fi_thr st) (Some k') (fi_table st) (fi_out st))
    end
  end.
(* extrapolation_2d.py:380-462 *)
Definition half : Qc := Q2Qc (1 # 2).
Definition efi_interpolate (st : efi) (e : efield qc) : res efi :=
  match fi_inner st with
  | None => Ok st
  | Some k =>
    let tb := match fi_table st with Some t => t | None => (edge_table (fi_thr st) (ef_A qc e), binary (ef_A qc e)) end in
    a <- interpolate (in_ip k) (ef_A qc e) ;;
    a' <- assign2 qc (ef_A qc (fi_out st)) a ;;
    let a'' := if snd tb then each qc (fun v => if qlt half v then 1%Qc else 0%Qc) a' else a' in
    p <- interpolate (in_ip k) (extrapolated (fi_thr st) (fst tb) (ef_A qc e) (ef_ph qc e)) ;;
    p' <- assign2 qc (ef_ph qc (fi_out st)) p ;;
    Ok (mkEFI (fi_thr st) (Some k) (Some tb) (mkEF qc a'' p' (ef_pitch qc (fi_out st)) (ef_S0 qc e)))
  end.
(* extrapolation_2d.py:374-378: without anything to do the input field itself *)
Definition efi_out (st : efi) (e : efield qc) : efield qc := match fi_inner st with None => e | Some _ => fi_out st end.
(* a new interpolator used once *)
Definition resample_ef (e : efield qc) (outr outc : nat) (rot : option (Qc * Qc)) (x y mag thr : Qc) (force : bool) : res (efield qc) :=
  st <- efi_init e outr outc rot x y mag thr force ;; st' <- efi_interpolate st e ;; Ok (efi_out st' e).
