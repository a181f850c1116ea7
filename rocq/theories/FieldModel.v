(* Electric fields: the data object and the processing objects that combine, reflect and
   flatten fields, and the geometric propagation through layers seen on axis. *)
From Coq Require Import List ZArith Bool Arith.
From Verif Require Import PyBase Arith NpModel FitsModel RebinModel CutModel VecModel.
Import ListNotations.

Section Field.
Variable A : arith.
(* number of elements as a number; equality of numbers; x > 0 *)
Variable ofn : nat -> A.
Variable same : A -> A -> bool.
Variable lit : A -> bool.
Local Open Scope ar_scope.

(* numpy: a[:] op= b for 2-D arrays.  b is repeated along the dimensions where it has one
   element; a keeps its shape. *)
Definition fits1 (n k : nat) : bool := Nat.eqb k n || Nat.eqb k 1.
Definition src (k i : nat) : nat := if Nat.eqb k 1 then 0%nat else i.
Definition inplace2 (f : A -> A -> A) (a b : arr2 A) : res (arr2 A) :=
  if fits1 (a_r a) (a_r b) && fits1 (a_c a) (a_c b) then
    Ok (tab A (a_r a) (a_c a) (fun i j => f (ent A a i j) (ent A b (src (a_r b) i) (src (a_c b) j))))
  else Err ValueError.
Definition assign2 (a b : arr2 A) : res (arr2 A) := inplace2 (fun _ y => y) a b.
Definition each (f : A -> A) (a : arr2 A) : arr2 A := mkA2 (a_c a) (map (map f) (a_rows a)).
(* a[x1:x2, y1:y2] *)
Definition sub2 (a : arr2 A) (x1 x2 y1 y2 : Z) : res (arr2 A) :=
  r <- sel_rows A a (slice2 x1 x2) ;; sel_cols A r (slice2 y1 y2).

(* specula/data_objects/electric_field.py:14-75: amplitude, phase (nm), pixel pitch, flux
   density.  The two arrays have the same shape. *)
Record efield := mkEF { ef_A : arr2 A; ef_ph : arr2 A; ef_pitch : A; ef_S0 : A }.
Definition shape2 (a : arr2 A) : nat * nat := (a_r a, a_c a).
Definition ef_rows (e : efield) : nat := a_r (ef_A e).
Definition ef_cols (e : efield) : nat := a_c (ef_A e).
(* ones((dimy, dimx)), zeros((dimy, dimx)); negative sizes raise ValueError *)
Definition new_ef (dimx dimy : Z) (pitch S0 : A) : res efield :=
  if (dimx <? 0)%Z || (dimy <? 0)%Z then Err ValueError else
  let r := Z.to_nat dimy in let c := Z.to_nat dimx in
  Ok (mkEF (tab A r c (fun _ _ => 1)) (tab A r c (fun _ _ => 0)) pitch S0).

(* electric_field.py:79-93 set_value: the shapes are compared, nothing is broadcast *)
Definition ef_set (e : efield) (a p : arr2 A) : res efield :=
  if Nat.eqb (a_r a) (ef_rows e) && Nat.eqb (a_c a) (ef_cols e) then
    if Nat.eqb (a_r p) (a_r (ef_ph e)) && Nat.eqb (a_c p) (a_c (ef_ph e)) then Ok (mkEF a p (ef_pitch e) (ef_S0 e))
    else Err AssertionError
  else Err AssertionError.

(* electric_field.py:98-106 reset: multiplication by zero, then addition of one *)
Definition ef_reset (e : efield) : efield :=
  mkEF (each (fun x => x * 0 + 1) (ef_A e)) (each (fun x => x * 0) (ef_ph e)) (ef_pitch e) (ef_S0 e).
(* electric_field.py:108-119 resize *)
Definition ef_resize (e : efield) (dimx dimy : Z) (pitch : option A) : res efield :=
  if (dimx <? 0)%Z || (dimy <? 0)%Z then Err ValueError else
  let z := tab A (Z.to_nat dimy) (Z.to_nat dimx) (fun _ _ => 0) in
  Ok (ef_reset (mkEF z z (match pitch with Some p => p | None => ef_pitch e end) (ef_S0 e))).

(* electric_field.py:125-134 checkOther, for an argument that is an electric field *)
Definition check_other (e e2 : efield) (subrect : option (Z * Z)) : res (Z * Z) :=
  let s := match subrect with Some s => s | None => (0, 0)%Z end in
  if (Z.of_nat (ef_rows e2) =? Z.of_nat (ef_rows e) - fst s)%Z && (Z.of_nat (ef_cols e2) =? Z.of_nat (ef_cols e) - snd s)%Z
  then Ok s else Err ValueError.

(* electric_field.py:187-203 product.  Without a subrect the subscript of None raises
   TypeError. *)
Definition ef_product (e e2 : efield) (subrect : option (Z * Z)) : res efield :=
  match subrect with
  | None => Err TypeError
  | Some (x1, y1) =>
    let x2 := (x1 + Z.of_nat (ef_rows e))%Z in let y2 := (y1 + Z.of_nat (ef_cols e))%Z in
    sa <- sub2 (ef_A e2) x1 x2 y1 y2 ;; a <- inplace2 mul (ef_A e) sa ;;
    sp <- sub2 (ef_ph e2) x1 x2 y1 y2 ;; p <- inplace2 add (ef_ph e) sp ;;
    Ok (mkEF a p (ef_pitch e) (ef_S0 e))
  end.

(* electric_field.py:205-213 area, masked_area *)
Definition ef_area (e : efield) : A := ofn (ef_rows e * ef_cols e) * (ef_pitch e * ef_pitch e).
Definition ef_masked_area (e : efield) : A := (ef_pitch e * ef_pitch e) * total A (ef_A e).

(* electric_field.py:232-263 sub_ef with explicit bounds, and with a list of pixel numbers *)
Definition ef_sub (e : efield) (xfrom xto yfrom yto : Z) : res efield :=
  n <- new_ef (xto - xfrom) (yto - yfrom) (ef_pitch e) 0 ;;
  sa <- sub2 (ef_A e) xfrom xto yfrom yto ;; a <- assign2 (ef_A n) sa ;;
  sp <- sub2 (ef_ph e) xfrom xto yfrom yto ;; p <- assign2 (ef_ph n) sp ;;
  Ok (mkEF a p (ef_pitch n) (ef_S0 e)).
Definition zmin (l : list Z) : res Z := match l with [] => Err ValueError | x :: r => Ok (fold_left Z.min r x) end.
Definition zmax (l : list Z) : res Z := match l with [] => Err ValueError | x :: r => Ok (fold_left Z.max r x) end.
Definition ef_sub_idx (e : efield) (idx : list Z) : res efield :=
  (* unravel_index *)
  rc <- map_res (fun i => if (0 <=? i)%Z && (i <? Z.of_nat (ef_rows e * ef_cols e))%Z
                          then Ok ((i / Z.of_nat (ef_cols e))%Z, (i mod Z.of_nat (ef_cols e))%Z) else Err ValueError) idx ;;
  x1 <- zmin (map fst rc) ;; x2 <- zmax (map fst rc) ;;
  y1 <- zmin (map snd rc) ;; y2 <- zmax (map snd rc) ;;
  ef_sub e x1 x2 y1 y2.

(* electric_field.py:322-341 array_for_display.  where(...)[0] are the row numbers of the
   pixels with light, one per pixel; frame[idx] are whole rows, and the subtraction acts
   once on each row named.  The mean of no rows is not used. *)
Definition lit_rows (a : arr2 A) : list nat :=
  flat_map (fun i => map (fun _ => i) (filter lit (nth i (a_rows a) []))) (seq 0 (a_r a)).
Definition ef_display (e : efield) : arr2 A :=
  let r := ef_rows e in let c := ef_cols e in
  let frame := tab A r c (fun i j => if lit (ent A (ef_A e) i j) then ent A (ef_ph e) i j * 1 else ent A (ef_ph e) i j * 0) in
  let idx := lit_rows (ef_A e) in
  let m := mean A ofn (flat_map (fun i => nth i (a_rows frame) []) idx) in
  tab A r c (fun i j => if existsb (Nat.eqb i) idx then ent A frame i j - m else ent A frame i j).

(* ------------------------------------------------------------------- processing objects *)
(* specula/processing_objects/electric_field_combinator.py:17-30: the output before setup *)
Definition ef_initial : efield := mkEF (tab A 1 1 (fun _ _ => 1)) (tab A 1 1 (fun _ _ => 0)) 1 1.
Definition same_shape2 (a b : efield) : bool := Nat.eqb (ef_rows a) (ef_rows b) && Nat.eqb (ef_cols a) (ef_cols b).
Fixpoint comb_check (e : efield) (l : list efield) : res unit :=
  match l with
  | [] => Ok tt
  | x :: r => if negb (same_shape2 e x) then Err ValueError else
              if negb (same (ef_pitch e) (ef_pitch x)) then Err ValueError else comb_check e r
  end.
(* electric_field_combinator.py:42-83 setup.  [lst] is the input list, [e1], [e2] the two
   single inputs; the inputs of the triggers are those of the list or the pair. *)
Definition comb_inputs (lst : list efield) (e1 e2 : option efield) : res (list efield) :=
  let has_list := negb (Nat.eqb (length lst) 0) in
  match e1, e2 with
  | Some a, Some b => if has_list then Err ValueError else Ok [a; b]
  | _, _ => if has_list then Ok lst else Err ValueError
  end.
Definition comb_setup (lst : list efield) (e1 e2 : option efield) : res efield :=
  ins <- comb_inputs lst e1 e2 ;;
  match ins with
  | [] => Err ValueError
  | f :: r => _ <- comb_check f r ;;
      ef_resize ef_initial (Z.of_nat (ef_rows f)) (Z.of_nat (ef_cols f)) (Some (ef_pitch f))
  end.
(* electric_field_combinator.py:85-105 trigger *)
Definition comb_add (out e : efield) : res efield :=
  p <- inplace2 add (ef_ph out) (ef_ph e) ;; a <- inplace2 mul (ef_A out) (ef_A e) ;;
  Ok (mkEF a p (ef_pitch out) (ef_S0 out + ef_S0 e)).
Definition comb_trigger (out : efield) (ins : list efield) : res efield :=
  match ins with
  | [] => Err IndexError
  | f :: r => p <- assign2 (ef_ph out) (ef_ph f) ;; a <- assign2 (ef_A out) (ef_A f) ;;
      fold_res comb_add (mkEF a p (ef_pitch out) (ef_S0 f)) r
  end.
(* setup, then triggers with the successive values of the inputs *)
Definition combine (lst : list efield) (e1 e2 : option efield) (rounds : list (list efield)) : res efield :=
  out <- comb_setup lst e1 e2 ;; fold_res comb_trigger out rounds.

(* specula/processing_objects/electric_field_reflection.py:28-45 *)
Definition like_setup (e : efield) : res efield :=
  ef_resize ef_initial (Z.of_nat (ef_cols e)) (Z.of_nat (ef_rows e)) (Some (ef_pitch e)).
Definition refl_trigger (out e : efield) : res efield :=
  a <- assign2 (ef_A out) (ef_A e) ;; p <- assign2 (ef_ph out) (each opp (ef_ph e)) ;; Ok (mkEF a p (ef_pitch out) (ef_S0 e)).
Definition reflect (first : efield) (rounds : list efield) : res efield := out <- like_setup first ;; fold_res refl_trigger out rounds.

(* specula/processing_objects/phase_flattening.py:40-76.  phase[valid_mask] are the phases of
   the pixels with light in row order; the mask must have the shape of the phase. *)
Definition flat_trigger (out e : efield) : res efield :=
  a <- assign2 (ef_A out) (ef_A e) ;; p <- assign2 (ef_ph out) (ef_ph e) ;;
  let valid i j := lit (ent A (ef_A e) i j) in
  if negb (Nat.eqb (ef_rows e) (a_r p) && Nat.eqb (ef_cols e) (a_c p)) then Err IndexError else
  let vals := flat_map (fun i => flat_map (fun j => if valid i j then [ent A p i j] else []) (seq 0 (a_c p))) (seq 0 (a_r p)) in
  let m := mean A ofn vals in
  Ok (mkEF a (tab A (a_r p) (a_c p) (fun i j => if valid i j then ent A p i j - m else ent A p i j)) (ef_pitch out) (ef_S0 e)).
Definition flatten (first : efield) (rounds : list efield) : res efield := out <- like_setup first ;; fold_res flat_trigger out rounds.

(* ------------------------------------------------------------------- propagation on axis *)
(* specula/processing_objects/atmo_propagation.py:278-306 trigger_code and 311-315
   post_trigger for one source, without Fresnel propagation.  [interp] is the interpolator of
   the source for layer number li in the list common + atmo: None means that the centre of the
   layer is used.  The size of the pupil is that of the output. *)
Definition interpolator : Type := arr2 A -> res (arr2 A).
Definition prop_layer (size : nat) (out : efield) (x : efield * option interpolator) : res efield :=
  let l := fst x in
  match snd x with
  | None =>
    let tl k := ((Z.of_nat k - Z.of_nat size) / 2)%Z in
    ef_product out l (Some (tl (ef_rows l), tl (ef_cols l)))
  | Some f =>
    ia <- f (ef_A l) ;; a <- inplace2 mul (ef_A out) ia ;;
    ip <- f (ef_ph l) ;; p <- inplace2 add (ef_ph out) ip ;; Ok (mkEF a p (ef_pitch out) (ef_S0 out))
  end.
Definition prop_trigger (upwards : bool) (size : nat) (out : efield) (common atmo : list (efield * option interpolator)) : res efield :=
  let l := common ++ atmo in
  fold_res (prop_layer size) (ef_reset out) (if upwards then l else rev l).
(* with mergeLayersContrib=False: the outputs are a list of as many fields as atmospheric
   layers (atmo_propagation.py:490-497), indexed with the position in the list of all
   layers; post_trigger sets an attribute of the list *)
Fixpoint prop_each (size : nat) (outs : list efield) (li : nat) (l : list (efield * option interpolator)) : res (list efield) :=
  match l with
  | [] => Ok outs
  | x :: r => match nth_error outs li with
              | None => Err IndexError
              | Some o => o' <- prop_layer size (ef_reset o) x ;; prop_each size (set_nth li o' outs) (S li) r
              end
  end.
Definition prop_separate (upwards : bool) (size : nat) (outs : list efield) (common atmo : list (efield * option interpolator)) : res (list efield) :=
  let l := common ++ atmo in
  _ <- prop_each size outs 0 (if upwards then l else rev l) ;; Err AttributeError.
End Field.
