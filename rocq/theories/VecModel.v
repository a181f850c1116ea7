(* Objects that rearrange or combine vectors.

   Modelled code: specula/processing_objects/base_slicer.py, base_inserter.py,
   base_operation.py, mirror_commands_combinator.py, linear_combination.py.
   Not modelled: devices and precisions, boolean index lists, arrays with more than one
   dimension, platescale_coeff (its result is a parameter). *)
From Coq Require Import List ZArith Bool PeanoNat.
From Verif Require Import PyBase Arith NpModel.
Import ListNotations.

(* ------------------------------------------------------------------ BaseSlicer *)
Section Slicer.
Context {V : Type} (zero : V).
Local Open Scope Z_scope.

Inductive selector := SelAll | SelInt (i : Z) | SelList (is : list Z) | SelSlice (s : pyslice).

(* slice( *args ) *)
Definition slice_of_args (args : list (option Z)) : res pyslice :=
  match args with
  | [b] => Ok (mkSlice None b None)
  | [a; b] => Ok (mkSlice a b None)
  | [a; b; c] => Ok (mkSlice a b c)
  | _ => Err TypeError
  end.

(* the argument [indices]: an integer or a list *)
Inductive indices := OneIndex (i : Z) | Indices (is : list Z).

(* base_slicer.py:18-29 *)
Definition slicer_select (idx : option indices) (slice_args : option (list (option Z))) : res selector :=
  match idx, slice_args with
  | Some _, Some _ => Err ValueError
  | Some (OneIndex i), None => Ok (SelInt i)
  | Some (Indices is), None => Ok (SelList is)
  | None, Some args => s <- slice_of_args args ;; Ok (SelSlice s)
  | None, None => Ok SelAll
  end.

(* base_slicer.py:32-44: the output before the first trigger.  numpy.zeros raises
   ValueError for a negative size *)
Definition slicer_initial (sel : selector) : res (list V) :=
  match sel with
  | SelInt _ => Ok [zero]
  | SelList is => Ok (repeat zero (length is))
  | SelSlice s =>
      let step := match sl_step s with Some k => k | None => 1 end in
      match sl_start s, sl_stop s with
      | Some a, Some b => if step =? 0 then Err ZeroDivisionError
                          else let n := (b - a + step - 1) / step in
                               if n <? 0 then Err ValueError else Ok (repeat zero (Z.to_nat n))
      | _, _ => Ok []
      end
  | SelAll => Ok []
  end.
Definition slicer_init (idx : option indices) (slice_args : option (list (option Z))) : res (selector * list V) :=
  sel <- slicer_select idx slice_args ;; o <- slicer_initial sel ;; Ok (sel, o).

(* The value left in the output by a trigger: a scalar, a new array, or a view of the
   input array. *)
Inductive sliced := Scalar (v : V) | Own (l : list V) | View (ps : list Z).

(* base_slicer.py:54-64.  Basic slicing in numpy returns a view; indexing with a list and
   copy() return new arrays. *)
Definition slicer_trigger (sel : selector) (value : list V) : res sliced :=
  match sel with
  | SelInt i => v <- take1 value i ;; Ok (Scalar v)
  | SelList is => l <- take_list value is ;; Ok (Own l)
  | SelSlice s => ps <- slice_pos s (zlen value) ;; Ok (View ps)
  | SelAll => Ok (Own value)
  end.
(* reading the output when the input array holds [value] *)
Definition read_sliced (o : sliced) (value : list V) : res (list V) :=
  match o with Scalar v => Ok [v] | Own l => Ok l | View ps => gather value ps end.
End Slicer.
Arguments selector : clear implicits.
Arguments sliced : clear implicits.

(* ---------------------------------------------------------------- BaseInserter *)
Section Inserter.
Context {V : Type} (zero : V).
Local Open Scope Z_scope.

(* one pair of selectors; base_inserter.py:47-62.  The case of a single pair written
   without the outer list is normalised by the code itself. *)
Inductive ipair := PairIdx (src dest : list Z) | PairSlice (src dest : pyslice).

(* base_inserter.py:38-62: exactly one of the two arguments *)
Definition inserter_pairs (idx : option (list (list Z * list Z)))
    (slice_args : option (list (list (option Z) * list (option Z)))) : res (list ipair) :=
  match idx, slice_args with
  | Some _, Some _ => Err ValueError
  | None, None => Err ValueError
  | Some l, None => Ok (map (fun p => PairIdx (fst p) (snd p)) l)
  | None, Some l => map_res (fun p => a <- slice_of_args (fst p) ;; b <- slice_of_args (snd p) ;; Ok (PairSlice a b)) l
  end.

(* base_inserter.py:64 *)
Definition inserter_initial (output_size : nat) : list V := repeat zero output_size.

Definition insert_pair (small : list V) (out : list V) (p : ipair) : res (list V) :=
  match p with
  | PairIdx src dest => v <- take_list small src ;; assign_list out dest v
  | PairSlice src dest => v <- take_slice small src ;; assign_slice out dest v
  end.
(* base_inserter.py:76-80 *)
Definition inserter_trigger (ps : list ipair) (out small : list V) : res (list V) :=
  fold_res (insert_pair small) out ps.
(* a sequence of triggers *)
Definition inserter_run (ps : list ipair) (output_size : nat) (ins : list (list V)) : res (list V) :=
  fold_res (inserter_trigger ps) (inserter_initial output_size) ins.
End Inserter.

(* --------------------------------------------------------------- BaseOperation *)
Section Operation.
Context {A : arith}.
Variables mx mn : A -> A -> A.          (* numpy.maximum, numpy.minimum *)
Local Open Scope ar_scope.

(* numpy broadcasting of one-dimensional arrays *)
Definition bcast (f : A -> A -> A) (u v : vec A) : res (vec A) :=
  if Nat.eqb (length u) (length v) then Ok (map2 f u v)
  else match u, v with
       | _, [y] => Ok (map (fun x => f x y) u)
       | [x], _ => Ok (map (f x) v)
       | _, _ => Err ValueError
       end.

Inductive const := CScalar (a : A) | CVec (v : vec A).
Definition with_const (f : A -> A -> A) (v : vec A) (c : const) : res (vec A) :=
  match c with CScalar a => Ok (map (fun x => f x a) v) | CVec w => bcast f v w end.
Definition cmap (f : A -> A) (c : const) : const :=
  match c with CScalar a => CScalar (f a) | CVec v => CVec (map f v) end.

Inductive binop := OpMul | OpDiv | OpSum | OpSub | OpConcat | OpNone.
(* how the second value is laid out over the first *)
Inductive layout := Same | Shorter | Remap (is : list Z).

Record op_cfg := mkOp { o_cmul : option const; o_csum : option const; o_cmax : option A; o_cmin : option A;
                        o_op : binop; o_layout : layout }.

(* base_operation.py:51-92; when several flags are set the first of mul, div, sum, sub in
   this order is used, and concat has precedence.  Simplification: constant_max and
   constant_min are scalars (an array is replaced by its maximum or minimum). *)
Definition op_init (cmul cdiv csum csub : option const) (cmax cmin : option A)
    (fmul fdiv fsum fsub fconcat : bool) (shorter : bool) (remap : option (list Z)) : op_cfg :=
  mkOp (match cdiv with Some c => Some (cmap (fun a => 1 / a) c) | None => cmul end)
       (match csub with Some c => Some (cmap opp c) | None => csum end) cmax cmin
       (if fconcat then OpConcat else if fmul then OpMul else if fdiv then OpDiv else if fsum then OpSum
        else if fsub then OpSub else OpNone)
       (if shorter then Shorter else match remap with Some is => Remap is | None => Same end).

(* the output array and the buffer for the second value *)
Record op_state := mkOpSt { os_out : vec A; os_v2 : vec A }.

(* base_operation.py:114-144 setup.  [junk] is the content of uninitialised arrays.  With
   several flags set, v2 is filled with ones if div is set: here if the operation is div. *)
Definition op_setup (junk : A) (c : op_cfg) (v1 : vec A) (v2 : option (vec A)) : res op_state :=
  match o_op c, v2 with
  | OpNone, None => Ok (mkOpSt (repeat junk (length v1)) [])
  | _, None => Err ValueError
  | op, Some w =>
      Ok (mkOpSt (match o_cmul c, o_csum c, o_cmax c, o_cmin c, op with
                  | None, None, None, None, OpConcat => repeat junk (length v1 + length w)
                  | _, _, _, _, _ => repeat junk (length v1)
                  end)
                 (repeat (match op with OpDiv => 1 | _ => 0 end) (length v1)))
  end.

Definition op_fun (op : binop) : option (A -> A -> A) :=
  match op with OpMul => Some mul | OpDiv => Some dvd | OpSum => Some add | OpSub => Some sub | _ => None end.

(* base_operation.py:146-187 trigger_code *)
Definition op_trigger (c : op_cfg) (st : op_state) (v1 : vec A) (v2 : option (vec A)) : res op_state :=
  match o_cmul c, o_csum c, o_cmax c, o_cmin c with
  | Some k, _, _, _ => r <- with_const mul v1 k ;; o <- assign_all (os_out st) r ;; Ok (mkOpSt o (os_v2 st))
  | None, Some k, _, _ => r <- with_const add v1 k ;; o <- assign_all (os_out st) r ;; Ok (mkOpSt o (os_v2 st))
  | None, None, Some m, _ => Ok (mkOpSt (map (fun x => mx x m) v1) (os_v2 st))
  | None, None, None, Some m => Ok (mkOpSt (map (fun x => mn x m) v1) (os_v2 st))
  | None, None, None, None =>
      match v2 with
      | None => Err AttributeError
      | Some w =>
          match o_op c with
          | OpConcat =>
              o1 <- assign_slice (os_out st) (mkSlice None (Some (zlen v1)) None) v1 ;;
              o2 <- assign_slice o1 (mkSlice (Some (zlen v1)) None None) w ;;
              Ok (mkOpSt o2 (os_v2 st))
          | op =>
              b <- match o_layout c with
                   | Shorter => assign_slice (os_v2 st) (mkSlice None (Some (zlen w)) None) w
                   | Remap is => assign_list (os_v2 st) is w
                   | Same => assign_all (os_v2 st) w
                   end ;;
              match op_fun op with
              | None => Err ValueError
              | Some f => r <- bcast f v1 b ;; o <- assign_all (os_out st) r ;; Ok (mkOpSt o b)
              end
          end
      end
  end.

Definition op_run (c : op_cfg) (st : op_state) (ins : list (vec A * option (vec A))) : res op_state :=
  fold_res (fun st i => op_trigger c st (fst i) (snd i)) st ins.
End Operation.
Arguments op_cfg : clear implicits.
Arguments op_state : clear implicits.

(* ---------------------------------------------------- MirrorCommandsCombinator *)
Section Combinator.
Context {A : arith}.
Local Open Scope ar_scope.

(* mirror_commands_combinator.py:14-63; three chunks of low-order and output commands *)
Record comb_cfg := mkComb { cc_k : vec A; cc_A : mat A; cc_LO1 : Z; cc_LO2 : Z; cc_LO3 : Z;
                            cc_P : Z; cc_F : Z; cc_out1 : Z; cc_out2 : Z; cc_out3 : Z }.

Definition slice2 (a b : Z) : pyslice := mkSlice (Some a) (Some b) None.

(* matrix @ vector with numpy's check of the sizes *)
Definition matvec (M : mat A) (v : vec A) : res (vec A) :=
  if forallb (fun r => Nat.eqb (length r) (length v)) M then Ok (mv M v) else Err ValueError.

(* mirror_commands_combinator.py:60-66: sizes of the preallocated arrays *)
Definition comb_init (c : comb_cfg) : res (vec A * vec A * vec A) :=
  if (cc_out1 c <? 0)%Z || (cc_out2 c <? 0)%Z || (cc_out3 c <? 0)%Z || (cc_LO1 c <? 0)%Z
     || (cc_out1 c - cc_LO1 c - cc_LO3 c <? 0)%Z then Err ValueError
  else Ok (zeros (Z.to_nat (cc_out1 c)), zeros (Z.to_nat (cc_out2 c)), zeros (Z.to_nat (cc_out3 c))).

(* mirror_commands_combinator.py:81-110 *)
Definition comb_trigger (c : comb_cfg) (outs : vec A * vec A * vec A) (xHO xLO xF xP : vec A) :
    res (vec A * vec A * vec A) :=
  let HO1 := (cc_out1 c - cc_LO1 c - cc_F c)%Z in
  let HO2 := (cc_out2 c - cc_LO2 c)%Z in
  let HO3 := (cc_out3 c - cc_LO3 c)%Z in
  lo1 <- take_slice xLO (slice2 0 (cc_LO1 c)) ;;
  lo3 <- take_slice xLO (slice2 (cc_LO1 c + cc_LO2 c) (cc_LO1 c + cc_LO2 c + cc_LO3 c)) ;;
  ho1 <- take_slice xHO (slice2 0 HO1) ;;
  ho2 <- take_slice xHO (slice2 HO1 (HO1 + HO2)) ;;
  ho3 <- take_slice xHO (slice2 (HO1 + HO2) (HO1 + HO2 + HO3)) ;;
  let v11 := lo1 ++ xF ++ ho1 in
  kl <- bcast mul (cc_k c) lo3 ;;
  let v12 := zeros (Z.to_nat (cc_LO1 c)) ++ kl ++ zeros (Z.to_nat (cc_out1 c - cc_LO1 c - cc_LO3 c)) in
  y0 <- bcast add v11 v12 ;;
  y1 <- (if (0 <? cc_P c)%Z
         then rows <- take_slice (cc_A c) (mkSlice None (Some (cc_out1 c)) None) ;;
              p <- matvec rows xP ;; r <- bcast add y0 p ;; assign_all y0 r
         else Ok y0) ;;
  let '(o1, o2, o3) := outs in
  r1 <- assign_all o1 y1 ;;
  r2 <- assign_all o2 ho2 ;;
  r3 <- assign_all o3 (lo3 ++ ho3) ;;
  Ok (r1, r2, r3).
End Combinator.
Arguments comb_cfg : clear implicits.

(* ------------------------------------------------------------ LinearCombination *)
Section LinComb.
Context {A : arith}.
Local Open Scope ar_scope.

Record lc_cfg := mkLc { lc_no_focus : bool; lc_no_lift : bool; lc_ps : vec A; lc_idx : option Z }.

(* linear_combination.py:85-103: checks in setup, for [n] inputs *)
Definition lc_check (c : lc_cfg) (n : nat) : res unit :=
  match n with
  | 4 => if lc_no_focus c || lc_no_lift c then Err ValueError else Ok tt
  | 3 => if eqb (lc_no_focus c) (lc_no_lift c) then Err ValueError else Ok tt
  | 2 => if negb (lc_no_focus c) || negb (lc_no_lift c) then Err ValueError else Ok tt
  | _ => Err ValueError
  end.

Definition nth_res {X} (l : list X) (n : nat) : res X :=
  match nth_error l n with Some x => Ok x | None => Err IndexError end.

(* linear_combination.py:85-117 setup: output of the size of lgs and lift *)
Definition lc_setup (c : lc_cfg) (ins : list (vec A)) : res (vec A) :=
  _ <- lc_check c (length ins) ;;
  lgs <- nth_res ins 0 ;;
  lift <- (if lc_no_lift c then Ok [] else nth_res ins (if lc_no_focus c then 1 else 2)%nat) ;;
  Ok (zeros (length lgs + length lift)).

(* linear_combination.py:51-82 trigger_code.  Simplification: the out vector, multiplied by
   0.0 and then filled, is set to zeros (this differs for infinities and NaN). *)
Definition lc_trigger (c : lc_cfg) (out : vec A) (ins : list (vec A)) : res (vec A) :=
  lgs0 <- nth_res ins 0 ;;
  focus <- (if lc_no_focus c then Ok [] else nth_res ins 1) ;;
  let i1 := (if lc_no_focus c then 1 else 2)%nat in
  lift <- (if lc_no_lift c then Ok [] else nth_res ins i1) ;;
  ngs <- nth_res ins (if lc_no_lift c then i1 else S i1) ;;
  tt2 <- take_slice ngs (slice2 0 2) ;;
  l1 <- assign_slice lgs0 (slice2 0 2) tt2 ;;
  l2 <- (if lc_no_focus c then Ok l1
         else f <- take1 focus 0 ;; p <- index_pos (zlen l1) 2 ;; assign l1 [p] [f]) ;;
  l3 <- match lc_idx c with
        | None => Ok l2
        | Some k =>
            ps <- take_slice ngs (mkSlice (Some 2%Z) None None) ;;
            d <- bcast mul ps (lc_ps c) ;;
            cur <- take_slice l2 (slice2 2 5) ;;
            e <- bcast sub cur d ;;
            l <- assign_slice l2 (slice2 2 5) e ;;
            assign_slice l (slice2 k (k + 3)) ps
        end ;;
  let l4 := l3 ++ lift in
  assign_slice (zeros (length out)) (mkSlice None (Some (zlen l4)) None) l4.
End LinComb.
Arguments lc_cfg : clear implicits.
