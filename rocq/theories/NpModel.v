(* One-dimensional numpy indexing, as used by several processing objects: slices, lists of
   indices, assignment.  This is the behaviour of Python and numpy, not code of /repo. *)
From Coq Require Import List ZArith Bool Lia.
From Verif Require Import PyBase.
Import ListNotations.
Local Open Scope Z_scope.

(* slice(start, stop, step); None is the default *)
Record pyslice := mkSlice { sl_start : option Z; sl_stop : option Z; sl_step : option Z }.

Definition zlen {V} (l : list V) : Z := Z.of_nat (length l).

(* slice.indices(n), as in CPython's PySlice_Unpack and PySlice_AdjustIndices *)
Definition slice_bounds (s : pyslice) (n : Z) : res (Z * Z * Z) :=
  let step := match sl_step s with Some k => k | None => 1 end in
  if step =? 0 then Err ValueError
  else
    let adjust (v : Z) := if v <? 0 then (if v + n <? 0 then (if step <? 0 then -1 else 0) else v + n)
                          else if n <=? v then (if step <? 0 then n - 1 else n) else v in
    let start := match sl_start s with Some v => adjust v | None => if step <? 0 then n - 1 else 0 end in
    let stop := match sl_stop s with Some v => adjust v | None => if step <? 0 then -1 else n end in
    Ok (start, stop, step).

Definition slice_count (start stop step : Z) : Z :=
  if step <? 0 then (if stop <? start then (start - stop - 1) / (- step) + 1 else 0)
  else (if start <? stop then (stop - start - 1) / step + 1 else 0).

(* positions selected by a slice in a vector of [n] elements *)
Definition slice_pos (s : pyslice) (n : Z) : res (list Z) :=
  b <- slice_bounds s n ;;
  let '(start, stop, step) := b in
  Ok (map (fun i => start + Z.of_nat i * step) (seq 0 (Z.to_nat (slice_count start stop step)))).

(* one index, negative ones count from the end *)
Definition index_pos (n : Z) (i : Z) : res Z :=
  if (i <? - n) || (n <=? i) then Err IndexError else Ok (if i <? 0 then i + n else i).

Section Np.
Context {V : Type}.

Definition at_pos (l : list V) (p : Z) : res V :=
  match nth_error l (Z.to_nat p) with Some v => Ok v | None => Err IndexError end.
(* l[[positions]] *)
Definition gather (l : list V) (ps : list Z) : res (list V) := map_res (at_pos l) ps.

(* l[i], l[indices], l[slice] *)
Definition take1 (l : list V) (i : Z) : res V := p <- index_pos (zlen l) i ;; at_pos l p.
Definition take_list (l : list V) (is : list Z) : res (list V) :=
  ps <- map_res (index_pos (zlen l)) is ;; gather l ps.
Definition take_slice (l : list V) (s : pyslice) : res (list V) :=
  ps <- slice_pos s (zlen l) ;; gather l ps.

Fixpoint set_nth (n : nat) (v : V) (l : list V) : list V :=
  match l, n with
  | [], _ => []
  | _ :: r, O => v :: r
  | x :: r, S k => x :: set_nth k v r
  end.
(* later positions win *)
Definition scatter (l : list V) (pvs : list (Z * V)) : list V :=
  fold_left (fun l pv => set_nth (Z.to_nat (fst pv)) (snd pv) l) pvs l.

(* l[positions] = vals: equal sizes, or one value for all *)
Definition assign (l : list V) (ps : list Z) (vals : list V) : res (list V) :=
  match vals with
  | [v] => Ok (scatter l (map (fun p => (p, v)) ps))
  | _ => if Nat.eqb (length ps) (length vals) then Ok (scatter l (combine ps vals)) else Err ValueError
  end.
Definition assign_list (l : list V) (is : list Z) (vals : list V) : res (list V) :=
  ps <- map_res (index_pos (zlen l)) is ;; assign l ps vals.
Definition assign_slice (l : list V) (s : pyslice) (vals : list V) : res (list V) :=
  ps <- slice_pos s (zlen l) ;; assign l ps vals.
(* l[:] = vals *)
Definition assign_all (l vals : list V) : res (list V) := assign_slice l (mkSlice None None None) vals.
End Np.
