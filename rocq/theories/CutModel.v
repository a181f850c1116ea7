(* Changing the number of modes and slopes of matrices. *)
From Coq Require Import List ZArith Bool Arith Lia.
From Verif Require Import PyBase NpModel FitsModel.
Import ListNotations.
Local Open Scope Z_scope.

Section Cut.
Variable V : Type.
Variable zero : V.

Definition head (k : Z) : pyslice := mkSlice None (Some k) None.     (* :k *)
Definition from (k : Z) : pyslice := mkSlice (Some k) None None.     (* k: *)

(* m[s, :] *)
Definition sel_rows (m : arr2 V) (s : pyslice) : res (arr2 V) := r <- take_slice (a_rows m) s ;; Ok (mkA2 (a_c m) r).
(* m[:, s]: the selected column numbers are the same for every row *)
Definition sel_cols (m : arr2 V) (s : pyslice) : res (arr2 V) :=
  cs <- take_slice (seq 0 (a_c m)) s ;; rows <- map_res (fun r => take_slice r s) (a_rows m) ;; Ok (mkA2 (length cs) rows).

Definition nmodes (m : arr2 V) : Z := Z.of_nat (a_c m).
Definition nslopes (m : arr2 V) : Z := Z.of_nat (a_r m).

(* specula/data_objects/intmat.py:91-98 Intmat.set_nmodes *)
Definition set_nmodes (m : arr2 V) (k : Z) : res (arr2 V) :=
  if nmodes m <? k then
    (* zeros; new[:, :old] = m[:, :old] *)
    rows <- map_res (fun r => v <- take_slice r (head (nmodes m)) ;; assign_slice (repeat zero (Z.to_nat k)) (head (nmodes m)) v) (a_rows m) ;;
    Ok (mkA2 (Z.to_nat k) rows)
  else sel_cols m (head k).
(* intmat.py:100-107 Intmat.set_nslopes; new[:old, :] = m[:old, :] row by row *)
Definition set_nslopes (m : arr2 V) (k : Z) : res (arr2 V) :=
  if nslopes m <? k then
    v <- take_slice (a_rows m) (head (nslopes m)) ;;
    Ok (mkA2 (a_c m) (v ++ repeat (repeat zero (a_c m)) (Z.to_nat k - length v)))
  else sel_rows m (head k).
(* intmat.py:109-112 *)
Definition reduce_size (m : arr2 V) (d : Z) : res (arr2 V) :=
  if nmodes m <=? d then Err ValueError else sel_cols m (head (nmodes m - d)).
(* intmat.py:114-117 *)
Definition reduce_slopes (m : arr2 V) (d : Z) : res (arr2 V) :=
  if nslopes m <=? d then Err ValueError else sel_rows m (head (nslopes m - d)).
(* intmat.py:119-123 *)
Definition set_start_mode (m : arr2 V) (s : Z) : res (arr2 V) :=
  if nmodes m <=? s then Err ValueError else sel_cols m (from s).
(* specula/data_objects/recmat.py:56-59; the modes are the rows *)
Definition rec_reduce_size (m : arr2 V) (d : Z) : res (arr2 V) :=
  if nslopes m <=? d then Err ValueError else sel_rows m (head (nslopes m - d)).
(* specula/data_objects/m2c.py:49-50 *)
Definition m2c_set_nmodes (m : arr2 V) (k : Z) : res (arr2 V) := sel_cols m (head k).
End Cut.
