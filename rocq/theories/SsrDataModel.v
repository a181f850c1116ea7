(* Construction of state-space filters from per-channel systems.

   Modelled code: specula/data_objects/ssr_filter_data.py, SsrFilterData: _expand_with_n_modes,
   _build_block_diagonal, _validate_individual_matrices, from_gain, from_integrator.
   Not modelled: _ensure_matrix_list (recognising the many ways to write a matrix);
   the models start from the lists of 2-d matrices it returns. *)
From Coq Require Import List Bool PeanoNat.
From Verif Require Import PyBase Arith FilterModel.
Import ListNotations.
Local Open Scope ar_scope.

Section SsrData.
Context {A : arith}.

(* numpy shape test of a 2-d array *)
Definition has_shape (M : mat A) (n m : nat) : bool :=
  Nat.eqb (length M) n && forallb (fun r => Nat.eqb (length r) m) M.

(* one channel: (A_i, B_i, C_i, D_i) *)
Record blk := mkBlk { bA : mat A; bB : mat A; bC : mat A; bD : mat A }.

(* _validate_individual_matrices, ssr_filter_data.py:233-279, for one filter *)
Definition blk_ok (b : blk) : bool :=
  let ns := length (bA b) in
  has_shape (bA b) ns ns && has_shape (bB b) ns 1 && has_shape (bC b) 1 ns && has_shape (bD b) 1 1.

Definition total_states (l : list blk) : nat := list_sum (map (fun b => length (bA b)) l).

(* scipy.linalg.block_diag, used at ssr_filter_data.py:207 *)
Fixpoint block_diag (l : list blk) : mat A :=
  match l with
  | [] => []
  | b :: r => map (fun row => row ++ zeros (total_states r)) (bA b)
              ++ map (fun row => zeros (length (bA b)) ++ row) (block_diag r)
  end.

(* vector of size [n] with [x] at position [i] *)
Definition unit_at (n i : nat) (x : A) : vec A := map (fun j => if Nat.eqb j i then x else 0) (seq 0 n).

(* B_block, ssr_filter_data.py:209-217: column [i] of the rows of block [i] *)
Fixpoint b_rows (nf i : nat) (l : list blk) : mat A :=
  match l with
  | [] => []
  | b :: r => map (fun row => unit_at nf i (nth 0 row 0)) (bB b) ++ b_rows nf (S i) r
  end.

(* C_block, ssr_filter_data.py:219-226: row [i] holds C_i at the offset of block [i] *)
Fixpoint c_rows (total off : nat) (l : list blk) : mat A :=
  match l with
  | [] => []
  | b :: r => let ns := length (bA b) in
              (zeros off ++ nth 0 (bC b) [] ++ zeros (total - off - ns)) :: c_rows total (off + ns) r
  end.

(* D_block, ssr_filter_data.py:228-229: np.diag *)
Definition d_rows (l : list blk) : mat A :=
  map (fun i => unit_at (length l) i (nth 0 (nth 0 (bD (nth i l (mkBlk [] [] [] []))) []) 0)) (seq 0 (length l)).

(* _build_block_diagonal, ssr_filter_data.py:193-231; the four lists have equal length
   because they come as one list of blocks *)
Definition build_blocks (l : list blk) (newst : bool) : res (ssr A) :=
  if forallb blk_ok l
  then Ok (mkSsr (block_diag l) (b_rows (length l) 0 l) (c_rows (total_states l) 0 l) (d_rows l) newst)
  else Err ValueError.

(* _expand_with_n_modes, ssr_filter_data.py:173-191: block [i] is repeated n_modes[i]
   times; A[i] raises IndexError when there are fewer blocks than entries of n_modes
   (a zero entry never indexes); blocks beyond n_modes are dropped *)
Fixpoint expand_blocks (modes : list nat) (l : list blk) : res (list blk) :=
  match modes, l with
  | [], _ => Ok []
  | m :: ms, b :: r => t <- expand_blocks ms r ;; Ok (repeat b m ++ t)
  | m :: ms, [] => if forallb (Nat.eqb 0) (m :: ms) then Ok [] else Err IndexError
  end.

(* from_gain, ssr_filter_data.py:362-394 *)
Definition gain_blocks (g : vec A) : list blk :=
  map (fun a => mkBlk [[0]] [[0]] [[0]] [[a]]) g.

(* from_integrator, ssr_filter_data.py:395-441; [fit] is the length test and broadcast *)
Definition integrator_blocks (g : vec A) (ff : option (vec A)) : res (list blk) :=
  f <- match ff with Some f => fit (length g) f | None => Ok (ones (length g)) end ;;
  Ok (map2 (fun a f => mkBlk [[f]] [[a]] [[1]] [[0]]) g f).
End SsrData.
Arguments blk : clear implicits.
