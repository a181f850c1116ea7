(* Deformable mirror.

   Modelled code: specula/processing_objects/dm.py, DM.__init__ (the modes used) and
   trigger_code.  The influence function is a matrix with one row per mode and one column
   per pixel of the mask; the layer phase outside the mask is never written and is not
   modelled.  Not modelled: construction of influence functions (lib/compute_*_ifunc.py),
   masks and pixel scales, devices. *)
From Coq Require Import List ZArith Bool PeanoNat.
From Verif Require Import PyBase Arith NpModel VecModel.
Import ListNotations.
Local Open Scope ar_scope.

Section Dm.
Context {A : arith}.

(* self._valid_modes *)
Inductive modes_sel := MSlice (start stop : Z) | MList (is : list Z).

Record dm_cfg := mkDm { dm_if : mat A; dm_npix : nat; dm_valid : modes_sel; dm_nvalid : Z; dm_nmodes : Z;
                        dm_m2c : option (mat A); dm_sign : A }.
(* if_commands, m2c_commands, phase at the pixels of the mask *)
Record dm_state := mkDmSt { ds_if : vec A; ds_m2c : vec A; ds_phase : vec A }.

(* l[valid_modes] along the first axis of a list *)
Definition pick {X} (sel : modes_sel) (l : list X) : res (list X) :=
  match sel with
  | MSlice a b => take_slice l (slice2 a b)
  | MList is => take_list l is
  end.

(* m2c[:, valid_modes]; all rows have the same size *)
Definition pick_cols (sel : modes_sel) (M : mat A) : res (mat A) := map_res (pick sel) M.

(* vector @ matrix for a matrix with [m] columns, with numpy's check of the sizes *)
Definition vecmat (m : nat) (v : vec A) (M : mat A) : res (vec A) :=
  if Nat.eqb (length v) (length M) then Ok (map (fun j => dot v (col j M)) (seq 0 m)) else Err ValueError.

(* dm.py:94-143 __init__, for an influence function [ifm] with [npix] pixels.  When the
   influence function is built by the constructor from idx_modes, it has max(idx_modes)+1
   modes, the same as taking nmodes from its size (dm.py:100-102, 113-114). *)
Definition dm_init (ifm : mat A) (npix : nat) (start nmodes : option Z) (idx : option (list Z)) (m2c : option (mat A)) (sign : A) :
    res (dm_cfg * dm_state) :=
  match idx, start, nmodes with
  | Some _, Some _, _ => Err ValueError
  | Some _, _, Some _ => Err ValueError
  | _, _, _ =>
      let s := match start with Some s => s | None => 0%Z end in
      let n := match nmodes with Some n => n | None => zlen ifm end in
      let valid := match idx with Some is => MList is | None => MSlice s n end in
      let nvalid := match idx with Some is => zlen is | None => Z.max 0 (n - s) end in
      mc <- match m2c with
            | None => Ok []
            | Some M => w <- pick_cols valid M ;; Ok (zeros (length (hd [] w)))
            end ;;
      Ok (mkDm ifm npix valid nvalid (n - s) m2c sign, mkDmSt (zeros (length ifm)) mc (zeros npix))
  end.

(* dm.py:161-179 trigger_code *)
Definition dm_trigger (c : dm_cfg) (st : dm_state) (input : vec A) : res dm_state :=
  inp <- take_slice input (mkSlice None (Some (dm_nmodes c)) None) ;;
  mc <- match dm_m2c c with
        | Some M => assign_slice (ds_m2c st) (mkSlice None (Some (zlen inp)) None) inp
        | None => Ok (ds_m2c st)
        end ;;
  cmd <- match dm_m2c c with
         | Some M => w <- pick_cols (dm_valid c) M ;; matvec w mc
         | None => Ok inp
         end ;;
  ic <- assign_slice (ds_if st) (mkSlice None (Some (zlen cmd)) None) (map (fun x => dm_sign c * x) cmd) ;;
  ph <- match dm_m2c c with
        | Some _ => vecmat (dm_npix c) ic (dm_if c)
        | None => u <- take_slice ic (slice2 0 (dm_nvalid c)) ;;
                  rows <- pick (dm_valid c) (dm_if c) ;; vecmat (dm_npix c) u rows
        end ;;
  p <- assign_all (ds_phase st) ph ;;
  Ok (mkDmSt ic mc p).

Definition dm_run (c : dm_cfg) (st : dm_state) (ins : list (vec A)) : res dm_state := fold_res (dm_trigger c) st ins.
End Dm.
Arguments dm_cfg : clear implicits.
Arguments dm_state : clear implicits.
Arguments modes_sel : clear implicits.
