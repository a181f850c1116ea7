(* Modal analysis of wavefronts, and multiplication of a vector by a matrix. *)
From Coq Require Import List ZArith Bool Arith.
From Verif Require Import PyBase Arith NpModel FitsModel RebinModel CutModel VecModel DmModel FieldModel.
Import ListNotations.

Section Analysis.
Variable A : arith.
Variable nz : A -> bool.                          (* x != 0 *)
Variable pinv : arr2 A -> arr2 A.                 (* numpy.linalg.pinv *)
Variable unwrap : arr2 A -> arr2 A.               (* modal_analysis.py:116-161, in nm *)
Variable std : vec A -> A.                        (* numpy.std *)
Local Open Scope ar_scope.

(* numpy.where(mask), row by row *)
Definition places (mask : arr2 A) : list (nat * nat) :=
  flat_map (fun i => map (fun j => (i, j)) (filter (fun j => nz (ent A mask i j)) (seq 0 (a_c mask)))) (seq 0 (a_r mask)).
(* a[places] *)
Definition at_places (a : arr2 A) (ps : list (nat * nat)) : res (vec A) :=
  map_res (fun p => if (fst p <? a_r a)%nat && (snd p <? a_c a)%nat then Ok (ent A a (fst p) (snd p)) else Err IndexError) ps.
(* a[places] = v, one value per place; places differ *)
Fixpoint value_at (l : list ((nat * nat) * A)) (d : A) (i j : nat) : A :=
  match l with [] => d | (p, x) :: r => if Nat.eqb (fst p) i && Nat.eqb (snd p) j then x else value_at r d i j end.
Definition put_places (a : arr2 A) (ps : list (nat * nat)) (v : vec A) : res (arr2 A) :=
  if forallb (fun p => (fst p <? a_r a)%nat && (snd p <? a_c a)%nat) ps then
    if Nat.eqb (length v) (length ps) then Ok (tab A (a_r a) (a_c a) (fun i j => value_at (List.combine ps v) (ent A a i j) i j)) else Err ValueError
  else Err IndexError.

(* specula/processing_objects/dm.py:138-140, 174-178: the phase of the layer of a mirror made
   with an influence function with this mask, outside of which it is never written *)
Definition dm_layer (mask : arr2 A) (st : dm_state A) : res (arr2 A) :=
  put_places (tab A (a_r mask) (a_c mask) (fun _ _ => 0)) (places mask) (ds_phase st).

(* specula/processing_objects/modal_analysis.py:20-98.  Zernike modes built by the constructor
   itself are the case of a given influence function. *)
Record ma_cfg := mkMA { ma_inv : arr2 A; ma_mask : arr2 A; ma_nmodes : Z; ma_ninputs : nat; ma_wave : bool; ma_rms : bool }.
(* value and time of out_modes, out_modes_list, rms *)
Record ma_state := mkMAS { mo_modes : vec A * Z; mo_list : list (option (vec A) * Z); mo_rms : A * Z }.
Definition fewer (n : option Z) (m : nat) : bool := match n with Some k => negb (k =? Z.of_nat m)%Z | None => false end.
(* the object made, and the influence functions as they are left by cut() *)
Definition ma_init (f : option (ifunc A)) (v : option (ifuncinv A)) (nmodes : option Z) (ninputs : nat) (wave rms : bool)
  : res (ma_cfg * ma_state * option (ifunc A) * option (ifuncinv A)) :=
  fv <- match f, v with
        | None, None => Err ValueError
        | None, Some w => c <- (if fewer nmodes (a_r (ii_mat A w)) then cut_cols (ii_mat A w) None nmodes None else Ok (ii_mat A w)) ;;
                          let w' := mkII A c (ii_mask A w) in Ok (w', None, Some w')
        | Some g, None => c <- (if fewer nmodes (a_r (if_mat A g)) then cut_rows (if_mat A g) None nmodes None else Ok (if_mat A g)) ;;
                          Ok (mkII A (pinv c) (if_mask A g), Some (mkIF A c (if_mask A g)), None)
        | Some g, Some w => Ok (w, Some g, Some w)
        end ;;
  let w := fst (fst fv) in
  let n := match nmodes with Some k => k | None => Z.of_nat (a_c (ii_mat A w)) end in
  if (n <? 0)%Z then Err ValueError else
  Ok (mkMA (ii_mat A w) (ii_mask A w) n ninputs wave rms, mkMAS (zeros (Z.to_nat n), (-1)%Z) (repeat (None, (-1)%Z) ninputs) (0, (-1)%Z), snd (fst fv), snd fv).

(* modal_analysis.py:163-170 setup *)
Definition ma_setup (c : ma_cfg) (st : ma_state) (lst : list (efield A)) : res ma_state :=
  match lst with
  | [] => Ok st
  | _ => if Nat.eqb (ma_ninputs c) (length lst) then
           Ok (mkMAS (mo_modes st) (map (fun x => (Some (zeros (Z.to_nat (ma_nmodes c))), snd x)) (mo_list st)) (mo_rms st))
         else Err ValueError
  end.

(* modal_analysis.py:178-191 for one field: the phase in the mask, and its modes *)
Definition in_mask (c : ma_cfg) (e : efield A) : res (vec A) :=
  p <- (if ma_wave c then q <- inplace2 A mul (ef_ph A e) (ma_mask c) ;; Ok (unwrap q) else Ok (ef_ph A e)) ;; at_places p (places (ma_mask c)).
Definition modes_of (c : ma_cfg) (ph : vec A) : res (vec A) := vecmat (a_c (ma_inv c)) ph (a_rows (ma_inv c)).
Definition analyse (c : ma_cfg) (e : efield A) : res (vec A * vec A) := ph <- in_mask c e ;; m <- modes_of c ph ;; Ok (ph, m).
(* modal_analysis.py:172-221 trigger_code.  in_ef is read in any case. *)
Definition ma_trigger (c : ma_cfg) (st : ma_state) (t : Z) (e : option (efield A)) (lst : list (efield A)) : res ma_state :=
  match e with
  | None => Err AttributeError
  | Some x =>
    r <- analyse c x ;; o <- assign_all (fst (mo_modes st)) (snd r) ;;
    r <- analyse c x ;; o <- assign_all o (snd r) ;;
    Ok (mkMAS (o, t) (mo_list st) (if ma_rms c then (std (fst r), t) else mo_rms st))
  end.

(* specula/processing_objects/mvm.py:13-33, 43-53, 55-65: multiplication by a matrix *)
Definition mvm_init (R : option (arr2 A)) : res (vec A * Z) := match R with None => Err ValueError | Some R => Ok (zeros (a_r R), (-1)%Z) end.
Definition mvm_setup (R : arr2 A) (x : vec A) : res unit := if Nat.eqb (length x) (a_c R) then Ok tt else Err ValueError.
Definition mvm_trigger (R : arr2 A) (st : vec A * Z) (t : Z) (x : vec A) : res (vec A * Z) :=
  m <- matvec (a_rows R) x ;; o <- assign_all (fst st) m ;; Ok (o, t).
End Analysis.
