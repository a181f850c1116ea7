(* Modal reconstructors.

   Modelled code: specula/processing_objects/modalrec.py, modalrec_implicit_polc.py,
   modalrec_multirate.py, and the matrix shape operations of data_objects/recmat.py and
   intmat.py they use.  Matrices are lists of rows; the number of columns of a matrix is
   the size of its first row.  Recmat.proj_list is always empty in the code
   (recmat.py:26-28), so the branch of Modalrec.__init__ that uses it is left out.
   Not modelled: devices and precisions, scalar (zero-dimensional) command values, the
   change made by reduce_slopes to the object passed as argument. *)
From Coq Require Import List ZArith Bool PeanoNat.
From Verif Require Import PyBase Arith NpModel VecModel.
Import ListNotations.
Local Open Scope ar_scope.

Section Rec.
Context {A : arith}.

Definition ncols (M : mat A) : nat := length (hd [] M).
(* matrix @ matrix with numpy's check of the sizes *)
Definition matmat (M N : mat A) : res (mat A) :=
  if forallb (fun r => Nat.eqb (length r) (length N)) M then Ok (mm M N) else Err ValueError.
(* numpy.identity *)
Definition identity (n : nat) : mat A := map (fun i => map (fun j => if Nat.eqb i j then 1 else 0) (seq 0 n)) (seq 0 n).
(* u -= v on an existing array u *)
Definition isub (u v : vec A) : res (vec A) :=
  if Nat.eqb (length u) (length v) then Ok (map2 sub u v)
  else match v with [y] => Ok (map (fun x => x - y) u) | _ => Err ValueError end.

(* recmat.py:57-60 reduce_size; intmat.py:117-120 reduce_slopes: the same on the rows *)
Definition drop_rows (M : mat A) (n : Z) : res (mat A) :=
  if (zlen M <=? n)%Z then Err ValueError else take_slice M (mkSlice None (Some (zlen M - n)%Z) None).

Record rec_args := mkRecArgs { ra_nmodes : option Z; ra_recmat : option (mat A); ra_projmat : option (mat A);
  ra_intmat : option (mat A); ra_polc : bool; ra_csize : option Z; ra_filtmat : option (mat A); ra_identity : bool;
  ra_ncut : option Z; ra_discard : option Z }.

Record rec_cfg := mkRec { rc_R : option (mat A); rc_P : option (mat A); rc_D : option (mat A); rc_polc : bool;
                          rc_csize : option Z; rc_nmodes : nat }.

(* "if x:" for an optional integer *)
Definition truthy (o : option Z) : option Z := match o with Some 0%Z => None | _ => o end.

(* modalrec.py:36-58, the matrix used without POLC.  An Intmat has no attribute [size] *)
Definition choose_recmat (a : rec_args) : res (option (mat A)) :=
  r <- match ra_recmat a with
       | Some R => Ok (Some R)
       | None =>
           if ra_identity a then
             match ra_nmodes a with
             | None => Err ValueError
             | Some n => if (n <? 0)%Z then Err ValueError else Ok (Some (identity (Z.to_nat n)))
             end
           else match ra_intmat a with
                | None => Ok None
                | Some D =>
                    match truthy (ra_nmodes a) with
                    | Some _ => Err AttributeError
                    | None => match truthy (ra_discard a) with
                              | Some n => D' <- drop_rows D n ;; Ok (Some D')
                              | None => Ok (Some D)
                              end
                    end
                end
       end ;;
  match truthy (ra_ncut a), r with
  | Some n, Some R => R' <- drop_rows R n ;; Ok (Some R')
  | _, _ => Ok r
  end.

(* modalrec.py:14-104 Modalrec.__init__ *)
Definition modalrec_init (a : rec_args) : res rec_cfg :=
  r0 <- (if ra_polc a then
           if ra_identity a then Err ValueError
           else match ra_ncut a with Some _ => Err ValueError | None => Ok (ra_recmat a) end
         else choose_recmat a) ;;
  r <- match ra_filtmat a, r0 with
       | Some F, Some R => R' <- matmat R F ;; Ok (Some R')
       | _, _ => Ok r0
       end ;;
  _ <- (if ra_polc a then match ra_intmat a with None => Err ValueError | Some _ => Ok tt end else Ok tt) ;;
  let csize := match ra_csize a, ra_polc a, ra_intmat a with
               | None, true, Some D => Some (Z.of_nat (ncols D))
               | _, _, _ => ra_csize a
               end in
  n <- (if ra_polc a then match ra_projmat a with Some P => Ok (length P) | None => Err AttributeError end
        else match r with Some R => Ok (length R) | None => Err AttributeError end) ;;
  Ok (mkRec r (ra_projmat a) (ra_intmat a) (ra_polc a) csize n).

(* what is connected to in_slopes, in_slopes_list (value, generation time), in_commands
   (the value of the connected object may be None) and in_commands_list *)
Record rec_in := mkRecIn { ri_slopes : option (vec A * Z); ri_list : list (vec A * Z);
                           ri_cmd : option (option (vec A)); ri_cmds : list (option (vec A)) }.

(* slopes buffer, commands buffer, modes and pseudo open loop modes with their times *)
Record rec_st := mkRecSt { rs_slopes : vec A; rs_cmds : vec A; rs_modes : vec A * option Z; rs_pol : vec A * option Z }.

(* numpy.hstack *)
Definition hstack (l : list (vec A)) : res (vec A) := match l with [] => Err ValueError | _ => Ok (concat l) end.
Definition stacked (i : rec_in) : res (vec A) :=
  match ri_slopes i with Some (v, _) => Ok v | None => hstack (map fst (ri_list i)) end.

(* modalrec.py:210-231 setup *)
Definition modalrec_setup (c : rec_cfg) (i : rec_in) : res rec_st :=
  match ri_slopes i, ri_list i with
  | None, [] => Err ValueError
  | _, _ =>
      s <- stacked i ;;
      cm <- (if rc_polc c then
               match ri_cmd i, ri_cmds i with
               | None, [] => Err ValueError
               | _, _ => match rc_csize c with
                         | Some n => if (n <? 0)%Z then Err ValueError else Ok (zeros (Z.to_nat n))
                         | None => Err TypeError
                         end
               end
             else Ok []) ;;
      Ok (mkRecSt s cm (zeros (rc_nmodes c), None) (zeros (rc_nmodes c), None))
  end.

(* modalrec.py:131-160 prepare_trigger.  The elements of in_commands_list are BaseValue
   objects, which have no attribute [commands]. *)
Definition modalrec_prepare (c : rec_cfg) (st : rec_st) (i : rec_in) : res rec_st :=
  s0 <- stacked i ;;
  s <- assign_all (rs_slopes st) s0 ;;
  if rc_polc c then
    cm <- match ri_cmd i with
          | None => match ri_cmds i with [] => Err ValueError | _ => Err AttributeError end
          | Some None => Ok (zeros (length (rs_cmds st)))
          | Some (Some v) => assign_all (rs_cmds st) v
          end ;;
    _ <- match rc_D c with
         | Some D => if Nat.eqb (length D) (length s) then Ok tt else Err ValueError
         | None => Ok tt
         end ;;
    Ok (mkRecSt s cm (rs_modes st) (rs_pol st))
  else Ok (mkRecSt s (rs_cmds st) (rs_modes st) (rs_pol st)).

(* generation time of the slopes, modalrec.py:171-177 *)
Definition slopes_time (i : rec_in) : res Z :=
  match ri_slopes i with
  | Some (_, g) => Ok g
  | None => match ri_list i with (_, g) :: _ => Ok g | [] => Err IndexError end
  end.

(* modalrec.py:162-208 trigger_code *)
Definition modalrec_trigger (c : rec_cfg) (t : Z) (st : rec_st) (i : rec_in) : res rec_st :=
  match rc_R c with
  | None => Err AttributeError
  | Some R =>
      if rc_polc c then
        g <- slopes_time i ;;
        if (g =? t)%Z then
          match rc_D c, rc_P c with
          | Some D, Some P =>
              cs <- matvec D (rs_cmds st) ;;
              sm <- bcast add (rs_slopes st) cs ;;
              pol <- matvec R sm ;;
              o <- matvec P pol ;;
              o' <- isub o (rs_cmds st) ;;
              Ok (mkRecSt (rs_slopes st) (rs_cmds st) (o', Some t) (pol, Some t))
          | _, _ => Err AttributeError
          end
        else Ok st
      else
        o <- matvec R (rs_slopes st) ;;
        Ok (mkRecSt (rs_slopes st) (rs_cmds st) (o, Some t) (rs_pol st))
  end.

Definition modalrec_step (c : rec_cfg) (st : rec_st) (ti : Z * rec_in) : res rec_st :=
  st1 <- modalrec_prepare c st (snd ti) ;; modalrec_trigger c (fst ti) st1 (snd ti).

(* ------------------------------------------------------- ModalrecImplicitPolc *)
Record imp_cfg := mkImp { ic_base : rec_cfg; ic_C : mat A; ic_H : mat A }.

(* modalrec_implicit_polc.py:28-78 __init__.  After it intmat is None, so
   prepare_trigger does not check the number of slopes. *)
Definition implicit_init (a : rec_args) : res imp_cfg :=
  b <- modalrec_init (mkRecArgs (ra_nmodes a) (ra_recmat a) (ra_projmat a) (ra_intmat a) true (ra_csize a) None false
                                (ra_ncut a) (ra_discard a)) ;;
  match rc_R b, rc_P b, rc_D b with
  | Some R, Some P, Some D =>
      C <- matmat P R ;;
      CD <- matmat C D ;;
      H <- map_res (fun p => bcast sub (fst p) (snd p)) (combine (identity (length CD)) CD) ;;
      Ok (mkImp (mkRec None None None true (rc_csize b) (rc_nmodes b)) C H)
  | _, _, _ => Err ValueError
  end.

(* modalrec_implicit_polc.py:93-107 prepare_trigger: the commands of in_commands_list are
   read only after the inherited method has returned *)
Definition implicit_prepare (c : imp_cfg) (st : rec_st) (i : rec_in) : res rec_st :=
  st1 <- modalrec_prepare (ic_base c) st i ;;
  cm <- match ri_cmd i with
        | Some (Some v) => assign_all (rs_cmds st1) v
        | _ => Ok (rs_cmds st1)
        end ;;
  Ok (mkRecSt (rs_slopes st1) cm (rs_modes st1) (rs_pol st1)).

(* modalrec_implicit_polc.py:109-113 trigger_code *)
Definition implicit_trigger (c : imp_cfg) (t : Z) (st : rec_st) : res rec_st :=
  a <- matvec (ic_C c) (rs_slopes st) ;;
  b <- matvec (ic_H c) (rs_cmds st) ;;
  o <- bcast sub a b ;;
  Ok (mkRecSt (rs_slopes st) (rs_cmds st) (o, Some t) (rs_pol st)).

Definition implicit_step (c : imp_cfg) (st : rec_st) (ti : Z * rec_in) : res rec_st :=
  st1 <- implicit_prepare c st (snd ti) ;; implicit_trigger c (fst ti) st1.

(* ---------------------------------------------------------- ModalrecMultirate *)
Definition mask_eqb (a b : list bool) : bool := if list_eq_dec Bool.bool_dec a b then true else false.
Definition mask_get {X} (m : list bool) (tab : list (list bool * X)) : option X :=
  match find (fun p => mask_eqb m (fst p)) tab with Some (_, x) => Some x | None => None end.

Record mr_cfg := mkMr { mr_n : nat; mr_tab : list (list bool * mat A); mr_sensors : nat }.

(* modalrec_multirate.py:56-61: building the table, duplicates are rejected *)
Fixpoint mask_table (tab : list (list bool * mat A)) (l : list (list bool * mat A)) : res (list (list bool * mat A)) :=
  match l with
  | [] => Ok tab
  | (m, R) :: r => match mask_get m tab with Some _ => Err ValueError | None => mask_table (tab ++ [(m, R)]) r end
  end.

(* modalrec_multirate.py:40-98 __init__ *)
Definition mr_init (recs : list (mat A)) (masks : list (list bool)) (n : option nat) : res mr_cfg :=
  match n with
  | None => Err ValueError
  | Some n =>
      match recs, masks with
      | [], _ => Err ValueError
      | _, [] => Err ValueError
      | _, m0 :: _ =>
          if negb (Nat.eqb (length recs) (length masks)) then Err ValueError else
          tab <- mask_table [] (combine masks recs) ;;
          if negb (forallb (fun p => Nat.eqb (length (snd p)) n) tab) then Err ValueError else
          if negb (forallb (fun p => Nat.eqb (length (fst p)) (length m0)) tab) then Err ValueError else
          if Nat.eqb (length m0) 0 then Err ValueError else
          Ok (mkMr n tab (length m0))
      end
  end.
Definition mr_outputs0 (c : mr_cfg) : list (vec A * option Z) := repeat (zeros (mr_n c), None) (mr_sensors c).

(* first column of each sensor, then the total *)
Fixpoint offsets (start : nat) (sizes : list nat) : list nat :=
  match sizes with [] => [start] | n :: r => start :: offsets (start + n) r end.

(* modalrec_multirate.py:100-126 setup: the column offsets *)
Definition mr_setup (c : mr_cfg) (sizes : list nat) : res (list nat) :=
  if negb (Nat.eqb (length sizes) (mr_sensors c)) then Err ValueError else
  let total := fold_left Nat.add sizes 0%nat in
  if negb (forallb (fun p => Nat.eqb (length (fst p)) (mr_sensors c) && Nat.eqb (ncols (snd p)) total) (mr_tab c)) then Err ValueError
  else Ok (offsets 0 sizes).

(* modalrec_multirate.py:152-167: the loop over the sensors *)
Fixpoint mr_go (R : mat A) (t : Z) (offs : list nat) (outs : list (vec A * option Z)) (ins : list (vec A * Z)) :
    res (list (vec A * option Z)) :=
  match ins, outs with
  | [], _ => Ok outs
  | _ :: _, [] => Err IndexError
  | (s, g) :: ins', (o, _) :: outs' =>
      match offs with
      | a :: ((b :: _) as offs') =>
          o' <- (if (g =? t)%Z then v <- matvec (map (fun r => firstn (b - a) (skipn a r)) R) s ;; assign_all o v
                 else Ok (zeros (length o))) ;;
          r <- mr_go R t offs' outs' ins' ;;
          Ok ((o', Some t) :: r)
      | _ => Err IndexError
      end
  end.

(* modalrec_multirate.py:128-167 trigger_code: the new outputs *)
Definition mr_trigger (c : mr_cfg) (offs : list nat) (t : Z) (outs : list (vec A * option Z)) (ins : list (vec A * Z)) :
    res (list (vec A * option Z)) :=
  let validity := map (fun p => (snd p =? t)%Z) ins in
  if negb (existsb (fun b => b) validity) then
    Ok (map (fun o => (zeros (length (fst o)), Some t)) outs)
  else
    match mask_get validity (mr_tab c) with
    | None => Err KeyError
    | Some R =>
        mr_go R t offs outs ins
    end.
End Rec.
Arguments rec_args : clear implicits. Arguments rec_cfg : clear implicits. Arguments rec_in : clear implicits.
Arguments rec_st : clear implicits. Arguments imp_cfg : clear implicits. Arguments mr_cfg : clear implicits.
