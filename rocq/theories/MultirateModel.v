(* Multirate complementary filter.

   Modelled code: specula/processing_objects/multirate_complementary_filter.py, lines
   49-229, with separate inputs in_yf/in_ys or a combined input in_vec. *)
From Coq Require Import List Bool PeanoNat ZArith.
From Verif Require Import PyBase Arith FilterModel.
Import ListNotations.
Local Open Scope ar_scope.

Section Multirate.
Context {A : arith}.

(* an integer as a number *)
Fixpoint of_nat (n : nat) : A := match n with 0%nat => 0 | S m => of_nat m + 1 end.

(* Constructor arguments: N_list, weights, g_track, coefficients, validate_sync.
   Simplification: rate ratios are natural numbers. *)
Record mcfg := mkM { mN : list nat; mw : vec A; mg : A; mnum : mat A; mden : mat A; msync : bool }.

(* __init__, multirate_complementary_filter.py:50-53 *)
Definition minit_ok (c : mcfg) : res unit :=
  if Nat.eqb (length (mw c)) (length (mN c) + 1) then Ok tt else Err ValueError.

(* normalised weights, lines 83-86 *)
Definition wnorm (c : mcfg) : vec A := map (fun w => w / vsum (mw c)) (mw c).
(* c_yf_0, c_ys, lines 88-91; c_yf_1 is -1 *)
Definition c_yf0 (c : mcfg) : A := 1 + mg c * nth 0 (wnorm c) 0.
Definition c_ys (c : mcfg) : vec A :=
  map2 (fun w n => mg c * w * of_nat n) (tl (wnorm c)) (mN c).

(* state: _ist, _ost, _yf_prev, _frame_counter, _cpu_frame_counter *)
Record mst := mkMst { m_ist : mat A; m_ost : mat A; m_prev : vec A; m_frame : nat; m_cpu : nat }.

(* inputs of one frame: fast measurement with its time, slow measurements with theirs,
   optional gain modulation; or the combined vector (no times are checked then).
   [in_vec] is given with the measurements already selected by idx_yf and idx_ys
   (lines 181-184). *)
Inductive minput :=
| Sep (tf : Z) (yf : vec A) (ys : list (Z * vec A)) (g : option (vec A))
| Vec (yf : vec A) (ys : list (vec A)) (g : option (vec A)).

Definition mi_yf (i : minput) : vec A := match i with Sep _ yf _ _ => yf | Vec yf _ _ => yf end.
Definition mi_ys (i : minput) : list (vec A) := match i with Sep _ _ ys _ => map snd ys | Vec _ ys _ => ys end.
Definition mi_g (i : minput) : option (vec A) := match i with Sep _ _ _ g => g | Vec _ _ g => g end.

(* synchronisation check, lines 163-177; Python's % raises ZeroDivisionError for n = 0,
   indexing past the connected slow inputs raises IndexError *)
Fixpoint sync_check (frame : nat) (tf : Z) (ns : list nat) (ts : list Z) : res unit :=
  match ns, ts with
  | [], _ => Ok tt
  | _ :: _, [] => Err IndexError
  | n :: ns', t :: ts' =>
      if Nat.eqb n 0 then Err ZeroDivisionError
      else if Nat.eqb (frame mod n) 0
           then if Z.eqb t tf then sync_check frame tf ns' ts' else Err RuntimeError
           else if Z.eqb t tf then Err RuntimeError else sync_check frame tf ns' ts'
  end.

(* prepare_trigger, lines 141-179 *)
Definition mprepare (c : mcfg) (n : nat) (d : delay A) (s : fstate A mst) (i : minput) : res (fstate A mst) :=
  let buf := if dpos d then map shr (fbuf s) else fbuf s in
  g <- match mi_g i with Some g => fit n g | None => Ok (ones n) end ;;
  _ <- match i with
       | Sep tf _ ys _ => if msync c then sync_check (m_cpu (fx s) + 1) tf (mN c) (map fst ys) else Ok tt
       | Vec _ _ _ => Ok tt
       end ;;
  let x := fx s in
  Ok (mkF (mkMst (m_ist x) (m_ost x) (m_prev x) (m_frame x) (m_cpu x + 1)) buf (fdelta s) g (fout s) (fnd s)).

(* [mixed_input], lines 188-196, at frame number [frame] *)
Definition add_slow (frame : nat) (acc : vec A) (cn : A * nat) (y : vec A) : vec A :=
  vadd acc (map (fun v => fst cn * (v * (if Nat.eqb (frame mod snd cn) 0 then 1 else 0))) y).
Fixpoint add_slows (frame : nat) (acc : vec A) (cns : list (A * nat)) (ys : list (vec A)) : vec A :=
  match cns, ys with
  | cn :: cr, y :: yr => add_slows frame (add_slow frame acc cn y) cr yr
  | _, _ => acc
  end.
Definition mixed (c : mcfg) (frame : nat) (yf prev : vec A) (ys : list (vec A)) : vec A :=
  add_slows frame (vadd (map (fun v => c_yf0 c * v) yf) (map (fun v => opp 1 * v) prev))
            (combine (c_ys c) (mN c)) ys.

(* trigger_code, lines 181-229.  Arrays of a size other than the number of channels are
   rejected with ValueError (numpy would broadcast size 1; not modelled). *)
Definition mtrigger (c : mcfg) (n : nat) (s : fstate A mst) (i : minput) : res (fstate A mst) :=
  let x := fx s in
  if negb (Nat.eqb (length (mi_ys i)) (length (mN c))) then Err IndexError
  else if negb (Nat.eqb (length (mi_yf i)) n && forallb (fun y => Nat.eqb (length y) n) (mi_ys i))
  then Err ValueError
  else
    let frame := S (m_frame x) in
    let mixed_input := mixed c frame (mi_yf i) (m_prev x) (mi_ys i) in
    let ost := map shl (m_ost x) in
    let ist := map2 set_last (map shl (m_ist x)) mixed_input in
    let factor := map (fun r => 1 / last r 0) (mden c) in
    let num_contrib :=
      map vsum (map2 vmul (map2 (fun r g => map (fun a => a * g) r) (mnum c) (fgain s)) ist) in
    let den_contrib :=
      map vsum (map2 vmul (map (@removelast _) (mden c)) (map (@removelast _) ost)) in
    let output := vmul factor (vsub num_contrib den_contrib) in
    Ok (mkF (mkMst ist (map2 set_last ost output) (mi_yf i) frame (m_cpu x))
            (set_col0 (fbuf s) output) (fdelta s) (fgain s) (fout s) (fnd s)).

(* __init__ and setup, lines 93-99, 129-132: _yf_prev gets the shape of the fast input *)
Definition minit (c : mcfg) (n : nat) (d : delay A) : fstate A mst :=
  finit n d (mkMst (map (map (fun _ => 0)) (mnum c)) (map (map (fun _ => 0)) (mden c)) (zeros n) 0 0).

Definition mstep (c : mcfg) (n : nat) (d : delay A) (s : fstate A mst) (i : minput) : res (fstate A mst) :=
  s1 <- mprepare c n d s i ;; s2 <- mtrigger c n s1 i ;; Ok (fpost d s2).

Fixpoint mrun (c : mcfg) (n : nat) (d : delay A) (s : fstate A mst) (us : list minput)
  : res (fstate A mst * list (vec A * vec A)) :=
  match us with
  | [] => Ok (s, [])
  | i :: r =>
      s1 <- mstep c n d s i ;;
      z <- mrun c n d s1 r ;;
      Ok (fst z, fouts s1 :: snd z)
  end.

(* reset_states is inherited from BaseFilter (base_filter.py:147-149): only the delay
   buffer is cleared *)
Definition mreset (s : fstate A mst) : fstate A mst := freset (fun x => x) s.
End Multirate.
Arguments mcfg : clear implicits.
Arguments minput : clear implicits.
Arguments mst : clear implicits.
