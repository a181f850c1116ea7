(* Filters whose gain can be changed, and which can be reset, while they run. *)
From Coq Require Import List Bool PeanoNat.
From Verif Require Import PyBase Arith FilterModel.
Import ListNotations.
Local Open Scope ar_scope.

Section Dyn.
Context {A : arith}.
(* x == 0, and numpy.isfinite *)
Variable isz : A -> bool.
Variable finite : A -> bool.

(* specula/data_objects/iir_filter_data.py:23-72: numerator, numerator for gain one, gain,
   denominator; the flag belongs to the filter *)
Record idata := mkID { dt_num : mat A; dt_norm : mat A; dt_gain : vec A; dt_den : mat A; dt_integ : bool }.
(* iir_filter_data.py:107-113, 126-132: rows of lower order written from the left are moved to
   the right (numpy.roll).  Orders are not negative. *)
Definition settle (ord : nat) (row : vec A) : vec A :=
  if Nat.ltb ord (length row) && forallb isz (skipn ord row)
  then skipn ord row ++ firstn ord row else row.
Definition safe (g : A) : A := if isz g then 1 else g.
(* iir_filter_data.py:107-122 set_num, 124-134 set_den *)
Definition make_data (ordnum ordden : list nat) (num den : mat A) (integ : bool) : idata :=
  let n := map2 settle ordnum num in
  let g := map (fun r => last r 0) n in
  mkID n (map2 (fun r a => map (fun x => x / safe a) r) n g) g (map2 settle ordden den) integ.

(* what is given as a new gain: a number or a vector *)
Inductive gval := GNum (x : A) | GVec (v : vec A).
(* iir_filter_data.py:164-195 set_gain *)
Definition spread (n : nat) (g : gval) : vec A := match g with GNum x => repeat x n | GVec v => v end.
Fixpoint renew (new old : vec A) : vec A :=
  match new, old with
  | x :: new', y :: old' => (if finite x then x else y) :: renew new' old'
  | _, _ => old
  end.
Definition set_gain (D : idata) (g : gval) : idata :=
  let now := renew (spread (length (dt_num D)) g) (dt_gain D) in
  mkID (map2 (fun r a => map (fun x => x * a) r) (dt_norm D) now) (dt_norm D) now (dt_den D) (dt_integ D).
Definition iir_of (D : idata) : iir A := mkIir (dt_num D) (dt_den D) (dt_integ D).

(* the law of the filter with the coefficients of the moment, iir_filter.py:73-102 *)
Definition dyn_law (X : idata * (mat A * mat A)) (u g : vec A) : (idata * (mat A * mat A)) * vec A :=
  let (x, y) := iir_law (iir_of (fst X)) (snd X) u g in ((fst X, x), y).
Definition dyn_x0 (D : idata) : idata * (mat A * mat A) := (D, iir_x0 (iir_of D)).

(* One frame: the inputs, whether a reset arrives, the new gain if one arrives. *)
Record event := mkEv { ev_in : finput A; ev_reset : bool; ev_gain : option gval }.
(* specula/processing_objects/dynamic_iir_filter.py:70-85 prepare_trigger: base class, reset, gain *)
Definition to_num (g : gval) : option A := match g with GNum x => Some x | GVec [x] => Some x | GVec _ => None end.
Section Run.
Variable n : nat.
Variable d : delay A.
(* scalar = true: specula/processing_objects/dynamic_integrator.py:79-94, where the gain goes through
   float(); a failure is caught by a handler that raises AttributeError itself *)
Variable scalar : bool.
Definition dprepare (s : fstate A (idata * (mat A * mat A))) (e : event) : res (fstate A (idata * (mat A * mat A))) :=
  s1 <- fprepare n d s (ev_in e) ;;
  let s2 := if ev_reset e then freset (fun X => (fst X, iir_rx (snd X))) s1 else s1 in
  match ev_gain e with
  | None => Ok s2
  | Some g =>
      g' <- (if scalar then match to_num g with Some x => Ok (GNum x) | None => Err AttributeError end else Ok g) ;;
      Ok (mkF (set_gain (fst (fx s2)) g', snd (fx s2)) (fbuf s2) (fdelta s2) (fgain s2) (fout s2) (fnd s2))
  end.
Definition dstep s e := s1 <- dprepare s e ;; Ok (fpost d (ftrigger dyn_law s1)).
Fixpoint drun (s : fstate A (idata * (mat A * mat A))) (es : list event) : res (fstate A (idata * (mat A * mat A)) * list (vec A * vec A)) :=
  match es with
  | [] => Ok (s, [])
  | e :: r => s1 <- dstep s e ;; z <- drun s1 r ;; Ok (fst z, fouts s1 :: snd z)
  end.
End Run.
Definition dyn_run (D : idata) (d : delay A) (scalar : bool) (es : list event) :=
  drun (length (dt_num D)) d scalar (finit (length (dt_num D)) d (dyn_x0 D)) es.
(* an integrator, integrator.py:36-53, iir_filter_data.py:818-851 *)
Definition dyn_integrator (modes : option (list nat)) (g : vec A) (ff : option (vec A)) (integ : bool) : res idata :=
  c <- integrator modes g ff integ ;;
  Ok (make_data (map (fun _ => 2%nat) (inum c)) (map (fun _ => 2%nat) (iden c)) (inum c) (iden c) integ).
End Dyn.
Arguments idata : clear implicits. Arguments event : clear implicits. Arguments gval : clear implicits.
