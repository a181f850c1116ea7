(* Time-domain filters.

   Modelled code:
   - specula/processing_objects/base_filter.py (BaseFilter)
   - specula/processing_objects/iir_filter.py (IirFilter)
   - specula/processing_objects/integrator.py (Integrator)
   - specula/processing_objects/ssr_filter.py (SsrFilter)
   - specula/data_objects/iir_filter_data.py (from_gain_and_ff, discrete_delay_tf)

   Arrays are lists, 2-d arrays are lists of rows, numbers are elements of an arbitrary
   [arith].  Numpy slices are modelled by the list operation they denote; the two output
   values are modelled as views of the delay buffer where the code stores a slice. *)
From Coq Require Import List Bool PeanoNat.
From Verif Require Import PyBase Arith.
Import ListNotations.
Local Open Scope ar_scope.

(* inputs of one frame: [delta_comm.value] and [gain_mod.value] when connected,
   both already flattened (base_filter.py:71-73, 88-91) *)
Notation finput A := (list (car A) * option (list (car A)))%type.

Section Filter.
Context {A : arith}.

(* ------------------------------------------------------------------ BaseFilter *)

(* [self.delay], base_filter.py:34, a non-negative number of frames: [DInt n] is the
   integer n, [DFrac n f] is n + f with 0 < f < 1.  Simplification: negative delays are
   not modelled; [f] is the value of [self.delay % 1] (line 131). *)
Inductive delay := DInt (n : nat) | DFrac (n : nat) (f : A).

(* [int(np.ceil(self.delay))], base_filter.py:38,132 *)
Definition dceil (d : delay) : nat := match d with DInt n => n | DFrac n _ => S n end.
(* [self.delay > 0], base_filter.py:84 *)
Definition dpos (d : delay) : bool := match d with DInt 0 => false | _ => true end.

(* size check and broadcast of an input, base_filter.py:76-82 and 93-99 *)
Definition fit (n : nat) (v : vec A) : res (vec A) :=
  if Nat.eqb (length v) n then Ok v
  else match v with [x] => Ok (repeat x n) | _ => Err ValueError end.

(* [output_buffer[:, 1:] = output_buffer[:, :-1]] on one row, base_filter.py:85 *)
Definition shr (row : vec A) : vec A :=
  match row with [] => [] | x :: _ => x :: removelast row end.

(* [output_buffer[:, 0] = output], iir_filter.py:102, ssr_filter.py:77 *)
Definition set_col0 (buf : mat A) (y : vec A) : mat A := map2 (fun r x => x :: tl r) buf y.

(* what [out_comm.value] refers to: a column of the delay buffer (numpy basic slicing
   gives a view) or an array of its own, base_filter.py:127-142 *)
Inductive fview := VCol (j : nat) | VOwn (v : vec A).

(* The filter object: law-specific state, delay buffer, prepared inputs, outputs. *)
Record fstate (X : Type) := mkF {
  fx : X; fbuf : mat A; fdelta : vec A; fgain : vec A; fout : fview; fnd : fview }.
Arguments mkF {X}. Arguments fx {X}. Arguments fbuf {X}. Arguments fdelta {X}.
Arguments fgain {X}. Arguments fout {X}. Arguments fnd {X}.

Definition fread {X} (s : fstate X) (v : fview) : vec A :=
  match v with VCol j => col j (fbuf s) | VOwn v => v end.

Section Base.
Variable X : Type.
Variable n : nat.                                    (* nfilter *)
Variable d : delay.
Variable law : X -> vec A -> vec A -> X * vec A.      (* trigger_code: state, delta, gain *)

(* __init__, base_filter.py:31-52 *)
Definition finit (x0 : X) : fstate X :=
  mkF x0 (mzeros n (S (dceil d))) [] [] (VOwn (zeros n)) (VOwn (zeros n)).

(* prepare_trigger, base_filter.py:67-103 *)
Definition fprepare (s : fstate X) (i : finput A) : res (fstate X) :=
  delta <- fit n (fst i) ;;
  let buf := if dpos d then map shr (fbuf s) else fbuf s in
  g <- match snd i with Some g => fit n g | None => Ok (ones n) end ;;
  Ok (mkF (fx s) buf delta g (fout s) (fnd s)).

(* trigger_code of the derived class, then the new value goes to column 0 *)
Definition ftrigger (s : fstate X) : fstate X :=
  let (x, y) := law (fx s) (fdelta s) (fgain s) in
  mkF x (set_col0 (fbuf s) y) (fdelta s) (fgain s) (fout s) (fnd s).

(* post_trigger, base_filter.py:123-144 *)
Definition fpost (s : fstate X) : fstate X :=
  let out :=
    match d with
    | DInt 0 => VCol 0
    | DInt m => VCol m
    | DFrac m f => VOwn (map2 (fun a b => f * a + (1 - f) * b)
                              (col (S m) (fbuf s)) (col m (fbuf s)))
    end in
  mkF (fx s) (fbuf s) (fdelta s) (fgain s) out (VCol 0).

Definition fstep (s : fstate X) (i : finput A) : res (fstate X) :=
  s1 <- fprepare s i ;; Ok (fpost (ftrigger s1)).

(* the two outputs as seen by the rest of the simulation *)
Definition fouts (s : fstate X) : vec A * vec A := (fread s (fout s), fread s (fnd s)).

(* a sequence of frames: final state and the outputs after each frame *)
Fixpoint frun (s : fstate X) (us : list (finput A)) : res (fstate X * list (vec A * vec A)) :=
  match us with
  | [] => Ok (s, [])
  | i :: r =>
      s1 <- fstep s i ;;
      z <- frun s1 r ;;
      Ok (fst z, fouts s1 :: snd z)
  end.

(* reset_states of the base class, base_filter.py:147-149, the derived class resetting
   its own state to [x0] *)
Definition freset (rx : X -> X) (s : fstate X) : fstate X :=
  mkF (rx (fx s)) (map (map (fun _ => 0)) (fbuf s)) (fdelta s) (fgain s) (fout s) (fnd s).
End Base.

(* ------------------------------------------------------------------- IirFilter *)

(* [a[:, :-1] = a[:, 1:]; a[:, -1] = 0] on one row, iir_filter.py:81-84 *)
Definition shl (row : vec A) : vec A := tl row ++ [0].
(* [a[:, w-1] = x] on one row of width w *)
Definition set_last (row : vec A) (x : A) : vec A := removelast row ++ [x].

(* iir_filter_data.num, .den as stored, and the [integration] flag *)
Record iir := mkIir { inum : mat A; iden : mat A; iinteg : bool }.

(* _den_mask, iir_filter.py:58-61 *)
Definition den_mask (c : iir) : mat A :=
  map (fun r => if iinteg c then map (fun _ => 1) r
                else map (fun _ => 0) (removelast r) ++ [1]) (iden c).

(* trigger_code, iir_filter.py:73-99; the state is (_ist, _ost) *)
Definition iir_law (c : iir) (x : mat A * mat A) (delta gain : vec A)
  : (mat A * mat A) * vec A :=
  let ost := map shl (snd x) in
  let ist := map2 set_last (map shl (fst x)) delta in
  let factor := map (fun r => 1 / last r 0) (iden c) in
  let num_contrib :=
    map vsum (map2 vmul (map2 (fun r g => map (fun a => a * g) r) (inum c) gain) ist) in
  let den_contrib :=
    map vsum (map2 vmul (map2 vmul (map (@removelast _) (iden c))
                                   (map (@removelast _) (den_mask c)))
                        (map (@removelast _) ost)) in
  let output := vmul factor (vsub num_contrib den_contrib) in
  ((ist, map2 set_last ost output), output).

(* zeros_like, iir_filter.py:55-56 *)
Definition iir_x0 (c : iir) : mat A * mat A :=
  (map (map (fun _ => 0)) (inum c), map (map (fun _ => 0)) (iden c)).
(* reset_states, iir_filter.py:104-108 *)
Definition iir_rx (x : mat A * mat A) : mat A * mat A :=
  (map (map (fun _ => 0)) (fst x), map (map (fun _ => 0)) (snd x)).

Definition iir_run (c : iir) (d : delay) (us : list (finput A)) :=
  frun _ (length (inum c)) d (iir_law c) (finit _ (length (inum c)) d (iir_x0 c)) us.

(* ------------------------------------------------------------------ Integrator *)

(* [[val for i, val in enumerate(l) for _ in range(n_modes[i])]], integrator.py:41,48 *)
Definition expand {B} (modes : list nat) (l : list B) : list B :=
  concat (map2 (fun x m => repeat x m) l modes).

(* n_modes handling, integrator.py:36-49; lists only (an int is wrapped in a list by
   the code) *)
Definition integ_expand (modes : option (list nat)) (g : vec A) (ff : option (vec A))
  : res (vec A * option (vec A)) :=
  match modes with
  | None => Ok (g, ff)
  | Some ms =>
      if negb (Nat.eqb (length ms) (length g)) then Err ValueError
      else match ff with
           | None => Ok (expand ms g, None)
           | Some f =>
               if negb (Nat.eqb (length ms) (length f)) then Err ValueError
               else Ok (expand ms g, Some (expand ms f))
           end
  end.

(* from_gain_and_ff, iir_filter_data.py:818-851; np.full broadcasts a one-element [ff]
   and raises ValueError for other sizes.  set_num/set_den leave the rows as they are
   because ordnum = ordden = 2 is the row width. *)
Definition from_gain_and_ff (g : vec A) (ff : option (vec A)) (integ : bool) : res iir :=
  f <- match ff with
       | None => Ok (ones (length g))
       | Some f => fit (length g) f
       end ;;
  Ok (mkIir (map (fun a => [0; a]) g) (map (fun a => [opp a; 1]) f) integ).

Definition integrator (modes : option (list nat)) (g : vec A) (ff : option (vec A)) (integ : bool)
  : res iir :=
  p <- integ_expand modes g ff ;; from_gain_and_ff (fst p) (snd p) integ.

(* ------------------------------------------------------------------- SsrFilter *)

Record ssr := mkSsr { sA : mat A; sB : mat A; sC : mat A; sD : mat A; snew : bool }.

(* trigger_code, ssr_filter.py:57-77; the state is _x *)
Definition ssr_law (c : ssr) (x delta gain : vec A) : vec A * vec A :=
  let u := vmul delta gain in
  let x_new := vadd (mv (sA c) x) (mv (sB c) u) in
  let x_out := if snew c then x_new else x in
  (x_new, vadd (mv (sC c) x_out) (mv (sD c) u)).

Definition ssr_rx (x : vec A) : vec A := map (fun _ => 0) x.

Definition ssr_run (c : ssr) (d : delay) (us : list (finput A)) :=
  frun _ (length (sC c)) d (ssr_law c)
       (finit _ (length (sC c)) d (zeros (length (sA c)))) us.

(* ----------------------------------------------------------- discrete_delay_tf *)

(* discrete_delay_tf, iir_filter_data.py:788-816: (num, den) *)
Definition delay_tf (d : delay) : vec A * vec A :=
  match d with
  | DInt n => (map (fun i => if Nat.eqb i 0 then 1 else 0) (seq 0 (S n)), zeros n ++ [1])
  | DFrac n f =>
      (map (fun i => if Nat.eqb i 0 then f else if Nat.eqb i 1 then 1 - f else 0)
           (seq 0 (S (S n))), zeros (S n) ++ [1])
  end.

End Filter.
Arguments delay : clear implicits.
Arguments fview : clear implicits.
Arguments fstate : clear implicits.
Arguments iir : clear implicits.
Arguments ssr : clear implicits.
Arguments mkF {A X}. Arguments fx {A X}. Arguments fbuf {A X}. Arguments fdelta {A X}.
Arguments fgain {A X}. Arguments fout {A X}. Arguments fnd {A X}.
Arguments finit {A X}. Arguments fprepare {A X}. Arguments ftrigger {A X}. Arguments fpost {A X}.
Arguments fstep {A X}. Arguments fouts {A X}. Arguments frun {A X}. Arguments freset {A X}.
