(* GainOptimizer: modal gains that minimise the residual of the loop, and the largest stable gain of a filter.

   Numbers are exact rationals.  The estimate of the spectrum (scipy.signal.welch) and the squared modulus of the
   rejection of the loop are parameters: the code evaluates the latter at a gain rounded to 8 decimals, which is
   still a function of the gain.  The rejection uses the numerator divided by the gain, which set_gain does not
   change (C89), so that it does not depend on the gain of the moment. *)
From Coq Require Import List ZArith Bool Arith QArith Qcanon.
From Verif Require Import PyBase Arith OpticalModel ExtModel VecModel SlopecModel.
Import ListNotations.
Local Open Scope Qc_scope.

(* specula/data_objects/iir_filter_data.py:482-534 _compute_max_stable_gain_internal: gains are tried from the
   smallest, until the first one that is not stable; [stable]: all the poles of the closed loop are inside the unit
   circle, with the numerator scaled so that its last coefficient is the gain.  linspace(lo, hi, n). *)
Definition linspace (lo hi : Qc) (n : nat) : list Qc :=
  match n with
  | O => []
  | S O => [lo]
  | S m => map (fun k => lo + qn k * ((hi - lo) / qn m)) (seq 0 n)
  end.
Fixpoint climb (stable : Qc -> bool) (best : Qc) (l : list Qc) : Qc :=
  match l with [] => best | g :: r => if stable g then climb stable g r else best end.
Definition max_stable (stable : Qc -> bool) (tolerance hi : Qc) (n : nat) : Qc := climb stable 0 (linspace tolerance hi n).

Section Opt.
(* spectrum of a signal, with the length of the segments; squared rejection of a mode at a gain, for the
   frequencies of that length of segments *)
Variable psd : nat -> list Qc -> list Qc.
Variable rej : nat -> nat -> Qc -> list Qc.
(* largest stable gains of the modes, for modes whose gain is not zero (iir_filter_data.py:585-605) *)
Variable stab : list Qc.
(* specula/processing_objects/gain_optimizer.py:24-37: opt_dt in the unit of time, max_gain_factor, safety_factor,
   max_inc, limit_inc, ngains, running_mean *)
Record config := mkConfig { c_dt : Z; c_max : Qc; c_safety : Qc; c_inc : Qc; c_limit : bool; c_n : nat; c_mean : bool }.
Variable c : config.

(* gain_optimizer.py:55-89: the histories, length of the segments, mean of the spectra, previous gains, output and
   its generation time, optimization_done; [o_gain]: the gain of the filter data *)
Record opt := mkOpt {
  o_delta : list (list Qc); o_comm : list (list Qc); o_optical : list Qc; o_seg : option nat; o_psd : option (list (list Qc));
  o_prev : list Qc; o_value : list Qc; o_time : Z; o_done : bool; o_gain : list Qc }.
Definition new_opt (gain : list Qc) : opt := mkOpt [] [] [] None None gain (map (fun _ => 1) gain) (-1)%Z false gain.

(* gain_optimizer.py:192-218 _calculate_pseudo_open_loop, for at least one row *)
Definition pseudo (delta comm : list (list Qc)) : list (list Qc) :=
  match delta with [] => [] | d :: r => d :: map2 (map2 Qcplus) comm r end.
(* gain_optimizer.py:220-241 _calculate_max_gains.  The numerator of a mode with gain zero is zero, and dividing it
   by its last coefficient gives NaN, so that no gain is found (iir_filter_data.py:515-532). *)
Definition gmaxs (gain : list Qc) : list Qc := map2 (fun s g => (if is0 g then 0 else s) * c_max c) stab gain.
(* numpy.argmin: the first of the smallest *)
Fixpoint argmin_from (best : Qc) (ib i : nat) (l : list Qc) : nat :=
  match l with [] => ib | x :: r => if qlt x best then argmin_from x i (S i) r else argmin_from best ib (S i) r end.
Definition argmin (l : list Qc) : res nat := match l with [] => Err ValueError | x :: r => Ok (argmin_from x 0 1 r) end.
(* gain_optimizer.py:243-305 _optimize_single_mode *)
Definition single (seg : nat) (old : option (list (list Qc))) (mode : nat) (signal : list Qc) (gmax : Qc) : res Qc :=
  let p := psd seg signal in
  let p1 := if c_mean c then match old with
                             | Some rows => map2 (fun x row => (x + nth mode row 0) / (1 + 1)) p rows
                             | None => p
                             end else p in
  let gains := linspace (gmax / qn (c_n c)) gmax (c_n c) in
  let totals := map (fun g => vsum (A := qc) (map2 Qcmult (rej seg mode g) p1)) gains in
  k <- argmin totals ;; Ok (nth k gains 0).
(* gain_optimizer.py:129-190 _optimize_gains *)
Definition ratio (l : list Qc) : res Qc :=
  match rev l with
  | a :: b :: _ => if is0 b then Err ZeroDivisionError else Ok (a / b)
  | _ => Ok 1
  end.
Definition optimize (s : opt) : res opt :=
  if (length (o_delta s) <? 2)%nat then Ok s else
  let ol := pseudo (o_delta s) (o_comm s) in
  let gm := gmaxs (o_gain s) in
  let seg := match o_seg s with Some k => k | None => Nat.min (length ol) 256 end in
  let n := length (o_gain s) in
  let old := if c_mean c then match o_psd s with Some p => Some p | None => Some (repeat (repeat 0 n) (seg / 2 + 1)) end else o_psd s in
  best <- map_res (fun m => single seg old m (map (fun row => nth m row 0) ol) (nth m gm 0)) (seq 0 n) ;;
  let g1 := if c_limit c then map2 (fun p b => p + c_inc c * (b - p)) (o_prev s) best else best in
  r <- ratio (o_optical s) ;;
  let g2 := if (2 <=? length (o_optical s))%nat then map (fun g => g * r) g1 else g1 in
  let g3 := map2 (fun g m => let v := g * c_safety c in if qlt m v then m else v) g2 gm in
  Ok (mkOpt (o_delta s) (o_comm s) (o_optical s) (Some seg) old g3 g3 (o_time s) (o_done s) (o_gain s)).

(* gain_optimizer.py:100-127 prepare_trigger and trigger_code, 394-399 post_trigger: one frame *)
Record event := mkEvent { e_t : Z; e_delta : list Qc; e_comm : list Qc; e_optical : option Qc }.
Definition due (t : Z) : res bool :=
  if (c_dt c <=? t)%Z then (if (c_dt c =? 0)%Z then Err ZeroDivisionError else Ok (t mod c_dt c =? 0)%Z) else Ok false.
Definition step (s : opt) (e : event) : res opt :=
  let s1 := mkOpt (o_delta s ++ [e_delta e]) (o_comm s ++ [e_comm e]) (match e_optical e with Some v => o_optical s ++ [v] | None => o_optical s end)
                  (o_seg s) (o_psd s) (o_prev s) (o_value s) (o_time s) (o_done s) (o_gain s) in
  d <- due (e_t e) ;;
  if d then
    s2 <- optimize s1 ;;
    Ok (mkOpt (o_delta s2) (o_comm s2) (o_optical s2) (o_seg s2) (o_psd s2) (o_prev s2) (o_value s2) (e_t e) true (o_value s2))
  else Ok (mkOpt (o_delta s1) (o_comm s1) (o_optical s1) (o_seg s1) (o_psd s1) (o_prev s1) (o_value s1) (o_time s1) false (o_gain s1)).
Definition run (gain : list Qc) (es : list event) : res opt := fold_res step (new_opt gain) es.
End Opt.
