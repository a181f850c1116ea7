(* Low-pass filters: specula/processing_objects/low_pass_filter.py and the constructors it uses in
   specula/data_objects/iir_filter_data.py.

   Simplifications.
   - Numbers are exact rationals.  The tangent of pi x, the sine and cosine of 2 pi x and the cosines of
     pi (2 k + 1) / (2 n) are parameters.  Divisions by zero, which give infinities in numpy, give zero.
   - Frequencies and amplifications are lists (numpy makes a list of one of a number).
   - The object that stores the coefficients and the filter that runs them are other models (DynModel, FilterModel): a result
     here is the list of the rows given to them. *)
From Coq Require Import List ZArith Bool Arith QArith Qcanon.
From Verif Require Import PyBase OpticalModel InterpModel ExtModel.
Import ListNotations.
Local Open Scope Qc_scope.

(* numpy.convolve of two vectors of coefficients *)
Fixpoint padd (a b : list Qc) : list Qc :=
  match a, b with [], _ => b | _, [] => a | x :: a, y :: b => (x + y) :: padd a b end.
Fixpoint conv (a b : list Qc) : list Qc :=
  match a with [] => [] | x :: a => padd (map (fun y => x * y) b) (0 :: conv a b) end.

(* a row: numerator and denominator, lowest power first, and the number of coefficients in use *)
Record row := mkRow { r_num : list Qc; r_den : list Qc; r_ord : nat }.

Section Lpf.
Context (tanpi sin2pi cos2pi : Qc -> Qc) (pole : Z -> nat -> Qc).
Definition two : Qc := qz 2.
(* iir_filter_data.py:893-905: section k of a filter of order n *)
Definition section_num (omega c : Qc) : list Qc :=
  let ck := 1 + two * c * omega + omega * omega in let a0 := omega * omega / ck in [a0; two * a0; a0].
Definition section_den (omega c : Qc) : list Qc :=
  let ck := 1 + two * c * omega + omega * omega in
  [(1 - two * c * omega + omega * omega) / ck; two * (omega * omega - 1) / ck; 1].
(* iir_filter_data.py:881-909 *)
Definition butterworth (n : Z) (omega : Qc) : list Qc * list Qc :=
  if (n =? 1)%Z then let a0 := omega / (1 + omega) in ([0; a0], [- (1 - a0); 1])
  else fold_left (fun nd k => (conv (fst nd) (section_num omega (pole n k)), conv (snd nd) (section_den omega (pole n k))))
         (seq 0 (Z.to_nat (n / 2))) ([1], [1]).
(* iir_filter_data.py:911-919 *)
Definition padded (w : nat) (l : list Qc) : list Qc := repeat 0 (w - length l) ++ l.
Definition placed (w : nat) (nd : list Qc * list Qc) : res row :=
  if (w <? length (fst nd))%nat then Err ValueError else Ok (mkRow (padded w (fst nd)) (padded w (snd nd)) (length (fst nd))).
(* iir_filter_data.py:853-921 lpf_from_fc *)
Definition lpf_from_fc (fc : list Qc) (fs : Qc) (n_ord : option Z) : res (list row) :=
  match n_ord with
  | None => Err TypeError
  | Some n =>
      if negb (n =? 1)%Z && negb (n mod 2 =? 0)%Z then Err ValueError
      else
        let w := if (n =? 1)%Z then 2%Z else (2 * n + 1)%Z in
        if (w <? 0)%Z then Err ValueError
        else map_res (fun f => if qlt f (fs / two) then placed (Z.to_nat w) (butterworth n (tanpi (f / fs))) else Err ValueError) fc
  end.
(* iir_filter_data.py:949-966: one row *)
Definition resonant (f fs ampl : Qc) : row :=
  let c := cos2pi (f / fs) in
  let alpha := sin2pi (f / fs) / (two * ampl) in
  let b0 := 1 + alpha in
  mkRow [(1 - c) / two / b0; (1 - c) / b0; (1 - c) / two / b0] [(1 - alpha) / b0; - two * c / b0; 1] 3.
(* iir_filter_data.py:923-973 lpf_from_fc_and_ampl *)
Definition lpf_from_fc_and_ampl (fc ampl : list Qc) (fs : Qc) : res (list row) :=
  amp <- (if (length ampl =? length fc)%nat then Ok ampl else match ampl with [a] => Ok (repeat a (length fc)) | _ => Err ValueError end) ;;
  map_res (fun p => if qlt (fst p) (fs / two) then Ok (resonant (fst p) fs (snd p)) else Err ValueError) (combine fc amp).
(* low_pass_filter.py:13-36: LowPassFilter, as far as the coefficients *)
Definition low_pass (time_step : Qc) (fc : list Qc) (ampl : option (list Qc)) (n_ord : option Z) : res (list row) :=
  if is0 time_step then Err ZeroDivisionError
  else
    let fs := 1 / time_step in
    match ampl with
    | Some a => match n_ord with Some _ => Err ValueError | None => lpf_from_fc_and_ampl fc a fs end
    | None => lpf_from_fc fc fs n_ord
    end.
End Lpf.
