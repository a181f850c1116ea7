(* Optical gain tracking.

   Modelled code:
   - specula/processing_objects/demodulator.py (Demodulator)
   - specula/processing_objects/optical_gain_estimator.py (OpticalGainEstimator)

   Not modelled: devices and precisions; messages; the demodulation of one signal
   (lib/demodulate_signal.py), which is a parameter; multi-dimensional data.  The optical
   gain uses the order of the numbers and is modelled over exact rationals. *)
From Coq Require Import List ZArith Bool PeanoNat QArith Qcanon.
From Verif Require Import PyBase Arith NpModel VecModel.
Import ListNotations.

(* ------------------------------------------------------------------ Demodulator *)
Section Demodulator.
Context {A F : Type} (zero : A).
(* demodulate_signal(signal, carrier frequency): the amplitude *)
Variable demod : list A -> F -> A.

Record dmcfg := mkDmc { dm_modes : list Z; dm_freqs : list F; dm_dt : Z; dm_loop : Z }.
Record dmst := mkDms { dm_hist : list (list A); dm_out : list A; dm_gt : Z }.

(* __init__, demodulator.py:14-44; [g0]: generation time of a new value *)
Definition dm_init (c : dmcfg) (g0 : Z) : dmst := mkDms [] (repeat zero (length (dm_modes c))) g0.

(* data_array[:, i] of the array made of the history; rows of different lengths cannot
   make an array *)
Definition column_i (rows : list (list A)) (i : nat) : res (list A) :=
  match rows with
  | [] => Err IndexError
  | r0 :: _ => if forallb (fun r => length r =? length r0)%nat rows
               then if (i <? length r0)%nat then Ok (map (fun r => nth i r zero) rows) else Err IndexError
               else Err ValueError
  end.

(* _perform_demodulation, demodulator.py:73-106 *)
Definition dm_perform (c : dmcfg) (s : dmst) (t : Z) : res dmst :=
  match dm_hist s with
  | [] => Ok s
  | rows =>
      values <- map_res (fun i => sig <- column_i rows i ;;
                                  match nth_error (dm_freqs c) i with Some f => Ok (demod sig f) | None => Err IndexError end)
                        (seq 0 (length (dm_modes c))) ;;
      Ok (mkDms [] values t)
  end.

(* trigger_code, demodulator.py:54-71, with one-dimensional data *)
Definition dm_trigger (c : dmcfg) (s : dmst) (t : Z) (data : list A) : res dmst :=
  let s1 := mkDms (dm_hist s ++ [data]) (dm_out s) (dm_gt s) in
  if (dm_dt c =? 0)%Z then Err ZeroDivisionError
  else if ((t + dm_loop c - dm_dt c) mod dm_dt c =? 0)%Z then dm_perform c s1 t else Ok s1.

Definition dm_run (c : dmcfg) (g0 : Z) (hist : list (Z * list A)) : res dmst :=
  fold_res (fun s f => dm_trigger c s (fst f) (snd f)) (dm_init c g0) hist.
End Demodulator.
Arguments mkDmc {F}. Arguments dm_modes {F}. Arguments dm_freqs {F}. Arguments dm_dt {F}. Arguments dm_loop {F}.
Arguments mkDms {A}. Arguments dm_hist {A}. Arguments dm_out {A}. Arguments dm_gt {A}.

(* -------------------------------------------------------- OpticalGainEstimator *)
Definition qlt (x y : Qc) : bool := if Qclt_le_dec x y then true else false.
Definition qabs (x : Qc) : Qc := if qlt x 0%Qc then (- x)%Qc else x.
Definition qmin (x y : Qc) : Qc := if qlt y x then y else x.
(* 1e-12 *)
Definition tiny : Qc := Q2Qc (1 # 1000000000000).

(* a trigger: time, demodulated delta command and its time, demodulated command and its
   time *)
Record og_frame := mkOgf { of_t : Z; of_delta : vec qc; of_dgen : Z; of_cmd : vec qc; of_cgen : Z }.
Record og_st := mkOg { og_gain : vec qc; og_gt : Z; og_out : vec qc; og_ot : Z }.

(* __init__, optical_gain_estimator.py:19-58 *)
Definition og_init (g0 : vec qc) (t0 : Z) : og_st := mkOg g0 t0 g0 t0.

(* _update_optical_gain, optical_gain_estimator.py:88-109; the truth value of an array
   that does not have exactly one element is an error *)
Definition og_update (gain : Qc) (s : og_st) (f : og_frame) : res og_st :=
  match of_cmd f with
  | [c] =>
      if qlt tiny (qabs c) then
        ratio <- bcast (A:=qc) dvd (of_delta f) [c] ;;
        let corr := map (fun r : Qc => ((1 - r) * gain)%Qc) ratio in
        step <- bcast (A:=qc) mul corr (og_gain s) ;;
        upd <- bcast (A:=qc) sub (og_gain s) step ;;
        g <- assign_all (og_gain s) upd ;;
        Ok (mkOg g (of_t f) (og_out s) (og_ot s))
      else Ok s
  | _ => Err ValueError
  end.

(* trigger_code and _calculate_output, optical_gain_estimator.py:76-86, 111-125 *)
Definition og_trigger (gain : Qc) (s : og_st) (f : og_frame) : res og_st :=
  s1 <- (if (of_dgen f =? of_t f)%Z && (of_cgen f =? of_t f)%Z then og_update gain s f else Ok s) ;;
  Ok (mkOg (og_gain s1) (og_gt s1) (map (fun x => qmin x 1%Qc) (og_gain s1)) (of_t f)).

Definition og_run (gain : Qc) (g0 : vec qc) (t0 : Z) (hist : list og_frame) : res og_st :=
  fold_res (og_trigger gain) (og_init g0 t0) hist.
