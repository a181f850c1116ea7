(* Dark frames measured while the simulation runs.
   Modelled code: specula/processing_objects/dynamic_dark_calibrator.py (DynamicDarkCalibrator).
   Images are the lists of their pixels, all of the size fixed by setup (lines 139-154).  Saving
   (lines 210-231) is not modelled. *)
From Coq Require Import List Bool PeanoNat ZArith.
From Verif Require Import PyBase Arith MultirateModel.
Import ListNotations.
Local Open Scope ar_scope.
Section Dark.
Context {A : arith}.
(* dynamic_dark_calibrator.py:97-123: number of frames, frames still to come, their sum so far, the two outputs with their
   generation times *)
Record dark := mkDk { k_n : nat; k_left : nat; k_sum : vec A; k_dark : vec A; k_dark_t : Z; k_sub : vec A; k_sub_t : Z }.
(* dynamic_dark_calibrator.py:94-97 and setup; generation times start at -1, base_time_obj.py *)
Definition dark_init (n size : nat) : res dark :=
  if Nat.eqb n 0 then Err ValueError else Ok (mkDk n 0 (zeros size) (zeros size) (-1) (zeros size) (-1)).
(* One frame: time, pixels, whether a trigger and a reset arrive; a new number of frames (None when it is
   not a number); a file to load (None when it cannot be read, else its pixels). *)
Record dframe := mkDF { d_time : Z; d_pix : vec A; d_trigger : bool; d_reset : bool; d_n : option (option Z); d_load : option (option (vec A)) }.
(* dynamic_dark_calibrator.py:175-208 prepare_trigger.  The handlers of lines 195 and 207 raise AttributeError, an exception
   object having no attribute __name__.  Pixels.restore is a static method returning a new object
   (pixels.py:144-149), which line 205 drops. *)
Definition dark_prepare (s : dark) (e : dframe) : res dark :=
  let left := if d_trigger e then k_n s else k_left s in
  let dk := if d_reset e then map (fun x => x * 0) (k_dark s) else k_dark s in
  n <- match d_n e with
       | None => Ok (k_n s)
       | Some (Some z) => if (z <=? 0)%Z then Err AttributeError else Ok (Z.to_nat z)
       | Some None => Err AttributeError
       end ;;
  t <- match d_load e with
       | None => Ok (k_dark_t s)
       | Some (Some _) => Ok (d_time e)
       | Some None => Err AttributeError
       end ;;
  Ok (mkDk n left (k_sum s) dk t (k_sub s) (k_sub_t s)).
(* dynamic_dark_calibrator.py:156-173 trigger_code *)
Definition dark_trigger (s : dark) (e : dframe) : dark :=
  let sub := vsub (d_pix e) (k_dark s) in
  match k_left s with
  | 0%nat => mkDk (k_n s) 0 (k_sum s) (k_dark s) (k_dark_t s) sub (d_time e)
  | S m =>
      let sum := vadd (k_sum s) (d_pix e) in
      match m with
      | 0%nat => mkDk (k_n s) 0 (map (fun x => x * 0) sum) (map (fun x => x / of_nat (k_n s)) sum) (d_time e) sub (d_time e)
      | _ => mkDk (k_n s) m sum (k_dark s) (k_dark_t s) sub (d_time e)
      end
  end.
Definition dark_step (s : dark) (e : dframe) : res dark := s1 <- dark_prepare s e ;; Ok (dark_trigger s1 e).
Definition dark_run (s : dark) (es : list dframe) : res dark := fold_res dark_step s es.
End Dark.
Arguments dark : clear implicits. Arguments dframe : clear implicits.
