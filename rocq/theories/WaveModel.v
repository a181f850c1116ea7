(* Periodic and random signals: specula/processing_objects/wave_generator.py, random_generator.py and
   base_generator.py.

   Real numbers, no rounding.  The names of waves, distributions and laws are compared without regard to case: only the
   outcome of the comparison is kept.  Random numbers are those that the generator gives, as lists. *)
From Coq Require Import Reals ZArith List Bool.
From Verif Require Import PyBase Arith ZernModel.
Import ListNotations.
Local Open Scope R_scope.

(* ---------------------------------------------------------------- arrays of numpy *)
(* an argument: a number, or a vector *)
Inductive param := Sc (x : R) | Ve (l : list R).
Definition values (p : param) : list R := match p with Sc x => [x] | Ve l => l end.
(* an operation between two vectors, of which one may have one element *)
Definition zipb (op : R -> R -> R) (a b : list R) : res (list R) :=
  if (length a =? length b)%nat then Ok (map2 op a b)
  else match a, b with
       | [x], _ => Ok (map (op x) b)
       | _, [y] => Ok (map (fun x => op x y) a)
       | _, _ => Err ValueError
       end.
(* value[:] = c and value[...] = c, for a value with n elements *)
Definition assign (n : nat) (c : list R) : res (list R) :=
  if (length c =? n)%nat then Ok c else match c with [x] => Ok (repeat x n) | _ => Err ValueError end.

(* base_generator.py:50-71 _validate_array_sizes *)
Definition sizes (ps : list param) : list nat := flat_map (fun p => match p with Sc _ => [] | Ve l => [length l] end) ps.
Definition validate (ps : list param) : res nat :=
  match sizes ps with
  | [] => Ok 1%nat
  | n :: r => if forallb (Nat.eqb n) r then Ok n else Err ValueError
  end.
Definition longest (ps : list param) : nat := fold_right Nat.max 0%nat (map (fun p => length (values p)) ps).

(* ---------------------------------------------------------------- waves *)
Inductive kind := Sin | Square | Triangle | OtherWave.
Record wave := mkW { w_kind : kind; w_amp : param; w_freq : param; w_offset : param; w_slope : param; w_const : param; w_vsize : nat; w_out : nat }.
(* wave_generator.py:10-54 __init__; sizes that are not positive are not modelled *)
Definition wave_init (k : kind) (amp freq offset const slope : param) (vsize output_size : nat) : res wave :=
  match k with
  | OtherWave => Err ValueError
  | _ =>
      let o1 := if (output_size =? 1)%nat then longest [amp; freq; offset; slope; const] else output_size in
      let o2 := if ((o1 =? 1) && (1 <? vsize))%nat then vsize else o1 in
      _ <- validate [amp; freq; offset; slope; const] ;;
      Ok (mkW k amp freq offset slope const vsize o2)
  end.
(* numpy.sign *)
Definition sign (x : R) : R := if Rlt_dec 0 x then 1 else if Rlt_dec x 0 then -1 else 0.
(* wave_generator.py:59, 66, 74 *)
Definition shape_of (k : kind) (phase : R) : R :=
  match k with
  | Sin => sin phase
  | Square => sign (sin phase)
  | Triangle => 2 * asin (sin phase) / PI
  | OtherWave => 0
  end.
(* wave_generator.py:55-78 trigger_code at this time in seconds *)
Definition wave_trigger (w : wave) (t : R) : res (list R) :=
  p0 <- zipb Rmult (map (fun f => f * 2 * PI) (values (w_freq w))) [t] ;;
  phase <- zipb Rplus p0 (values (w_offset w)) ;;
  st <- zipb Rmult (values (w_slope w)) [t] ;;
  aw <- zipb Rmult (values (w_amp w)) (map (shape_of (w_kind w)) phase) ;;
  s1 <- zipb Rplus st aw ;;
  s2 <- zipb Rplus s1 (values (w_const w)) ;;
  v <- zipb Rmult s2 (repeat 1 (w_vsize w)) ;;
  assign (w_out w) v.

(* ---------------------------------------------------------------- random numbers *)
Inductive law := Constant | Inverse | Linear | OtherLaw.
Inductive distribution := Normal | Uniform | OtherDistribution.
(* random_generator.py:118-135: weight of the mode with this position, before the normalisation *)
Definition order_of (j : Z) : Z := ceil ((-3 + sqrt (9 + 8 * (IZR j - 1))) / 2).
Definition weight (l : law) (i : nat) : res R :=
  let n := order_of (Z.of_nat i + 1) in
  match l with
  | Constant => Ok 1
  | Inverse => Ok (if (n =? 0)%Z then 1 else 1 / IZR n)
  | Linear => Ok (if (n =? 0)%Z then 1 else 1 * IZR n)
  | OtherLaw => Err ValueError
  end.
Definition rtotal (l : list R) : R := fold_right Rplus 0 l.
(* random_generator.py:92-142 _generate_scaled_amps *)
Definition scaled_amps (modal_rms : R) (n_modes forced_zero : nat) (l : law) : res (list R) :=
  amps <- map_res (fun i => if (i <? forced_zero)%nat then Ok 0 else weight l i) (seq 0 n_modes) ;;
  let current := sqrt (rtotal (map (fun a => a ^ 2) amps)) in
  Ok (if Rlt_dec 0 current then map (fun a => a * (modal_rms / current)) amps else amps).

Record random := mkRn { r_dist : distribution; r_amp : param; r_const : param; r_vsize : nat; r_out : nat }.
(* random_generator.py:27-90 __init__ *)
Definition random_init (d : distribution) (amp : option param) (const : param) (vsize output_size : nat) (modal_rms : option R) (forced_zero : nat) (l : law) : res random :=
  a <- (match amp, modal_rms with
        | Some _, Some _ => Err ValueError
        | _, Some rms => if (output_size <? forced_zero)%nat then Err ValueError else v <- scaled_amps rms output_size forced_zero l ;; Ok (Ve v)
        | Some p, None => Ok p
        | None, None => Ok (Sc 1)
        end) ;;
  let o1 := if (output_size =? 1)%nat then Nat.max (Nat.max (length (values a)) (length (values const))) output_size else output_size in
  let o2 := if (o1 =? 1)%nat then vsize else o1 in
  match d with
  | OtherDistribution => Err ValueError
  | _ => _ <- validate [a; const] ;; Ok (mkRn d a const vsize o2)
  end.
(* random_generator.py:144-156 trigger_code; [draw]: the numbers of the generator (standard normal, or from the unit
   interval), one per element of the output; numpy.random.Generator.uniform gives low + (high - low) * draw *)
Definition random_trigger (g : random) (draw : list R) : res (list R) :=
  match r_dist g with
  | Normal =>
      a <- zipb Rmult draw (values (r_amp g)) ;;
      b <- zipb Rplus a (values (r_const g)) ;;
      v <- zipb Rmult b (repeat 1 (r_vsize g)) ;;
      assign (r_out g) v
  | Uniform =>
      let half := map (fun a => a / 2) (values (r_amp g)) in
      low <- zipb Rminus (values (r_const g)) half ;;
      high <- zipb Rplus (values (r_const g)) half ;;
      width <- zipb Rminus high low ;;
      if negb ((length width =? length draw) || (length width =? 1))%nat then Err ValueError else
      a <- zipb Rmult width draw ;;
      b <- zipb Rplus low a ;;
      v <- zipb Rmult b (repeat 1 (r_vsize g)) ;;
      assign (r_out g) v
  | OtherDistribution => Err ValueError
  end.
