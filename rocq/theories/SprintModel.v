(* Tracking of mis-registrations from modulated slopes: specula/processing_objects/base_sprint_estimator.py.

   Simplifications.
   - Numbers are exact rationals.  A vector is a function of the index, a matrix one of row and column, their sizes are given
     beside them.  The square root, numpy.linalg.pinv and the interaction matrix of a sub-class for given mis-registration
     parameters (_compute_nominal_im) are parameters of the model.
   - demod gives the amplitude and the sign of the cosine of the phase of demodulate_signal (DemodModel) for each slope.
   - Divisions by zero in arrays give infinities in the code and zero here; the mean of no elements is zero here.  The division
     of Python floats (line 452) raises ZeroDivisionError.
   - Indices of perturbed parameters are not negative.  The messages and plots are not modelled. *)
From Coq Require Import List ZArith Bool Arith QArith Qcanon.
From Verif Require Import PyBase Arith OpticalModel SlopecSpec FilterSpec ExtModel MmseModel.
Import ListNotations.
Local Open Scope Qc_scope.

Definition tiny : Qc := Q2Qc (1 # 1000000000000).
Definition two : Qc := 1 + 1.
Definition mean (n : nat) (f : nat -> Qc) : Qc := qsum n f / qnat n.
Definition mean2 (m n : nat) (a : matrix) : Qc := qsum m (fun i => qsum n (fun j => a i j)) / (qnat m * qnat n).
(* x[k] += d *)
Fixpoint add_at (k : nat) (d : Qc) (x : list Qc) : list Qc :=
  match x, k with [], _ => [] | a :: r, O => (a + d) :: r | a :: r, S k => a :: add_at k d r end.

Record state := mkState {
  s_last : Z;                    (* last_estimation_time *)
  s_hist : list (nat -> Qc);     (* slopes_history *)
  s_mis : list Qc;               (* misreg_params *)
  s_err : Qc;                    (* current_error *)
  o_im : matrix;                 (* out_intmat *)
  o_mis : list Qc;               (* out_misreg_params *)
  o_err : Qc;                    (* out_convergence_error *)
  o_time : option Z              (* generation time of the three outputs, None before the first estimation *)
}.

Section Sprint.
Context (ns nm : nat) (pinv : matrix -> matrix) (nominal : list Qc -> matrix) (root : Qc -> Qc).
Context (demod : list (nat -> Qc) -> Qc -> nat -> Qc * Qc).
Record config := mkConfig { c_freqs : list Qc; c_dt : Z; c_max : nat; c_thr : Qc; c_abs : bool; c_gain : Qc; c_forget : Qc; c_pert : list (nat * Qc) }.

(* base_sprint_estimator.py:134-165: the checks of the constructor and the initial parameters *)
Definition new (modes : list nat) (c : config) (n_params : nat) (initial : option (list Qc)) : res state :=
  if negb (length (c_freqs c) =? length modes)%nat then Err ValueError
  else if negb (qlt 0 (c_gain c) && negb (qlt 1 (c_gain c))) then Err ValueError
  else if negb (qlt 0 (c_forget c) && negb (qlt 1 (c_forget c))) then Err ValueError
  else mis <- match initial with
              | None => Ok (repeat 0 n_params)
              | Some l => if (length l =? n_params)%nat then Ok l else Err ValueError
              end ;;
       Ok (mkState 0 [] mis 0 (fun _ _ => 0) mis 0 None).

(* base_sprint_estimator.py:236-261: _compute_sensitivity_matrices; entry p is the matrix of parameter p *)
Definition sensitivities (pert : list (nat * Qc)) (mis : list Qc) : res (nat -> matrix) :=
  fold_res (fun s pd =>
    if (fst pd <? length mis)%nat then
      let push := nominal (add_at (fst pd) (snd pd) mis) in
      let pull := nominal (add_at (fst pd) (- snd pd) mis) in
      Ok (fun q i j => if (q =? fst pd)%nat then (push i j - pull i j) / (two * snd pd) else s q i j)
    else Err IndexError) (fun _ _ _ => 0) pert.

(* base_sprint_estimator.py:474-477: _compute_optical_gains *)
Definition gains (measured nom : matrix) : nat -> Qc := fun j => mmul ns (pinv nom) measured j j.
(* base_sprint_estimator.py:479-482, 436: the corrected difference *)
Definition difference (measured nom : matrix) (g : nat -> Qc) : matrix := fun i j => measured i j * (1 / (g j + tiny)) - nom i j.
(* base_sprint_estimator.py:484-518: _estimate_misreg_correction *)
Definition correction (diff : matrix) (sens : nat -> matrix) (p : nat) : Qc :=
  mean nm (fun m => qsum ns (fun i => sens p i m * diff i m) / (qsum ns (fun i => sens p i m * sens p i m) + tiny)).

(* base_sprint_estimator.py:445-447 *)
Fixpoint update (ff gain : Qc) (delta : nat -> Qc) (mis : list Qc) : list Qc :=
  match mis with [] => [] | x :: r => (x * ff + delta 0%nat * gain) :: update ff gain (fun p => delta (S p)) r end.
(* base_sprint_estimator.py:418-465: one iteration: the new parameters, the relative error and the weighted one *)
Definition iteration (c : config) (measured : matrix) (mis : list Qc) : res (list Qc * Qc * Qc) :=
  let norm := root (mean2 ns nm (fun i j => measured i j * measured i j)) in
  let nom := nominal mis in
  let g := gains measured nom in
  sens <- sensitivities (c_pert c) mis ;;
  let diff := difference measured nom g in
  let mis' := update (c_forget c) (c_gain c) (correction diff sens) mis in
  let eabs := root (mean2 ns nm (fun i j => diff i j * diff i j)) in
  if is0 norm then Err ZeroDivisionError
  else let rel := eabs / norm in Ok (mis', rel, rel * mean nm (fun j => mabs (g j))).
Fixpoint iterate (c : config) (measured : matrix) (n : nat) (mis : list Qc) (err : Qc) : res (list Qc * Qc) :=
  match n with
  | O => Ok (mis, err)
  | S n => r <- iteration c measured mis ;;
           let '(mis', rel, weighted) := r in
           if qlt weighted (c_thr c) then Ok (mis', rel) else iterate c measured n mis' rel
  end.

(* base_sprint_estimator.py:332-389: _demodulate_slopes for ten samples or more *)
Definition measure (c : config) (hist : list (nat -> Qc)) : matrix := fun i j =>
  let a := demod hist (nth j (c_freqs c) 0) i in
  let v := fst a * snd a in
  if c_abs c then mabs v else v.
(* base_sprint_estimator.py:291-297: prepare_trigger *)
Definition prepare (slopes : nat -> Qc) (s : state) : state :=
  mkState (s_last s) (s_hist s ++ [slopes]) (s_mis s) (s_err s) (o_im s) (o_mis s) (o_err s) (o_time s).
(* base_sprint_estimator.py:299-330, 401-468: trigger_code *)
Definition trigger (c : config) (t : Z) (s : state) : res state :=
  if (t - s_last s <? c_dt c)%Z then Ok s
  else if (length (s_hist s) <? 10)%nat then Ok s
  else
    r <- iterate c (measure c (s_hist s)) (c_max c) (s_mis s) (s_err s) ;;
    Ok (mkState t [] (fst r) (snd r) (nominal (fst r)) (fst r) (snd r) (Some t)).
Definition step (c : config) (s : state) (e : Z * (nat -> Qc)) : res state := trigger c (fst e) (prepare (snd e) s).
Definition run (c : config) (s : state) (es : list (Z * (nat -> Qc))) : res state := fold_res (step c) s es.
End Sprint.
