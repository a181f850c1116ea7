(* C89: filters whose gain can be changed, and which can be reset, while they run. *)
From Coq Require Import List Bool PeanoNat ZArith QArith Qcanon Lia.
From Verif Require Import PyBase Arith ArithLemmas FilterModel FilterSpec SumLemmas FilterProofs IirProofs
  FilterFacts FilterFacts2 DynModel DynSpec DynProofs Properties_Filter.
Import ListNotations.
Local Open Scope nat_scope.

(* reading a list of events *)
Definition frame {A} (es : list (event A)) k := nth k es (mkEv ([], None) false None).
Definition resets {A} (es : list (event A)) k := ev_reset (frame es k).
Definition inputs {A} (es : list (event A)) := map (fun e => ev_in e) es.
(* the gain that event k gives to channel i; [scalar] marks the integrator, whose gain is one number *)
Definition new_gain {A} finite (scalar : bool) (es : list (event A)) i k : option A :=
  gain_for finite
    match ev_gain (frame es k) with
    | None => NoGain
    | Some (GNum x) => OneGain x
    | Some (GVec v) => if scalar then OneGain (nth 0 v 0%ar) else Gains v
    end i.
(* zero test *)
Definition zero_test {A : arith} (isz : A -> bool) := forall x, isz x = true <-> x = 0%ar.
(* coefficients of a filter with n channels *)
Definition data_of {A : arith} (isz : A -> bool) (D : idata A) n ni no := exists on od num den ig,
  D = make_data isz on od num den ig /\ length on = n /\ length od = n /\ shape num n (S ni) /\ shape den n (S no).

(* example material *)
Definition qz (x : qc) : bool := if Qc_eq_dec x 0%Qc then true else false.
Lemma qz_ok : zero_test qz.
Proof. intros x. unfold qz. change (@zer qc) with 0%Qc. destruct (Qc_eq_dec x 0%Qc); split; auto; congruence. Qed.
Definition qfin (x : qc) : bool := true.
Definition dshow (r : res (fstate qc (idata qc * (mat qc * mat qc)) * list (vec qc * vec qc))) :=
  match r with Ok (_, ys) => Some (map (fun p => (map this (fst p), map this (snd p))) ys) | Err _ => None end.
Definition ev (x : Z) (r : bool) (g : option (gval qc)) : event qc := mkEv ([qi x], None) r g.
(* two integrators, gain 2 and 1/2 *)
Definition two_dyn : idata qc :=
  make_data qz [2; 2] [2; 2] [[qi 0; qi 2]; [qi 0; qf 1 2]] [[qi (-1); qi 1]; [qi (-1); qi 1]] true.

(* ------------------------------------------------------------------ the filter *)

(* Each undelayed output solves the difference equation with the gain of the moment: the numerator is the
   original one times (gain in force / original gain), and nothing before the latest reset counts. *)
Theorem C89_equation : forall A, is_field A -> forall isz finite (D : idata A) n ni no d scalar es s ys k i,
  zero_test isz -> data_of isz D n ni no -> dyn_run finite D d scalar es = Ok (s, ys) ->
  k < length es -> i < n -> dt_integ D = true ->
  let num j := nth j (nth i (dt_num D) []) 0%ar in
  let den j := nth j (nth i (dt_den D) []) 0%ar in
  num ni <> 0%ar -> den no <> 0%ar ->
  sumn (S no) (fun j => den (no - j)%nat * back (resets es) (fun k => nd_at ys k i) k j)%ar =
  sumn (S ni) (fun j => num (ni - j)%nat * (in_force (num ni) (new_gain finite scalar es i) (S k) / num ni)
                        * gain_at n (inputs es) k i * back (resets es) (fun k => in_at n (inputs es) k i) k j)%ar.
Proof.
  intros A HF isz finite D n ni no d scalar es s ys k i IZ HD E Hk Hi Hig num den Hn Hd.
  exact (dyn_equation A HF isz finite IZ D n ni no d scalar es s ys HD E k i Hk Hi Hd Hn Hig).
Qed.
Print Assumptions C89_equation.

(* without feedback *)
Theorem C89_fir : forall A, is_field A -> forall isz finite (D : idata A) n ni no d scalar es s ys k i,
  zero_test isz -> data_of isz D n ni no -> dyn_run finite D d scalar es = Ok (s, ys) ->
  k < length es -> i < n -> dt_integ D = false ->
  let num j := nth j (nth i (dt_num D) []) 0%ar in
  let den j := nth j (nth i (dt_den D) []) 0%ar in
  num ni <> 0%ar -> den no <> 0%ar ->
  (den no * nd_at ys k i)%ar =
  sumn (S ni) (fun j => num (ni - j)%nat * (in_force (num ni) (new_gain finite scalar es i) (S k) / num ni)
                        * gain_at n (inputs es) k i * back (resets es) (fun k => in_at n (inputs es) k i) k j)%ar.
Proof.
  intros A HF isz finite D n ni no d scalar es s ys k i IZ HD E Hk Hi Hig num den Hn Hd.
  pose proof (dyn_solve A HF isz finite IZ D n ni no d scalar es s ys HD E k i Hk Hi Hd Hn) as H.
  rewrite Hig in H. rewrite (sub_zero A HF) in H. exact H.
Qed.
Print Assumptions C89_fir.

(* The delayed output is the undelayed one of m steps ago, or the interpolation of its neighbours; what lies
   before the latest reset is zero. *)
Theorem C89_delay : forall A isz finite (D : idata A) n ni no d scalar es s ys k i,
  data_of isz D n ni no -> dyn_run finite D d scalar es = Ok (s, ys) -> k < length es -> i < n ->
  out_at ys k i =
  match d with
  | DInt m => back (resets es) (fun k => nd_at ys k i) k m
  | DFrac m f => (f * back (resets es) (fun k => nd_at ys k i) k (S m) + (1 - f) * back (resets es) (fun k => nd_at ys k i) k m)%ar
  end.
Proof.
  intros A isz finite D n ni no d scalar es s ys k i HD E Hk Hi.
  pose proof (data_shape A isz D n ni no HD) as SD.
  exact (dyn_out A finite n ni no d scalar D SD es s ys (run_n A finite D n ni no d scalar es s ys SD E) k i Hk Hi).
Qed.
Print Assumptions C89_delay.

(* A frame in which a reset arrives gives, from any reachable state, exactly the state that the same frame
   gives on a new filter with the coefficients of the moment. *)
Theorem C89_reset : forall A isz finite (D : idata A) n ni no d scalar es s ys e,
  data_of isz D n ni no -> dyn_run finite D d scalar es = Ok (s, ys) -> ev_reset e = true ->
  dstep finite n d scalar s e = dstep finite n d scalar (finit n d (dyn_x0 (fst (fx s)))) e.
Proof.
  intros A isz finite D n ni no d scalar es s ys e HD E Hr.
  pose proof (data_shape A isz D n ni no HD) as SD.
  pose proof (run_n A finite D n ni no d scalar es s ys SD E) as E'.
  destruct (run_drep A finite n ni no d scalar es _ _ _ _ _ _ (drep_init A n ni no d D SD) E') as (D' & hu & hy & R).
  pose proof R as (_ & _ & ED & _). rewrite ED. exact (step_reset A finite n ni no d scalar s D' hu hy e R Hr).
Qed.
Print Assumptions C89_reset.

(* A run succeeds exactly when every input fits the number of channels and, for the integrator, every new
   gain is one number. *)
Theorem C89_ok : forall A isz finite (D : idata A) n ni no d scalar es, data_of isz D n ni no ->
  ((exists s ys, dyn_run finite D d scalar es = Ok (s, ys)) <->
   Forall (fun e => input_fits n (ev_in e) /\
     (scalar = true -> match ev_gain e with Some (GVec v) => length v = 1 | _ => True end)) es).
Proof.
  intros A isz finite D n ni no d scalar es HD. pose proof (data_shape A isz D n ni no HD) as SD.
  pose proof (run_succeeds A finite n ni no d scalar es _ _ _ _ (drep_init A n ni no d D SD)) as H.
  assert (L : dyn_run finite D d scalar es = drun finite n d scalar (finit n d (dyn_x0 D)) es).
  { unfold dyn_run. destruct SD as ((-> & _) & _). reflexivity. }
  rewrite L, H. rewrite !Forall_forall. assert (Q : forall e, (exists g, gain_of A scalar e = Ok g) <->
    (scalar = true -> match ev_gain e with Some (GVec v) => length v = 1 | _ => True end)).
  { intros e. unfold gain_of. destruct (ev_gain e) as [[x|v]|]; cbn [to_num].
    - destruct scalar; split; eauto.
    - destruct scalar; [|split; eauto; discriminate]. destruct v as [|x [|]]; cbn [length]; split; eauto; try (intros [g [=]]); intros W; specialize (W eq_refl); discriminate.
    - split; eauto. }
  split; intros F e He; (split; [apply F; auto|]); apply Q; apply F; auto.
Qed.
Print Assumptions C89_ok.

Example C89_example :
  dshow (dyn_run qfin two_dyn (DInt 1) false
    [ev 1 false None; ev 3 false (Some (GVec [qi 1])); ev 2 true None; ev 1 false (Some (GNum (qi 3)))]) =
  Some [([0; 0], [2; 1 # 2]); ([2; 1 # 2], [5; 2]); ([0; 0], [2; 1]); ([2; 1], [5; 4])]%Q.
Proof. vm_compute. reflexivity. Qed.

(* -------------------------------------------------------------- the integrator *)

(* y(k) = ff y(k-1) + g m(k) u(k), with the latest gain, y(k-1) being zero at the start and at a reset *)
Theorem C89_integrator : forall A, is_field A -> forall isz finite modes g ff ig (D : idata A) d es s ys b i k,
  zero_test isz -> dyn_integrator isz modes g ff ig = Ok D -> dyn_run finite D d true es = Ok (s, ys) ->
  in_group modes b i -> i < n_channels modes g -> k < length es -> nth b g 0%ar <> 0%ar ->
  let n := n_channels modes g in
  let past := if resets es k then 0%ar else match k with 0 => 0%ar | S k' => nd_at ys k' i end in
  nd_at ys k i = ((if ig then ff_at A g ff b * past else 0)
                 + in_force (nth b g 0) (new_gain finite true es i) (S k) * gain_at n (inputs es) k i * in_at n (inputs es) k i)%ar.
Proof.
  intros A HF isz finite modes g ff ig D d es s ys b i k IZ ED E Hb Hi Hk Hg n past.
  exact (dyn_integ A HF isz finite IZ modes g ff ig D d es s ys b i k ED E Hb Hi Hk Hg).
Qed.
Print Assumptions C89_integrator.

Definition dint (g : Z) : idata qc := match dyn_integrator qz (Some [2]) [qi g] (Some [qf 1 2]) true with Ok D => D | Err _ => two_dyn end.
Example C89_integrator_example :
  dshow (dyn_run qfin (dint 2) (DInt 0) true [ev 1 false None; ev 1 false (Some (GNum (qi 4))); ev 0 false None; ev 1 true None]) =
  Some [([2; 2], [2; 2]); ([5; 5], [5; 5]); ([5 # 2; 5 # 2], [5 # 2; 5 # 2]); ([4; 4], [4; 4])]%Q.
Proof. vm_compute. reflexivity. Qed.

(* An integrator built with gain zero stays at zero whatever gain it is given later. *)
Theorem C89_started_at_zero : forall A, is_field A -> forall isz finite modes g ff ig (D : idata A) d es s ys b i k,
  zero_test isz -> dyn_integrator isz modes g ff ig = Ok D -> dyn_run finite D d true es = Ok (s, ys) ->
  in_group modes b i -> i < n_channels modes g -> k < length es -> nth b g 0%ar = 0%ar -> nd_at ys k i = 0%ar.
Proof.
  intros A HF isz finite modes g ff ig D d es s ys b i k IZ ED E Hb Hi Hk Hg.
  exact (dyn_integ_dead A HF isz finite IZ modes g ff ig D d es s ys b i k ED E Hb Hi Hk Hg).
Qed.
Print Assumptions C89_started_at_zero.

(* ... so the recursion with the latest gain fails for it. *)
Theorem C89_gain_refuted : exists g (D : idata qc) d es s ys,
  dyn_integrator qz None g None true = Ok D /\ dyn_run qfin D d true es = Ok (s, ys) /\
  nd_at ys 0 0 <> (in_force (nth 0 g 0) (new_gain qfin true es 0) 1 * gain_at 1 (inputs es) 0 0 * in_at 1 (inputs es) 0 0)%ar.
Proof.
  pose (D := match dyn_integrator qz None [qi 0] None true with Ok D => D | Err _ => two_dyn end).
  pose (es := [ev 1 false (Some (GNum (qi 1)))]).
  assert (H : match dyn_run qfin D (DInt 0) true es with
    | Ok (_, ys) => this (nd_at ys 0 0) <> this (in_force (nth 0 [qi 0] 0) (new_gain qfin true es 0) 1 * gain_at 1 (inputs es) 0 0 * in_at 1 (inputs es) 0 0)%ar
    | Err _ => False end) by (vm_compute; discriminate).
  destruct (dyn_run qfin D (DInt 0) true es) as [[s ys]|] eqn:E; [|destruct H].
  exists [qi 0], D, (DInt 0), es, s, ys. split; [reflexivity|]. split; [exact E|]. intros Q. apply H. rewrite Q. reflexivity.
Qed.
Print Assumptions C89_gain_refuted.

(* A gain that is not one number stops the integrator: the error is not absorbed. *)
Theorem C89_protected_refuted : exists (D : idata qc) d x g,
  (exists s ys, dyn_run qfin D d true [mkEv x false None] = Ok (s, ys)) /\
  dyn_run qfin D d true [mkEv x false (Some g)] = Err AttributeError.
Proof.
  exists (dint 2), (DInt 0), ([qi 1], None), (GVec [qi 1; qi 1]). split; [|reflexivity].
  destruct (dyn_run qfin (dint 2) (DInt 0) true [mkEv ([qi 1], None) false None]) as [[s ys]|] eqn:E; [eauto|].
  assert (H : match dyn_run qfin (dint 2) (DInt 0) true [mkEv ([qi 1], None) false None] with Ok _ => True | Err _ => False end) by exact I.
  rewrite E in H. destruct H.
Qed.
Print Assumptions C89_protected_refuted.

(* -------------------------------------------------------------- the coefficients *)

(* Rows of lower order written from the left, zeros behind, are moved to the right; other rows stay. *)
Theorem C89_rows : forall (A : arith) isz o (r : vec A) j, zero_test isz -> j < length r ->
  nth j (settle isz o r) 0%ar =
  if Nat.ltb o (length r) && forallb isz (skipn o r)
  then (if Nat.ltb j (length r - o) then 0%ar else nth (j - (length r - o)) r 0%ar) else nth j r 0%ar.
Proof. intros A isz o r j IZ Hj. exact (settle_entry A isz IZ o r j Hj). Qed.
Print Assumptions C89_rows.
Example C89_rows_example : map this (settle qz 2 [qi 5; qi 7; qi 0; qi 0]) = [0; 0; 5; 7]%Q /\ map this (settle qz 2 [qi 5; qi 7; qi 0; qi 1]) = [5; 7; 0; 1]%Q.
Proof. vm_compute. split; reflexivity. Qed.

(* A new gain reaches the channels it names with a finite value: their last coefficient is the new gain and
   the others keep their ratio to it; the channels it does not reach keep their coefficients. *)
Theorem C89_set_gain : forall A, is_field A -> forall isz finite (D : idata A) n ni no g i j,
  zero_test isz -> data_of isz D n ni no -> i < n -> nth ni (nth i (dt_num D) []) 0%ar <> 0%ar ->
  let num := nth i (dt_num D) [] in
  nth j (nth i (dt_num (set_gain finite D g)) []) 0%ar =
  match gain_for finite (match g with GNum x => OneGain x | GVec v => Gains v end) i with
  | Some x => (nth j num 0 * (x / nth ni num 0))%ar
  | None => nth j num 0%ar
  end.
Proof.
  intros A HF isz finite D n ni no g i j IZ HD Hi Hn num. exact (set_gain_entry A HF isz finite IZ D n ni no g i j HD Hi Hn).
Qed.
Print Assumptions C89_set_gain.
Example C89_set_gain_example :
  map (map this) (dt_num (set_gain qfin (make_data qz [2; 2] [2; 2] [[qi 3; qi 2]; [qi 1; qi 4]] [[qi 0; qi 1]; [qi 0; qi 1]] true) (GVec [qi 6]))) =
  [[9; 6]; [1; 4]]%Q.
Proof. vm_compute. reflexivity. Qed.

(* With a last coefficient equal to zero a channel that the new gain does not reach is silenced. *)
Theorem C89_keep_refuted : exists (D : idata qc) g i j,
  data_of qz D 2 1 1 /\ i < 2 /\ gain_for qfin (Gains g) i = None /\
  nth j (nth i (dt_num (set_gain qfin D (GVec g))) []) 0%ar <> nth j (nth i (dt_num D) []) 0%ar.
Proof.
  exists (make_data qz [2; 2] [2; 2] [[qi 0; qi 2]; [qi 1; qi 0]] [[qi (-1); qi 1]; [qi (-1); qi 1]] true), [qi 6], 1, 0.
  split. { eexists _, _, _, _, _. split; [reflexivity|]. repeat split; auto; intros r [<-|[<-|[]]]; reflexivity. }
  split; [auto|]. split; [reflexivity|]. intros Q. apply (f_equal this) in Q. vm_compute in Q. discriminate.
Qed.
Print Assumptions C89_keep_refuted.

(* A vector of one gain is not spread over the channels, while one-element inputs are. *)
Theorem C89_one_for_all_refuted : exists (D : idata qc) x,
  data_of qz D 2 1 1 /\ fits 2 [x] /\ dt_gain (set_gain qfin D (GVec [x])) <> dt_gain (set_gain qfin D (GNum x)).
Proof.
  exists two_dyn, (qi 5).
  split. { eexists _, _, _, _, _. split; [reflexivity|]. repeat split; auto; intros r [<-|[<-|[]]]; reflexivity. }
  split; [right; reflexivity|]. intros Q. apply (f_equal (map this)) in Q. vm_compute in Q. discriminate.
Qed.
Print Assumptions C89_one_for_all_refuted.
