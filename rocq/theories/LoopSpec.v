(* Specification vocabulary for the simulation loop. *)
From Coq Require Import String List ZArith Bool.
From Verif Require Import PyBase TrigOrderSpec LoopModel.
Import ListNotations.
Local Open Scope Z_scope.

(* ---- the order of calls (C14) ---- *)

(* Calls made for one trigger list: all checks, then the triggers and then the
   post-triggers of the objects that were found ready. *)
Definition group_calls (t : Z) (ready : string -> bool) (g : list string) : list ev :=
  map (fun o => ECheck o t (ready o)) g ++
  map (fun o => ETrig o t) (filter ready g) ++
  map (fun o => EPost o t) (filter ready g).

Definition iter_calls (t : Z) (last : bool) (ready : string -> bool) (gs : list (list string)) : list ev :=
  EIter t last :: concat (map (group_calls t ready) gs).

(* [iters_calls gs t dt l log]: iterations at t, t+dt, ... with "last" flags [l]. *)
Fixpoint iters_calls (gs : list (list string)) (t dt : Z) (ready : list (string -> bool)) (last : list bool) : list ev :=
  match ready, last with
  | r :: rs, b :: bs => iter_calls t b r gs ++ iters_calls gs (t + dt) dt rs bs
  | _, _ => []
  end.

(* iterations recorded in a trace *)
Definition iter_times (l : list ev) : list (Z * bool) :=
  flat_map (fun e => match e with EIter t b => [(t, b)] | _ => [] end) l.

(* ---- synchronous semantics (C15) ---- *)
Section Sync.
Variables St Dt : Type.
Variable outs : St -> option string -> list Dt.
Variable gtime : Dt -> option Z.
Variable cod : string -> code St Dt.

(* What the inputs contain when undelayed references show the values produced in
   this iteration ([new]) and delayed ones those of the previous one ([old]). *)
Definition sync_input (old new : string -> St) (i : input) : res (ival Dt) :=
  let l := flat_map (fun s => outs (if s_delay s <? 0 then old (s_obj s) else new (s_obj s)) (s_key s)) (i_src i) in
  if i_list i then Ok (IList l)
  else match l with
       | [] => if i_opt i then Ok INone else Err ValueError
       | [d] => Ok (IOne d)
       | _ => Err ValueError
       end.

Definition sync_view (old new : string -> St) (ins : list input) : res (view Dt) :=
  map_res (fun i => v <- sync_input old new i ;; Ok (i_name i, v)) ins.

(* An input is fresh at time t if one of its data objects has a generation time >= t. *)
Definition fresh (t : Z) (v : view Dt) : Prop :=
  exists n iv d g, In (n, iv) v /\ In d (ival_data Dt iv) /\ gtime d = Some g /\ t <= g.

(* When an object must be triggered (C13). *)
Definition must_trigger (t : Z) (ins : list input) (v : view Dt) : Prop :=
  ins = [] \/
  ((forall i, In i ins -> i_opt i = true) /\ (forall n iv, In (n, iv) v -> iv = INone)) \/
  fresh t v.

(* One synchronous step of object [o]: skipped, or its three methods in sequence on
   the same inputs. *)
Definition sync_step (o : string) (t : Z) (old new : string -> St) (s' : St) : Prop :=
  exists v, sync_view old new (c_inputs St Dt (cod o)) = Ok v /\
  ((~ must_trigger t (c_inputs St Dt (cod o)) v /\ s' = old o) \/
   (must_trigger t (c_inputs St Dt (cod o)) v /\
    exists s1 s2, c_prep St Dt (cod o) t v (old o) = Ok s1 /\
                  c_trig St Dt (cod o) t v s1 = Ok s2 /\
                  c_post St Dt (cod o) t v s2 = Ok s')).

Definition has_src (o : string) (s : src) : Prop :=
  exists i, In i (c_inputs St Dt (cod o)) /\ In s (i_src i).

(* [a] comes before [b] in the list *)
Definition before {A} (a b : A) (l : list A) : Prop := exists l1 l2 l3, l = l1 ++ a :: l2 ++ b :: l3.

(* The ordering guarantees of C02 and C04. *)
Definition respects (ord : order) : Prop :=
  forall o j s k, In (o, j) ord -> has_src o s -> In (s_obj s, k) ord ->
  (0 <= s_delay s -> (k < j)%nat) /\
  (s_delay s < 0 -> (j <= k)%nat /\ before (o, j) (s_obj s, k) ord).

(* Two objects of the same trigger list, one reading the other with a delay: the
   reader must not look at its inputs in post_trigger(), and the producer must not
   change its outputs in prepare_trigger(). *)
Definition tame (ord : order) : Prop :=
  forall o j s, In (o, j) ord -> has_src o s -> s_delay s < 0 -> In (s_obj s, j) ord ->
  (forall t v v' x, c_post St Dt (cod o) t v x = c_post St Dt (cod o) t v' x) /\
  (forall t v x x' k, c_prep St Dt (cod (s_obj s)) t v x = Ok x' -> outs x' k = outs x k).

(* The connections are those written in the configuration. *)
Definition wired (ps : params) : Prop :=
  forall o s, has_src o s -> reads ps o (s_obj s) (s_delay s).

(* Methods change generation times only to the current time. *)
Definition stamps (o : string) : Prop :=
  forall f, f = c_prep St Dt (cod o) \/ f = c_trig St Dt (cod o) \/ f = c_post St Dt (cod o) ->
  forall t v s s' k d g, f t v s = Ok s' -> In d (outs s' k) -> gtime d = Some g ->
    g = t \/ exists k0 d0, In d0 (outs s k0) /\ gtime d0 = Some g.

(* All generation times of the object are at most [b]. *)
Definition times_le (b : Z) (w : string -> St) (o : string) : Prop :=
  forall k d g, In d (outs (w o) k) -> gtime d = Some g -> g <= b.

(* Two loops at the same point of the same time axis. *)
Definition same_clock (l1 l2 : loop St) : Prop :=
  l_run _ l1 = l_run _ l2 /\ l_dt _ l1 = l_dt _ l2 /\ l_t0 _ l1 = l_t0 _ l2 /\ l_t _ l1 = l_t _ l2.

End Sync.
