(* Model of a simulation distributed over several processes (MPI).

   Modelled code:
   - specula/simul.py:616-650 (connect: remote outputs and remote inputs)
   - specula/simul.py:1143-1149 (each process adds its own objects to its loop)
   - specula/loop_control.py:70-167 (start, iter: order of sends and receives, barriers)
   - specula/base_processing_obj.py:155-206 (send_remote_output, send_outputs)
   - specula/connections.py:31-75 (_InputItem.get of a remote input)

   Each process runs a straight-line program of elementary operations: it receives the
   remote inputs of an object, calls one of its methods, sends its remote outputs, or
   waits at a barrier.  Any process may make the next move; nothing else is assumed
   about their relative speed.

   Simplifications.
   - Sends are buffered and never block (ibsend); messages of one connection are received
     in the order in which they were sent; each connection has its own channel, i.e. tags
     do not collide (see TagModel.v).
   - A channel carries whole data objects; how they are encoded (pickle or raw buffer plus
     time stamp) is modelled in ConnModel.v.
   - One message is sent for each element of a list output, and one is received for each
     connection, as in the code.
   - The order of the sends inside one call of send_outputs is that of the receiving
     objects instead of the order of output names; they go to different channels.
   - Data objects exist in every process (simul.py:371-379 without target_rank). *)
From Coq Require Import String List ZArith Bool.
From Verif Require Import PyBase LoopModel.
Import ListNotations.

(* A remote connection: receiving object, name of its input, referenced output. *)
Record conn := mkConn { cn_dst : string; cn_in : string; cn_src : src }.

Definition src_eq_dec (a b : src) : {a = b} + {a <> b}.
Proof. decide equality; [apply Z.eq_dec|decide equality; apply string_dec|apply string_dec]. Defined.
Definition conn_eq_dec (a b : conn) : {a = b} + {a <> b}.
Proof. decide equality; [apply src_eq_dec|apply string_dec|apply string_dec]. Defined.

Definition cupd {A} (f : conn -> A) (c : conn) (v : A) : conn -> A :=
  fun c' => if conn_eq_dec c c' then v else f c'.

(* Methods called by the loop *)
Inductive act := ASetup | ACheck (t : Z) | ATrig (t : Z) | APost (t : Z).

(* Elementary operations of a process *)
Inductive op :=
| Push (c : conn)          (* send_remote_output *)
| Pop (c : conn)           (* receive_new_value *)
| Do (a : act) (o : string)
| Barrier.

Section Dist.
Variables St Dt : Type.
Variable outs : St -> option string -> list Dt.
Variable gtime : Dt -> option Z.
Variable cod : string -> code St Dt.

(* simul.py:367-384: rank of the processing objects; None for data objects, which exist
   in every process *)
Variable rank : string -> option nat.

Definition rank_eqb (a b : option nat) : bool :=
  match a, b with Some x, Some y => Nat.eqb x y | None, None => true | _, _ => false end.

(* simul.py:630-633: the output lives in another process *)
Definition remote (o : string) (s : src) : bool :=
  match rank (s_obj s) with
  | None => false
  | Some r => negb (rank_eqb (rank o) (Some r))
  end.

(* simul.py:638-642: the remote items of the inputs of [o], in the order of
   get_all_inputs *)
Definition rconns (o : string) : list conn :=
  flat_map (fun i => map (mkConn o (i_name i)) (filter (remote o) (i_src i)))
           (c_inputs St Dt (cod o)).

(* simul.py:647-650: the remote outputs of [p]; [objs] are the objects of the
   configuration *)
Definition sconns (objs : list string) (p : string) : list conn :=
  filter (fun c => String.eqb (s_obj (cn_src c)) p) (flat_map rconns objs).

Definition delayed (c : conn) : bool := (s_delay (cn_src c) <? 0)%Z.

(* The states of all processes except their programs, and the channels. *)
Record core := mkCore {
  k_st : string -> St;             (* private states *)
  k_chg : string -> bool;          (* inputs_changed *)
  k_box : conn -> list Dt;         (* cloned_value of each remote item *)
  k_ch : conn -> list Dt           (* messages under way *)
}.

(* connections.py:56-75, 95-96, 141-150: remote items give the copy received last *)
Definition dget_input (k : core) (o : string) (i : input) : res (ival Dt) :=
  let l := flat_map (fun s => if remote o s then k_box k (mkConn o (i_name i) s)
                              else outs (k_st k (s_obj s)) (s_key s)) (i_src i) in
  if i_list i then Ok (IList l)
  else match l with
       | [] => if i_opt i then Ok INone else Err ValueError
       | [d] => Ok (IOne d)
       | _ => Err ValueError
       end.
Definition dget_view (k : core) (o : string) (ins : list input) : res (view Dt) :=
  map_res (fun i => v <- dget_input k o i ;; Ok (i_name i, v)) ins.

Definition set_st (k : core) (o : string) (s : St) (b : bool) : core :=
  mkCore (fupd (k_st k) o s) (fupd (k_chg k) o b) (k_box k) (k_ch k).

(* one method call; the same code as in LoopModel.v, reading the inputs with dget_view.
   ATrig and APost do nothing for objects that are not ready (loop_control.py:135-150). *)
Definition do_act (a : act) (o : string) (k : core) : res core :=
  let ins := c_inputs St Dt (cod o) in
  match a with
  | ASetup =>
      s <- c_setup St Dt (cod o) (dget_view k o ins) (k_st k o) ;;
      Ok (set_st k o s (k_chg k o))
  | ACheck t =>
      v <- dget_view k o ins ;;
      let b := triggers Dt gtime t ins v in
      s <- (if b then c_prep St Dt (cod o) t v (k_st k o) else Ok (k_st k o)) ;;
      Ok (set_st k o s b)
  | ATrig t =>
      if k_chg k o then
        v <- dget_view k o ins ;;
        s <- c_trig St Dt (cod o) t v (k_st k o) ;;
        Ok (set_st k o s (k_chg k o))
      else Ok k
  | APost t =>
      if k_chg k o then
        v <- dget_view k o ins ;;
        s <- c_post St Dt (cod o) t v (k_st k o) ;;
        Ok (set_st k o s false)
      else Ok k
  end.

(* [None]: the operation cannot be executed now (waiting for a message) *)
Definition exec (x : op) (k : core) : option (res core) :=
  match x with
  | Push c =>
      Some (Ok (mkCore (k_st k) (k_chg k) (k_box k)
              (cupd (k_ch k) c (k_ch k c ++ outs (k_st k (s_obj (cn_src c))) (s_key (cn_src c))))))
  | Pop c =>
      match k_ch k c with
      | [] => None
      | d :: r => Some (Ok (mkCore (k_st k) (k_chg k) (cupd (k_box k) c [d]) (cupd (k_ch k) c r)))
      end
  | Do a o => Some (do_act a o k)
  | Barrier => None
  end.

(* ------------------------------------------------------- the program of a process *)
Section Prog.
Variable objs : list string.        (* all objects of the configuration *)

(* loop_control.py:79-82 *)
Definition pre_ops (gs : list (list string)) : list op :=
  flat_map (fun o => map Push (sconns objs o)) (concat gs).
(* loop_control.py:90-109; every setup() fetches all inputs once
   (base_processing_obj.py:267, data_store.py:236, data_buffer.py:66) *)
Definition setup_ops (gs : list (list string)) : list op :=
  flat_map (fun o => map Pop (rconns o) ++ Do ASetup o :: map Push (filter delayed (sconns objs o)))
           (concat gs).
(* loop_control.py:126-153 for one trigger list *)
Definition group_ops (t : Z) (last : bool) (g : list string) : list op :=
  flat_map (fun o => map Pop (rconns o) ++ [Do (ACheck t) o]) g ++
  map (Do (ATrig t)) g ++
  flat_map (fun o => Do (APost t) o ::
                     map Push (filter (fun c => negb (delayed c && last)) (sconns objs o))) g.
Definition iter_ops (gs : list (list string)) (tl : Z * bool) : list op :=
  flat_map (group_ops (fst tl) (snd tl)) gs.
(* loop_control.py:44-119: [its] are the times of the iterations with the flag last_iter.
   finalize() is not included. *)
Definition run_ops (gs : list (list string)) (its : list (Z * bool)) : list op :=
  pre_ops gs ++ Barrier :: setup_ops gs ++ Barrier :: flat_map (iter_ops gs) its.
End Prog.

(* simul.py:1143-1147: the objects of process [r] *)
Definition local_order (ord : order) (r : nat) : order :=
  filter (fun oi => rank_eqb (rank (fst oi)) (Some r)) ord.

Definition program (ord : order) (its : list (Z * bool)) (r : nat) : list op :=
  run_ops (map fst ord) (groups (local_order ord r)) its.

(* ------------------------------------------------------------- interleaved execution *)

Definition conf := (core * (nat -> list op))%type.

(* states are compared element by element *)
Definition core_eq (a b : core) : Prop :=
  (forall o, k_st a o = k_st b o) /\ (forall o, k_chg a o = k_chg b o) /\
  (forall c, k_box a c = k_box b c) /\ (forall c, k_ch a c = k_ch b c).
Definition conf_eq (a b : conf) : Prop := core_eq (fst a) (fst b) /\ forall r, snd a r = snd b r.

Definition pupd (p : nat -> list op) (r : nat) (l : list op) : nat -> list op :=
  fun r' => if Nat.eqb r r' then l else p r'.

(* One step of [n] processes: some process executes its next operation, or all of them
   pass a barrier together. *)
Inductive step (n : nat) : conf -> conf -> Prop :=
| step_op r x rest k p k' s' :
    (r < n)%nat -> p r = x :: rest -> exec x k = Some (Ok k') ->
    conf_eq (k', pupd p r rest) s' -> step n (k, p) s'
| step_barrier k p p' s' :
    (0 < n)%nat -> (forall r, (r < n)%nat -> p r = Barrier :: p' r) ->
    (forall r, (n <= r)%nat -> p' r = p r) ->
    conf_eq (k, p') s' -> step n (k, p) s'.

Inductive steps (n : nat) : nat -> conf -> conf -> Prop :=
| steps_0 s s' : conf_eq s s' -> steps n 0 s s'
| steps_S m s s1 s2 : step n s s1 -> steps n m s1 s2 -> steps n (S m) s s2.

Definition reachable (n : nat) (s s' : conf) : Prop := exists m, steps n m s s'.

(* all programs have been carried out *)
Definition finished (n : nat) (s : conf) : Prop := forall r, (r < n)%nat -> snd s r = [].

(* process [r] is stopped by an exception *)
Definition raises (s : conf) (r : nat) : Prop :=
  exists x rest e, snd s r = x :: rest /\ exec x (fst s) = Some (Err e).

(* initially nothing has been sent *)
Definition start (st : string -> St) (chg : string -> bool) (ord : order) (its : list (Z * bool)) : conf :=
  (mkCore st chg (fun _ => []) (fun _ => []), program ord its).

End Dist.
Arguments mkCore {St Dt}. Arguments k_st {St Dt}. Arguments k_chg {St Dt}.
Arguments k_box {St Dt}. Arguments k_ch {St Dt}.
