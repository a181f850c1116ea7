(* Model of the trigger-order computation of specula/simul.py. *)
From Coq Require Import String List ZArith Bool.
From Verif Require Import PyBase NamesModel.
Import ListNotations.
Local Open Scope string_scope.

(* pars['inputs'].items().  Simplification: the value of 'inputs', when present,
   is a dictionary; anything else has no .items() and raises AttributeError. *)
Definition inputs_items (p : pars) : res (option (dict yval)) :=
  match dget "inputs" p with
  | None => Ok None
  | Some (YDict d) => Ok (Some d)
  | Some _ => Err AttributeError
  end.

Definition max_list (x : Z) (l : list Z) : Z := fold_left Z.max l x.

(* specula/simul.py:210-219: the loop body of is_leaf.  [md] is the Python local
   variable maxdelay, which survives from one input to the next and is unbound
   ([None]) before the first assignment. *)
Fixpoint is_leaf_items (items : dict yval) (md : option Z) : res bool :=
  match items with
  | [] => Ok true
  | (_, v) :: r =>
      md' <- match v with
             | YStr s => d <- output_delay s ;; Ok (Some d)
             | YList [] => Ok (Some (-1)%Z)
             | YList l => ds <- map_res delay_v l ;;
                          Ok (match ds with [] => Some (-1)%Z | x :: xs => Some (max_list x xs) end)
             | _ => Ok md
             end ;;
      match md' with
      | None => Err UnboundLocalError
      | Some d => if (d =? 0)%Z then Ok false else is_leaf_items r md'
      end
  end.

(* specula/simul.py:202-220 Simul.is_leaf *)
Definition is_leaf (p : pars) : res bool :=
  i <- inputs_items p ;;
  match i with None => Ok true | Some d => is_leaf_items d None end.

(* specula/simul.py:233-238: outputs_list *)
Definition outputs_list (v : yval) : res (list yval) :=
  match v with
  | YStr _ => Ok [v]
  | YList l => Ok l
  | _ => Err ValueError
  end.

(* specula/simul.py:240-245: the innermost loop of has_delayed_output *)
Fixpoint hdo_outputs (obj : string) (l : list yval) : res bool :=
  match l with
  | [] => Ok false
  | x :: r =>
      owner <- owner_v x ;; delay <- delay_v x ;;
      if String.eqb owner obj && (delay <? 0)%Z then Ok true else hdo_outputs obj r
  end.

(* specula/simul.py:232-245: loop over the inputs of one object *)
Fixpoint hdo_inputs (obj : string) (items : dict yval) : res bool :=
  match items with
  | [] => Ok false
  | (_, v) :: r =>
      l <- outputs_list v ;; b <- hdo_outputs obj l ;;
      if b then Ok true else hdo_inputs obj r
  end.

(* specula/simul.py:222-245 Simul.has_delayed_output *)
Fixpoint has_delayed_output (obj : string) (ps : params) : res bool :=
  match ps with
  | [] => Ok false
  | (_, p) :: r =>
      i <- inputs_items p ;;
      b <- match i with None => Ok false | Some d => hdo_inputs obj d end ;;
      if b then Ok true else has_delayed_output obj r
  end.

(* specula/simul.py:867-884: the inputs of one object without the references to
   [obj].  The Python code edits a deep copy; list inputs are filtered, string
   inputs deleted, other values left alone. *)
Fixpoint remove_items (obj : string) (items : dict yval) : res (dict yval) :=
  match items with
  | [] => Ok []
  | (k, v) :: r =>
      match v with
      | YStr s =>
          o <- output_owner s ;; r' <- remove_items obj r ;;
          Ok (if String.eqb o obj then r' else (k, v) :: r')
      | YList l =>
          l' <- filter_res (fun x => o <- owner_v x ;; Ok (negb (String.eqb o obj))) l ;;
          r' <- remove_items obj r ;; Ok ((k, YList l') :: r')
      | _ => r' <- remove_items obj r ;; Ok ((k, v) :: r')
      end
  end.

Definition remove_from (obj : string) (p : pars) : res pars :=
  i <- inputs_items p ;;
  match i with
  | None => Ok p
  | Some d => d' <- remove_items obj d ;; Ok (dset "inputs" (YDict d') p)
  end.

(* specula/simul.py:861-885 Simul.remove_inputs *)
Fixpoint remove_inputs (obj : string) (ps : params) : res params :=
  match ps with
  | [] => Ok []
  | (k, p) :: r =>
      p' <- remove_from obj p ;; r' <- remove_inputs obj r ;; Ok ((k, p') :: r')
  end.

(* specula/simul.py:260: names of the leaves at the start of a round *)
Fixpoint find_leaves (ps : params) : res (list string) :=
  match ps with
  | [] => Ok []
  | (k, p) :: r =>
      b <- is_leaf p ;; ls <- find_leaves r ;; Ok (if b then k :: ls else ls)
  end.

(* state of the algorithm: remaining parameters and the trigger order so far,
   as (name, index) pairs in order of insertion (the Python code keeps the two
   lists order and order_index in parallel). *)
Definition tstate := (params * list (string * nat))%type.

(* specula/simul.py:264-270: body of the loop over leaves *)
Definition trig_leaf (index : nat) (st : tstate) (leaf : string) : res tstate :=
  let (ps, order) := st in
  b <- has_delayed_output leaf ps ;;
  if b then Ok st
  else ps' <- remove_inputs leaf (ddel leaf ps) ;; Ok (ps', (order ++ [(leaf, index)])%list).

(* specula/simul.py:259-273: the rounds.  [fuel] bounds the number of rounds;
   build_trigger_order supplies enough, see TrigOrderProofs. *)
Fixpoint trig_rounds (fuel index : nat) (st : tstate) : res tstate :=
  match fuel with
  | O => Err OutOfFuel
  | S f =>
      leaves <- find_leaves (fst st) ;;
      match leaves with
      | [] => Ok st
      | _ =>
          st' <- fold_res (trig_leaf index) st leaves ;;
          if Nat.eqb (length (fst st)) (length (fst st')) then Err ValueError
          else trig_rounds f (S index) st'
      end
  end.

(* specula/simul.py:247-276 Simul.build_trigger_order; returns (order, order_index).
   The warning about objects left out is not modelled (print only). *)
Definition build_trigger_order (ps : params) : res (list string * list nat) :=
  st <- trig_rounds (S (length ps)) 0 (ps, []) ;;
  Ok (map fst (snd st), map snd (snd st)).
