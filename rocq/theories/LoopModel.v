(* Model of the single-process simulation loop: specula/loop_control.py,
   specula/base_processing_obj.py and specula/connections.py.

   Processing objects are arbitrary: each has a private state of type [St]
   (outputs included) and arbitrary code for the life-cycle methods that derived
   classes override.  Data objects (type [Dt]) only expose their generation time.

   Simplifications.
   - An object writes only its own state; it reads other objects only through its
     inputs.  (Aliasing of arrays between different objects is not modelled here;
     aliasing inside an object, such as outputs that are views of an internal
     buffer, is: the outputs are a function of the private state.)
   - All objects are on one device and in one process, so that get() returns
     references to the producers' data objects; see ConnModel.v for the copies.
   - Printing, memory accounting, profiling and stepping are not modelled. *)
From Coq Require Import String List ZArith Bool.
From Verif Require Import PyBase.
Import ListNotations.
Local Open Scope Z_scope.

(* Trace of the calls made by the loop. *)
Inductive ev :=
| ESetup (o : string)
| EIter (t : Z) (last : bool)
| ECheck (o : string) (t : Z) (changed : bool)
| ETrig (o : string) (t : Z)
| EPost (o : string) (t : Z)
| EFinal (o : string).

(* One connected output: specula/connections.py:6-29 _InputItem (local case) with
   the delay written in the reference. *)
Record src := mkSrc { s_obj : string; s_key : option string; s_delay : Z }.

(* specula/connections.py:78-94 InputList, 127-136 InputValue *)
Record input := mkInput { i_name : string; i_opt : bool; i_list : bool; i_src : list src }.

Section Loop.
Variables St Dt : Type.
(* data objects behind outputs[key] (key = None: the object itself); several for
   outputs that are lists *)
Variable outs : St -> option string -> list Dt.
(* BaseDataObj.generation_time, None allowed by specula/base_processing_obj.py:85 *)
Variable gtime : Dt -> option Z.

(* content of local_inputs[name] *)
Inductive ival := INone | IOne (d : Dt) | IList (l : list Dt).
Definition view := list (string * ival).

(* the methods of a processing object, overridden by derived classes *)
Record code := mkCode {
  c_inputs : list input;
  c_setup : res view -> St -> res St;
  c_prep : Z -> view -> St -> res St;
  c_trig : Z -> view -> St -> res St;
  c_post : Z -> view -> St -> res St;
  c_final : res view -> St -> res St
}.

Variable cod : string -> code.

Record world := mkWorld {
  w_st : string -> St;      (* private states *)
  w_chg : string -> bool;   (* inputs_changed *)
  w_log : list ev
}.

Definition fupd {A} (f : string -> A) (k : string) (v : A) : string -> A :=
  fun k' => if String.eqb k k' then v else f k'.

(* specula/connections.py:95-96 InputList.get and 141-150 InputValue.get *)
Definition get_input (w : string -> St) (i : input) : res ival :=
  let l := flat_map (fun s => outs (w (s_obj s)) (s_key s)) (i_src i) in
  if i_list i then Ok (IList l)
  else match l with
       | [] => if i_opt i then Ok INone else Err ValueError
       | [d] => Ok (IOne d)
       | _ => Err ValueError
       end.

(* specula/base_processing_obj.py:91-103 get_all_inputs *)
Definition get_view (w : string -> St) (ins : list input) : res view :=
  map_res (fun i => v <- get_input w i ;; Ok (i_name i, v)) ins.

Definition ival_data (v : ival) : list Dt :=
  match v with INone => [] | IOne d => [d] | IList l => l end.

Definition is_INone (v : ival) : bool := match v with INone => true | _ => false end.

(* specula/base_processing_obj.py:62-89 checkInputTimes, given the inputs just read *)
Definition triggers (t : Z) (ins : list input) (v : view) : bool :=
  match ins with
  | [] => true
  | _ =>
      if forallb (fun iv => i_opt (fst iv) && is_INone (snd (snd iv))) (combine ins v) then true
      else existsb (fun nv => existsb (fun d => match gtime d with Some g => t <=? g | None => false end)
                                      (ival_data (snd nv))) v
  end.

(* specula/base_processing_obj.py:233-244 check_ready *)
Definition check_one (t : Z) (w : world) (o : string) : res world :=
  let ins := c_inputs (cod o) in
  v <- get_view (w_st w) ins ;;
  let b := triggers t ins v in
  s <- (if b then c_prep (cod o) t v (w_st w o) else Ok (w_st w o)) ;;
  Ok (mkWorld (fupd (w_st w) o s) (fupd (w_chg w) o b) (w_log w ++ [ECheck o t b])).

(* specula/base_processing_obj.py:246-257 trigger.  The inputs were fetched by
   check_ready; they are references, so that the current content is seen. *)
Definition obj_trigger (t : Z) (w : world) (o : string) : res world :=
  if negb (w_chg w o) then Err RuntimeError
  else
    v <- get_view (w_st w) (c_inputs (cod o)) ;;
    s <- c_trig (cod o) t v (w_st w o) ;;
    Ok (mkWorld (fupd (w_st w) o s) (w_chg w) (w_log w ++ [ETrig o t])).

(* specula/base_processing_obj.py:138-153 post_trigger, followed by the code of the
   derived class.  The flag is reset before that code, which cannot see it. *)
Definition obj_post (t : Z) (w : world) (o : string) : res world :=
  if negb (w_chg w o) then Err RuntimeError
  else
    v <- get_view (w_st w) (c_inputs (cod o)) ;;
    s <- c_post (cod o) t v (w_st w o) ;;
    Ok (mkWorld (fupd (w_st w) o s) (fupd (w_chg w) o false) (w_log w ++ [EPost o t])).

(* specula/loop_control.py:135-141 *)
Definition trig_one (t : Z) (w : world) (o : string) : res world :=
  if w_chg w o then obj_trigger t w o else Ok w.

(* specula/loop_control.py:144-153; sending outputs does nothing without remote
   outputs *)
Definition post_one (t : Z) (w : world) (o : string) : res world :=
  if w_chg w o then obj_post t w o else Ok w.

(* specula/loop_control.py:126-153: one trigger list *)
Definition group_step (t : Z) (w : world) (g : list string) : res world :=
  w1 <- fold_res (check_one t) w g ;;
  w2 <- fold_res (trig_one t) w1 g ;;
  fold_res (post_one t) w2 g.

(* specula/loop_control.py:25-33 add: the objects in order of addition, with their
   trigger index *)
Definition order := list (string * nat).

(* specula/simul.py:1143-1149: the objects added to the loop, in trigger order; only
   the local processing objects ([isproc]) are added *)
Definition loop_order (isproc : string -> bool) (ord : list string) (idx : list nat) : order :=
  filter (fun oi => isproc (fst oi)) (combine ord idx).

(* trigger_lists in increasing order of index.  Simplification: the indexes without
   objects are visited too, with an empty list, which has no effect. *)
Definition group (ord : order) (i : nat) : list string :=
  map fst (filter (fun oi => Nat.eqb (snd oi) i) ord).
Definition groups (ord : order) : list (list string) :=
  map (group ord) (seq 0 (S (list_max (map snd ord)))).

(* specula/loop_control.py:121-153: the triggers of one iteration *)
Definition iter_step (ord : order) (t : Z) (w : world) : res world :=
  fold_res (group_step t) w (groups ord).

(* Attributes of LoopControl *)
Record loop := mkLoop {
  l_w : world;
  l_run : Z; l_dt : Z; l_t0 : Z; l_t : Z;
  l_iter : Z                       (* iter_counter *)
}.

(* specula/loop_control.py:35-42 niters.  Simplification: Python computes the
   quotient of the two integers in floating point and then truncates; truncated
   integer division gives the same result when |run_time + t0| < 2^53 ns. *)
Definition niters (run dt t0 : Z) : Z := if dt =? 0 then 0 else Z.quot (run + t0) dt.

(* specula/loop_control.py:121-167 iter *)
Definition loop_iter (ord : order) (l : loop) : res loop :=
  let last := l_iter l =? niters (l_run l) (l_dt l) (l_t0 l) - 1 in
  let w0 := mkWorld (w_st (l_w l)) (w_chg (l_w l)) (w_log (l_w l) ++ [EIter (l_t l) last]) in
  w <- iter_step ord (l_t l) w0 ;;
  Ok (mkLoop w (l_run l) (l_dt l) (l_t0 l) (l_t l + l_dt l) (l_iter l + 1)).

(* specula/loop_control.py:90-109: setup of one object *)
Definition setup_one (w : world) (o : string) : res world :=
  s <- c_setup (cod o) (get_view (w_st w) (c_inputs (cod o))) (w_st w o) ;;
  Ok (mkWorld (fupd (w_st w) o s) (w_chg w) (w_log w ++ [ESetup o])).

(* specula/loop_control.py:169-177: finalize of one object *)
Definition final_one (w : world) (o : string) : res world :=
  s <- c_final (cod o) (get_view (w_st w) (c_inputs (cod o))) (w_st w o) ;;
  Ok (mkWorld (fupd (w_st w) o s) (w_chg w) (w_log w ++ [EFinal o])).

(* specula/loop_control.py:44-68: the while loop of run().  [fuel] bounds the number
   of iterations; exhausting it (Err OutOfFuel) stands for "still running". *)
Fixpoint loop_while (fuel : nat) (ord : order) (l : loop) : res loop :=
  if (l_run l <? 0) || (l_t l <? l_t0 l + l_run l) then
    match fuel with
    | O => Err OutOfFuel
    | S f => l' <- loop_iter ord l ;; loop_while f ord l'
    end
  else Ok l.

(* specula/loop_control.py:44-68 run, 70-119 start, 169-177 finish; times already
   converted by seconds_to_t.  [cnt] is iter_counter, which is 0 for the first run
   and is not reset by later runs. *)
Definition loop_run (fuel : nat) (ord : order) (run dt t0 : Z) (cnt : Z) (w : world) : res loop :=
  w1 <- fold_res setup_one w (concat (groups ord)) ;;
  l <- loop_while fuel ord (mkLoop w1 run dt t0 t0 cnt) ;;
  w2 <- fold_res final_one (l_w l) (concat (groups ord)) ;;
  Ok (mkLoop w2 (l_run l) (l_dt l) (l_t0 l) (l_t l) (l_iter l)).

End Loop.

Arguments INone {Dt}.
Arguments IOne {Dt} d.
Arguments IList {Dt} l.
