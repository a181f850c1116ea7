(* Connection of the inputs of all objects to outputs, in one of several processes.

   Modelled code: specula/simul.py:129-171 (split_output with get_ref=True), 311-335 (create_input_list_inputs),
   616-650 (connect), 652-709 (connect_objects); specula/connections.py:6-29 (_InputItem), 104-125 (InputList.append);
   specula/base_processing_obj.py:59-60 (addRemoteOutput); specula/processing_objects/data_buffer.py:29-37 (setOutputs).

   Simplifications.
   - Data objects and classes are given by arbitrary types with the tests type(x) and isinstance(x, t).
   - remote_outputs, a dictionary of lists, is the list of its entries in the order in which they were added.
   - An entry of input_list without an input name creates an input called None; here it is called "None".
   - The value of 'inputs' is a dictionary, else AttributeError is raised. *)
From Coq Require Import String List ZArith Bool.
From Verif Require Import PyBase NamesModel TrigOrderModel ParamsModel TagModel.
Import ListNotations.
Local Open Scope string_scope.

Section Wire.
Variable hash : string -> Z.
Variables T D : Type.
Variable isinst : D -> T -> bool.
Variable type_of : D -> T.
Variables none_type list_type : T.        (* type(None), list *)
Variable fresh_value : string -> D.       (* a new BaseValue *)

(* the value of an output *)
Inductive ref := RNone | RObj (d : D) | RList (l : list ref).
(* connections.py:6-29: an item of an input *)
Inductive item := Here (d : D) | Far (rank tag : Z).
(* connections.py:78-94, 127-130: InputList or InputValue *)
Record inp := mkInp { in_type : T; in_list : bool; in_items : list item }.
(* destination rank, tag and delay of a remote output *)
Record spec := mkSpec { sp_rank : Z; sp_tag : Z; sp_delay : Z }.
(* base_processing_obj.py:40-43 *)
Record pobj := mkP { p_outs : dict ref; p_ins : dict inp; p_far : list (option string * spec) }.
(* an object of the simulation: a processing object, or a data object *)
Record sobj := mkS { s_self : D; s_proc : option pobj }.
(* one connection of the diagram *)
Record link := mkL { l_start : string; l_end : string; l_from : option string; l_to : string }.
(* Simul: objs, remote_objs_ranks, all_objs_ranks, connections *)
Record wst := mkW { w_objs : dict sobj; w_remote : dict Z; w_ranks : dict Z; w_links : list link }.

Definition proc_of (o : sobj) : res pobj := match s_proc o with Some p => Ok p | None => Err AttributeError end.

(* simul.py:129-171: the reference and the value it stands for, RNone for remote objects *)
Definition value_of (objs : dict sobj) (remote : dict Z) (o : output) : res ref :=
  match dget (o_obj o) objs with
  | None => if dmem (o_obj o) remote then Ok RNone else Err ValueError
  | Some ob =>
      match o_key o with
      | None => Ok (RObj (s_self ob))
      | Some k => p <- proc_of ob ;; match dget k (p_outs p) with Some r => Ok r | None => Err ValueError end
      end
  end.
Definition resolve (objs : dict sobj) (remote : dict Z) (x : yval) : res (output * ref) :=
  o <- split_v x ;; r <- value_of objs remote o ;; Ok (o, r).

(* connections.py:104-125, without a remote rank *)
Fixpoint append (t : T) (items : list item) (r : ref) : res (list item) :=
  match r with
  | RNone => Err ValueError
  | RObj d => if isinst d t then Ok (items ++ [Here d])%list else Err ValueError
  | RList l =>
      (fix go items l := match l with [] => Ok items | x :: q => items' <- append t items x ;; go items' q end) items l
  end.

(* simul.py:660-674: a name under 'outputs' *)
Definition check_output (proc : option Z) (st : wst) (dest : string) (x : yval) : res unit :=
  match dget dest (w_objs st) with
  | Some ob =>
      p <- proc_of ob ;;
      match x with
      | YStr s => if dmem s (p_outs p) then Ok tt else Err ValueError
      | YList _ | YDict _ => Err TypeError
      | _ => Err ValueError
      end
  | None =>
      match dget dest (w_ranks st) with
      | None => Err KeyError
      | Some r => match proc with Some q => if (r =? q)%Z then Err ValueError else Ok tt | None => Ok tt end
      end
  end.

Definition set_proc (st : wst) (name : string) (ob : sobj) (p : pobj) : wst :=
  mkW (dset name (mkS (s_self ob) (Some p)) (w_objs st)) (w_remote st) (w_ranks st) (w_links st).

(* self.objs[dest].inputs[input_name].append(..) *)
Definition into_input (st : wst) (dest input : string) (f : inp -> res (list item)) : res wst :=
  match dget dest (w_objs st) with
  | None => Err KeyError
  | Some ob =>
      p <- proc_of ob ;;
      match dget input (p_ins p) with
      | None => Err KeyError
      | Some i => l <- f i ;; Ok (set_proc st dest ob (mkP (p_outs p) (dset input (mkInp (in_type i) (in_list i) l) (p_ins p)) (p_far p)))
      end
  end.

(* simul.py:616-650; is the destination in this process? *)
Definition connect (st : wst) (dest input : string) (o : output) (r : ref) : res wst :=
  let tag := computeTag hash (o_obj o) dest (o_key o) input in
  match r, dmem dest (w_objs st) with
  | RNone, false => Ok st
  | RNone, true =>
      into_input st dest input (fun i => match dget (o_obj o) (w_remote st) with
                                         | None => Err KeyError
                                         | Some q => Ok (in_items i ++ [Far q tag])%list
                                         end)
  | _, true => into_input st dest input (fun i => append (in_type i) (in_items i) r)
  | _, false =>
      match dget (o_obj o) (w_objs st) with
      | None => Err KeyError
      | Some ob =>
          p <- proc_of ob ;;
          match dget dest (w_remote st) with
          | None => Err KeyError
          | Some q => Ok (set_proc st (o_obj o) ob (mkP (p_outs p) (p_ins p) (p_far p ++ [(o_key o, mkSpec q tag (o_delay o))])%list))
          end
      end
  end.

(* simul.py:690-709: one reference *)
Definition connect_ref (dest input : string) (st : wst) (x : yval) : res wst :=
  or <- resolve (w_objs st) (w_remote st) x ;;
  let st := mkW (w_objs st) (w_remote st) (w_ranks st) (w_links st ++ [mkL (o_obj (fst or)) dest (o_key (fst or)) input])%list in
  connect st dest input (fst or) (snd or).

(* simul.py:679-709: one input *)
Definition connect_input (dest : string) (st : wst) (iv : string * yval) : res wst :=
  _ <- match dget dest (w_objs st) with
       | Some ob => if String.eqb (fst iv) "input_list" then Ok tt
                    else p <- proc_of ob ;; if dmem (fst iv) (p_ins p) then Ok tt else Err ValueError
       | None => Ok tt
       end ;;
  l <- match snd iv with YStr _ => Ok [snd iv] | YList l => Ok l | _ => Err ValueError end ;;
  fold_res (connect_ref dest (fst iv)) st l.

(* simul.py:654-709: one object *)
Definition connect_object (proc : option Z) (st : wst) (dp : string * pars) : res wst :=
  _ <- match dget "outputs" (snd dp) with
       | None => Ok tt
       | Some v => l <- iter_value v ;; _ <- map_res (check_output proc st (fst dp)) l ;; Ok tt
       end ;;
  i <- inputs_items (snd dp) ;;
  match i with None => Ok st | Some ins => fold_res (connect_input (fst dp)) st ins end.

(* simul.py:652-709 *)
Definition connect_objects (proc : option Z) (st : wst) (ps : params) : res wst := fold_res (connect_object proc) st ps.

(* ------------------------------------------------------------- input lists *)

(* type(x) of a value *)
Definition ref_type (r : ref) : T := match r with RNone => none_type | RObj d => type_of d | RList _ => list_type end.

(* simul.py:324-328: the input made for a value *)
Definition input_for (r : ref) : res inp :=
  match r with
  | RList [] => Err IndexError
  | RList (x :: _) => Ok (mkInp (ref_type x) true [])
  | _ => Ok (mkInp (ref_type r) false [])
  end.

(* simul.py:322-329: one entry of the list *)
Definition list_entry (remote : dict Z) (key : string) (acc : dict sobj * dict yval) (x : yval) : res (dict sobj * dict yval) :=
  let '(objs, ins) := acc in
  or <- resolve objs remote x ;;
  let name := str_opt (o_input (fst or)) in
  objs' <- match dget key objs with
           | None => Ok objs
           | Some ob => i <- input_for (snd or) ;; p <- proc_of ob ;;
                        Ok (dset key (mkS (s_self ob) (Some (mkP (p_outs p) (dset name i (p_ins p)) (p_far p)))) objs)
           end ;;
  Ok (objs', dset name x ins).

Definition is_class (names : list string) (p : pars) : bool :=
  match dget "class" p with Some (YStr c) => mem c names | _ => false end.

(* data_buffer.py:29-37 *)
Definition set_outputs (p : pobj) : pobj :=
  mkP (fold_left (fun outs kv => dset (fst kv ++ "_buffered") (RObj (fresh_value (fst kv ++ "_buffered"))) outs) (p_ins p) (p_outs p)) (p_ins p) (p_far p).

(* simul.py:318-335: one object *)
Definition list_object (remote : dict Z) (acc : dict sobj * params) (kp : string * pars) : res (dict sobj * params) :=
  let '(objs, done) := acc in
  let '(key, p) := kp in
  op <- (if is_class ["DataBuffer"; "DataStore"] p then
           i <- inputs_items p ;;
           match i with
           | Some ins =>
               match dget "input_list" ins with
               | Some v => l <- iter_value v ;;
                           oi <- fold_res (list_entry remote key) (objs, ins) l ;;
                           Ok (fst oi, dset "inputs" (YDict (ddel "input_list" (snd oi))) p)
               | None => Ok (objs, p)
               end
           | None => Ok (objs, p)
           end
         else Ok (objs, p)) ;;
  let '(objs, p) := op in
  match dget "class" p with
  | None => Err KeyError
  | Some _ =>
      if is_class ["DataBuffer"] p then
        match dget key objs with
        | None => Err KeyError
        | Some ob => pr <- proc_of ob ;; Ok (dset key (mkS (s_self ob) (Some (set_outputs pr))) objs, done ++ [(key, p)])%list
        end
      else Ok (objs, done ++ [(key, p)])%list
  end.

(* simul.py:311-335 *)
Definition create_input_list_inputs (st : wst) (ps : params) : res (wst * params) :=
  op <- fold_res (list_object (w_remote st)) (w_objs st, []) ps ;;
  Ok (mkW (fst op) (w_remote st) (w_ranks st) (w_links st), snd op).
End Wire.
Arguments RNone {D}. Arguments RObj {D}. Arguments RList {D}.
Arguments Here {D}. Arguments Far {D}.
Arguments mkInp {T D}. Arguments in_type {T D}. Arguments in_list {T D}. Arguments in_items {T D}.
Arguments mkP {T D}. Arguments p_outs {T D}. Arguments p_ins {T D}. Arguments p_far {T D}.
Arguments mkS {T D}. Arguments s_self {T D}. Arguments s_proc {T D}.
Arguments mkW {T D}. Arguments w_objs {T D}. Arguments w_remote {T D}. Arguments w_ranks {T D}. Arguments w_links {T D}.
