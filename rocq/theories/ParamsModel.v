(* Model of the handling of parameter dictionaries by specula/simul.py: build order,
   combination of parameter files, command line overrides, replay configurations.

   Modelled code: specula/simul.py:284-309, 717-859, 887-934 (remove_inputs, 861-885, is in
   TrigOrderModel.v).

   Simplifications.
   - Parameter files are dictionaries of dictionaries; the value of 'inputs' is a
     dictionary.
   - Printed messages are not modelled.
   - Python's unlimited recursion is recursion with fuel; [OutOfFuel] stands for
     RecursionError. *)
From Coq Require Import String List Ascii ZArith Bool.
From Verif Require Import PyBase NamesModel TrigOrderModel.
Import ListNotations.
Local Open Scope string_scope.

Definition mem (k : string) (l : list string) : bool := existsb (String.eqb k) l.

(* ------------------------------------------------------------------- build order *)

(* value if type(value) is list else [value] *)
Definition as_list (v : yval) : list yval :=
  match v with YList l => l | _ => [v] end.

(* specula/simul.py:291-304 add_to_build_order *)
Fixpoint add_to_build_order (fuel : nat) (ps : params) (order : list string) (key : string) :
    res (list string) :=
  match fuel with
  | O => Err OutOfFuel
  | S f =>
      if mem key order then Ok order
      else match dget key ps with
           | None => Err KeyError
           | Some p =>
               order' <- fold_res (fun order nv =>
                 if ends_with "_ref" (fst nv)
                 then fold_res (fun order x =>
                        owner <- owner_v x ;;
                        if mem owner order then Ok order
                        else add_to_build_order f ps order owner) order (as_list (snd nv))
                 else Ok order) order p ;;
               Ok (order' ++ [key])%list
           end
  end.

(* specula/simul.py:284-309 Simul.build_order *)
Definition build_order (ps : params) : res (list string) :=
  fold_res (add_to_build_order (S (length ps)) ps) [] (dkeys ps).

(* ------------------------------------------------------------ additional parameters *)

(* the text before and after the last underscore *)
Fixpoint last_underscore (s : string) : option (string * string) :=
  match s with
  | EmptyString => None
  | String a r =>
      match last_underscore r with
      | Some (x, y) => Some (String a x, y)
      | None => if Ascii.eqb a "_" then Some (EmptyString, r) else None
      end
  end.
Fixpoint all_digits (s : string) : bool :=
  match s with EmptyString => true | String a r => is_digit a && all_digits r end.

(* specula/simul.py:896-898: the name matches anything, an underscore, one or more
   digits, end; group 1 and int() of group 2.  Simplification: no newlines and ASCII digits only. *)
Definition numbered (name : string) : option (string * Z) :=
  match last_underscore name with
  | Some (x, y) =>
      if negb (String.eqb y "") && all_digits y
      then match int_digits y false 0 with Some n => Some (x, n) | None => None end
      else None
  | None => None
  end.

(* name[:-9] *)
Definition drop_last (n : nat) (s : string) : string := substring 0 (String.length s - n) s.

(* specula/simul.py:904-912: one removed object.  Simplification: a name that is not a
   string is reported as missing. *)
Definition remove_one (ps : params) (objname : yval) : res params :=
  match objname with
  | YStr o => if dmem o ps then remove_inputs o (ddel o ps) else Err ValueError
  | _ => Err ValueError
  end.

(* the elements visited by [for objname in values] *)
Fixpoint chars (s : string) : list yval :=
  match s with EmptyString => [] | String a r => YStr (String a EmptyString) :: chars r end.
Definition iter_value (v : yval) : res (list yval) :=
  match v with
  | YList l => Ok l
  | YDict d => Ok (map (fun kv => YStr (fst kv)) d)
  | YStr s => Ok (chars s)
  | _ => Err TypeError
  end.

(* specula/simul.py:903-920 for one entry, after removal of the simulation index.
   Simplification: an override or a new object that is not a dictionary raises TypeError
   (the new object is accepted by the Python code and fails when it is built). *)
Definition combine_entry (ps : params) (name : string) (values : yval) : res params :=
  if String.eqb name "remove" then
    l <- iter_value values ;; fold_res remove_one ps l
  else if ends_with "_override" name then
    let objname := drop_last 9 name in
    match dget objname ps with
    | None => Err ValueError
    | Some p => match values with
                | YDict d => Ok (dset objname (dupdate p d) ps)
                | _ => Err TypeError
                end
    end
  else if dmem name ps then Err ValueError
  else match values with
       | YDict d => Ok (dset name d ps)
       | _ => Err TypeError
       end.

(* specula/simul.py:887-920 Simul.combine_params *)
Definition combine_params (simul_idx : Z) (ps : params) (additional : dict yval) : res params :=
  fold_res (fun ps nv =>
    match numbered (fst nv) with
    | Some (x, n) => if negb (n =? simul_idx)%Z then Ok ps else combine_entry ps x (snd nv)
    | None => combine_entry ps (fst nv) (snd nv)
    end) ps additional.

(* ----------------------------------------------------------------- overrides *)

(* specula/simul.py:922-934 Simul.apply_overrides, for one entry.  Simplification: the
   entry changed by the three-part form is a dictionary (lists and scalars do not accept
   string indices: TypeError). *)
Definition apply_override (ps : params) (kv : string * yval) : res params :=
  match split_char "." (fst kv) with
  | [a; b] => match dget a ps with
              | Some p => Ok (dset a (dset b (snd kv) p) ps)
              | None => Err KeyError
              end
  | [a; b; c] => match dget a ps with
                 | Some p => match dget b p with
                             | Some (YDict d) => Ok (dset a (dset b (YDict (dset c (snd kv) d)) p) ps)
                             | Some _ => Err TypeError
                             | None => Err KeyError
                             end
                 | None => Err KeyError
                 end
  | _ => Err ValueError
  end.
Definition apply_overrides (overrides : dict yval) (ps : params) : res params :=
  fold_res apply_override ps overrides.

(* -------------------------------------------------------------------- replay *)

(* specula/simul.py:841-859 Simul.iterate_inputs.  Simplification: input_list is a list. *)
Definition iterate_inputs (p : pars) : res (list (string * yval)) :=
  i <- inputs_items p ;;
  match i with
  | None => Ok []
  | Some ins =>
      match dget "input_list" ins with
      | Some (YList l) => Ok (map (fun x => ("input_list", x)) l)
      | Some _ => Err TypeError
      | None => Ok (flat_map (fun kv => map (fun x => (fst kv, x)) (as_list (snd kv))) ins)
      end
  end.

(* split_output on a YAML value *)
Definition split_v (v : yval) : res output :=
  match v with YStr s => split_output s | _ => Err TypeError end.

(* a name that may be None *)
Definition yopt (o : option string) : yval := match o with Some s => YStr s | None => YNone end.

(* specula/simul.py:740-743: outputs, object names and mapping {object.output: name} *)
Definition store_refs (p : pars) : res (list yval * list string * dict (option string)) :=
  items <- iterate_inputs p ;;
  fold_res (fun (st : list yval * list string * dict (option string)) (kx : string * yval) =>
    o <- split_v (snd kx) ;;
    match o_key o with
    | None => Err TypeError                  (* str + None *)
    | Some key =>
        let '(outs, objs, m) := st in
        Ok ((outs ++ [yopt (o_input o)])%list, (objs ++ [o_obj o])%list,
            dset (o_obj o ++ "." ++ key) (o_input o) m)
    end) ([], [], []) items.

(* specula/simul.py:717-743 Simul.data_store_to_data_source *)
Definition data_store_to_data_source (p : pars) (set_store_dir : option string) :
    res (pars * list string * dict (option string)) :=
  dir <- match set_store_dir with
         | Some d => if String.eqb d "" then match dget "store_dir" p with Some v => Ok v | None => Err KeyError end
                     else Ok (YStr d)
         | None => match dget "store_dir" p with Some v => Ok v | None => Err KeyError end
         end ;;
  r <- store_refs p ;;
  let '(outs, objs, m) := r in
  let fmt := match dget "data_format" p with Some v => [("data_format", v)] | None => [] end in
  Ok (([("class", YStr "DataSource"); ("outputs", YList outs)] ++ fmt ++ [("store_dir", dir)])%list, objs, m).

Definition class_is (c : string) (p : pars) : res bool :=
  match dget "class" p with
  | Some (YStr s) => Ok (String.eqb s c)
  | Some _ => Ok false
  | None => Err KeyError
  end.

(* 'data_source.' + name *)
Definition from_source (name : option string) : res yval :=
  match name with Some n => Ok (YStr ("data_source." ++ n)) | None => Err TypeError end.

(* specula/simul.py:766-774: the inputs of one object of the replay *)
Definition redirect (m : dict (option string)) (ins : dict yval) : res (dict yval) :=
  map_res (fun kv => match snd kv with
                     | YStr s => match dget s m with
                                 | Some n => v <- from_source n ;; Ok (fst kv, v)
                                 | None => Ok kv
                                 end
                     | YDict _ => Err TypeError             (* unhashable *)
                     | _ => Ok kv
                     end) ins.
Definition redirect_pars (m : dict (option string)) (p : pars) : res pars :=
  i <- inputs_items p ;;
  match i with
  | None => Ok p
  | Some ins => ins' <- redirect m ins ;; Ok (dset "inputs" (YDict ins') p)
  end.

(* specula/simul.py:745-776 Simul.build_replay.  The argument is not modified (deepcopy). *)
Definition build_replay (ps : params) : res params :=
  st <- fold_res (fun (st : params * list string * dict (option string)) kp =>
          b <- class_is "DataStore" (snd kp) ;;
          if b then
            d <- data_store_to_data_source (snd kp) None ;;
            let '(src, objs, m) := d in
            Ok (dset "data_source" src (fst (fst st)), (objs ++ [fst kp])%list, m)
          else Ok st) (ps, [], []) ps ;;
  let '(rp, gone, m) := st in
  rp' <- fold_res (fun rp o => if dmem o rp then Ok (ddel o rp) else Err KeyError) rp (nodup string_dec gone) ;;
  map_res (fun kp => if String.eqb (fst kp) "data_source" then Ok kp
                     else p <- redirect_pars m (snd kp) ;; Ok (fst kp, p)) rp'.

(* ----------------------------------------------------------------- targeted replay *)

(* replay_params[key]['inputs'][k] = v, where the dictionary of inputs is shared with
   params[key]: both change *)
Definition set_input (ps : params) (key k : string) (v : yval) : params :=
  match dget key ps with
  | Some p => match dget "inputs" p with
              | Some (YDict ins) => dset key (dset "inputs" (YDict (dset k v ins)) p) ps
              | _ => ps
              end
  | None => ps
  end.

(* state: (params, replay_params) *)
Definition tstate2 := (params * params)%type.

(* specula/simul.py:825-834: names of the referenced objects.  [for objname in v] over a
   dictionary gives its keys. *)
Definition ref_names (p : pars) : res (list yval) :=
  ls <- map_res (fun kv =>
          if ends_with "_list_ref" (fst kv) || ends_with "_dict_ref" (fst kv) then iter_value (snd kv)
          else if ends_with "_ref" (fst kv) then Ok [snd kv] else Ok []) p ;;
  Ok (concat ls).

(* specula/simul.py:807-834 add_key.  Names that are not strings are KeyErrors. *)
Fixpoint add_key (fuel : nat) (m : dict (option string)) (st : tstate2) (key : string) : res tstate2 :=
  match fuel with
  | O => Err OutOfFuel
  | S f =>
      if dmem key (snd st) then Ok st
      else match dget key (fst st) with
           | None => Err KeyError
           | Some p =>
               items <- iterate_inputs p ;;
               st1 <- fold_res (fun (st : tstate2) (kx : string * yval) =>
                        o <- split_v (snd kx) ;;
                        (* f-string: a missing key is printed as None *)
                        let full := o_obj o ++ "." ++ match o_key o with Some k => k | None => "None" end in
                        match dget full m with
                        | Some n => v <- from_source n ;;
                                    Ok (set_input (fst st) key (fst kx) v, set_input (snd st) key (fst kx) v)
                        | None => add_key f m st (o_obj o)
                        end) (fst st, dset key p (snd st)) items ;;
               names <- ref_names p ;;
               fold_res (fun st x => match x with YStr s => add_key f m st s | _ => Err KeyError end) st1 names
           end
  end.

(* first object of class SimulParams *)
Fixpoint find_main (ps : params) : res (string * pars) :=
  match ps with
  | [] => Err ValueError
  | (k, p) :: r => b <- class_is "SimulParams" p ;; if b then Ok (k, p) else find_main r
  end.

(* specula/simul.py:778-839 Simul.build_targeted_replay; returns the replay parameters and
   the parameters as they are left by the call *)
Definition build_targeted_replay (ps : params) (targets : list string) (set_store_dir : option string) :
    res (params * params) :=
  main <- find_main ps ;;
  st <- fold_res (fun (st : params * dict (option string)) kp =>
          b <- class_is "DataStore" (snd kp) ;;
          if b then
            d <- data_store_to_data_source (snd kp) set_store_dir ;;
            let '(src, _, m) := d in
            Ok (dset "data_source" src (fst st), dupdate (snd st) m)
          else Ok st) ([(fst main, snd main)], []) ps ;;
  r <- fold_res (add_key (S (length ps)) (snd st)) (ps, fst st) targets ;;
  Ok (snd r, fst r).
