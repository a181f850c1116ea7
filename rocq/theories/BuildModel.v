(* Construction of the objects of a simulation from its parameters.

   Modelled code: specula/simul.py:278-282, 337-614 (Simul.setSimulParams, build_objects).

   Simplifications.
   - Classes, their constructors and the files they are restored from are given by an environment: which
     arguments a constructor takes, what its type hints say, whether it accepts given arguments, which files
     can be restored.  import_class raises RuntimeError for ImportError.
   - The list of references, which serves the diagram, the table of all ranks and the largest rank and device
     are not represented; neither are printed messages and counters of memory.
   - A hint is resolved to the data object it names, alone, in a list or in a dictionary.
   - The restored objects, the names given to objects after construction and the parameters stored in a
     DataStore are not represented beyond name, class and file. *)
From Coq Require Import String List Ascii ZArith Bool.
From Verif Require Import PyBase NamesModel TrigOrderModel ParamsModel.
From Verif Require CalFileModel.
Import ListNotations.
Local Open Scope string_scope.

Inductive hint := HObj (type : string) | HListOf (type : string) | HDictOf (type : string) | HOther.

(* a restored object: type, file, tag *)
Record loaded := mkLoaded { l_type : string; l_path : string; l_tag : string }.

(* what a constructor receives, and what it makes *)
Inductive argval :=
| ARaw (v : yval)
| AObj (o : built)
| AObjs (l : list built)
| ADict (d : list (string * built))
| ALoaded (l : loaded)
| ALoadedList (l : list loaded)
| ALoadedDict (d : list (string * loaded))
| AData (path : string)
| ADir (path : string)
| AParams
| AGetter (name : string)
with built :=
| BNew (name class : string) (args : list (string * argval))
| BTag (name : string) (l : loaded).

Record klass := mkKlass { c_args : list string; c_hints : dict hint; c_data : bool }.
Record env := mkEnv {
  e_class : string -> res klass;                         (* import_class *)
  e_init : string -> dict argval -> res unit;             (* the constructor *)
  e_restore : string -> string -> bool;                   (* type.restore(path) *)
  e_file : string -> bool }.                              (* os.path.exists *)

Section Build.
Variable E : env.

(* simul.py:278-282, 339-341, calib_manager.py:82: root_dir of the last SimulParams *)
Definition main_params (ps : params) : res (option pars) :=
  fold_res (fun m kp => match dget "class" (snd kp) with
                        | None => Err KeyError
                        | Some (YStr c) => Ok (if String.eqb c "SimulParams" then Some (snd kp) else m)
                        | Some _ => Ok m
                        end) None ps.
Definition root_dir (ps : params) : res string :=
  m <- main_params ps ;;
  match m with
  | None => Err TypeError
  | Some p => match dget "root_dir" p with
              | None => Err KeyError
              | Some (YStr r) => Ok r
              | Some _ => Err TypeError
              end
  end.

(* simul.py:361-374.  Simplification: a rank that is neither an integer nor None raises TypeError. *)
Definition device_ok (p : pars) : res unit :=
  match dget "target_device_idx" p with
  | None | Some YNone | Some (YInt _) | Some (YBool _) | Some (YFloat _) => Ok tt
  | Some _ => Err TypeError
  end.
Definition rank_of (p : pars) : res (option Z * pars) :=
  match dget "target_rank" p with
  | None | Some YNone => Ok (None, p)
  | Some (YInt z) => Ok (Some z, ddel "target_rank" p)
  | Some _ => Err TypeError
  end.
Definition target (r : option Z) : Z := match r with Some z => z | None => 0%Z end.
(* simul.py:380-383 *)
Definition build_here (proc : option Z) (data : bool) (r : option Z) : bool :=
  match proc with
  | None => true
  | Some q => (q =? target r)%Z || (data && match r with None => true | Some _ => false end)
              || (data && match r with Some z => (z =? q)%Z | None => false end)
  end.

(* simul.py:412-418, lib/utils.py:119-121 *)
Definition suffixes : list string := ["_ref"; "_data"; "_object"].
Definition remove_suffix (s suffix : string) : string :=
  if ends_with suffix s then drop_last (String.length suffix) s else s.
Definition par_name (args : list string) (name : string) : string :=
  if mem name args then name
  else match find (fun e => mem (remove_suffix name e) args) suffixes with
       | Some e => remove_suffix name e
       | None => name
       end.

(* self.objs[x] *)
Definition lookup (objs : dict built) (x : yval) : res (string * built) :=
  match x with
  | YStr s => match dget s objs with Some o => Ok (s, o) | None => Err KeyError end
  | YList _ | YDict _ => Err TypeError
  | _ => Err KeyError
  end.

(* cm.filename(type, tag), then type.restore *)
Definition restore (root kind type : string) (tag : yval) : res loaded :=
  match tag with
  | YStr t => f <- CalFileModel.filename root kind t ;;
              if e_restore E type f then Ok (mkLoaded type f t) else Err RuntimeError
  | _ => match CalFileModel.filename root kind "" with Ok _ => Err TypeError | Err e => Err e end
  end.
(* cm.read_data(value), calib_manager.py:134-138, 162 *)
Definition read_data (root : string) (v : yval) : res string :=
  match v with
  | YStr t => f <- CalFileModel.filename root "data" t ;; if e_file E f then Ok f else Err RuntimeError
  | _ => Err TypeError
  end.

(* simul.py:404-578: one parameter; nothing when it is skipped or the object is not built here *)
Definition one_arg (root : string) (k : klass) (objs : dict built) (here : bool) (name : string) (value : yval) :
    res (option (string * argval)) :=
  if mem name ["class"; "inputs"; "outputs"] && negb (mem name (c_args k)) then Ok None
  else
    let p := par_name (c_args k) name in
    let sfx s := ends_with s name && negb (String.eqb p name) in
    if negb (mem p (c_args k)) then Err ValueError
    else if sfx "_list_ref" then                                       (* 424-433 *)
      match value with
      | YList l => if here then os <- map_res (lookup objs) l ;; Ok (Some (p, AObjs (map snd os))) else Ok None
      | _ => Err ValueError
      end
    else if sfx "_dict_ref" then                                       (* 436-444 *)
      l <- iter_value value ;;
      if here then os <- map_res (lookup objs) l ;; Ok (Some (p, ADict (dupdate [] os))) else Ok None
    else if sfx "_list_object" && here then                            (* 447-486 *)
      match value with
      | YNone => Ok (Some (p, ARaw YNone))
      | YList l => match dget p (c_hints k) with
                   | Some (HListOf t) => ls <- map_res (restore root t t) l ;; Ok (Some (p, ALoadedList ls))
                   | _ => Err ValueError
                   end
      | _ => Err ValueError
      end
    else if sfx "_dict_object" && here then                            (* 489-528 *)
      match value with
      | YNone => Ok (Some (p, ARaw YNone))
      | YDict d => match dget p (c_hints k) with
                   | Some (HDictOf t) =>
                       ls <- map_res (fun kv => o <- restore root t t (snd kv) ;; Ok (fst kv, o)) d ;;
                       Ok (Some (p, ALoadedDict ls))
                   | _ => Err ValueError
                   end
      | _ => Err ValueError
      end
    else if sfx "_ref" then                                            (* 529-536 *)
      if here then o <- lookup objs value ;; Ok (Some (p, AObj (snd o))) else Ok None
    else if sfx "_data" && here then                                   (* 539-544 *)
      match value with YNone => Ok (Some (p, ARaw YNone)) | _ => f <- read_data root value ;; Ok (Some (p, AData f)) end
    else if sfx "_object" && here then                                 (* 549-574 *)
      match value with
      | YNone => Ok (Some (p, ARaw YNone))
      | _ => match dget p (c_hints k) with
             | Some (HObj t) => o <- restore root p t value ;; Ok (Some (p, ALoaded o))
             | Some _ => match restore root p "" value with Err TypeError => Err TypeError | Err KeyError => Err KeyError | _ => Err AttributeError end
             | None => Err ValueError
             end
      end
    else Ok (if here then Some (name, ARaw value) else None).          (* 576-578 *)

Definition add_arg root k objs here (acc : dict argval) (nv : string * yval) : res (dict argval) :=
  a <- one_arg root k objs here (fst nv) (snd nv) ;;
  Ok (match a with Some (p, v) => dset p v acc | None => acc end).

(* simul.py:584-599 *)
Definition global_args (root class : string) (args : list string) : res (dict argval) :=
  d <- (if mem "data_dir" args then r <- CalFileModel.root_subdir root class ;; Ok [("data_dir", ADir r)] else Ok []) ;;
  Ok (d ++ (if mem "params_dict" args then [("params_dict", AParams)] else [])
        ++ (if mem "input_ref_getter" args then [("input_ref_getter", AGetter "input_ref")] else [])
        ++ (if mem "output_ref_getter" args then [("output_ref_getter", AGetter "output_ref")] else [])
        ++ (if mem "info_getter" args then [("info_getter", AGetter "get_info")] else []))%list.

(* the objects of this process and the ranks of the others *)
Record bst := mkB { b_objs : dict built; b_remote : dict Z }.

(* simul.py:389-614: what is made of one object, nothing when it lives elsewhere *)
Definition make (root key class : string) (k : klass) (p : pars) (objs : dict built) (here : bool) : res (option built) :=
  match dget "tag" p, here with
  | Some tag, true =>                                                  (* 389-401 *)
      if Nat.ltb 2 (length (ddel "target_device_idx" p)) then Err ValueError
      else l <- restore root class class tag ;; Ok (Some (BTag key l))
  | _, _ =>
      args <- fold_res (add_arg root k objs here) [] p ;;
      if negb here then Ok None
      else
        g <- global_args root class (c_args k) ;;
        _ <- e_init E class (dupdate g args) ;;
        Ok (Some (BNew key class (dupdate g args)))
  end.

(* simul.py:351-388: one object *)
Definition build_one (ps : params) (root : string) (proc : option Z) (st : bst) (key : string) : res bst :=
  match dget key ps with
  | None => Err KeyError
  | Some p0 =>
      class <- match dget "class" p0 with Some (YStr c) => Ok c | Some _ => Err TypeError | None => Err KeyError end ;;
      k <- e_class E class ;;
      _ <- device_ok p0 ;;
      rp <- rank_of p0 ;;
      let here := build_here proc (c_data k) (fst rp) in
      let remote := if here then b_remote st else dset key (target (fst rp)) (b_remote st) in
      o <- make root key class k (snd rp) (b_objs st) here ;;
      Ok (mkB (match o with Some b => dset key b (b_objs st) | None => b_objs st end) remote)
  end.

(* simul.py:337-614 *)
Definition build_objects (ps : params) (proc : option Z) : res bst :=
  root <- root_dir ps ;;
  order <- build_order ps ;;
  fold_res (build_one ps root proc) (mkB [] []) order.
End Build.
