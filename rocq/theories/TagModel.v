(* Model of the connection of inputs to outputs in one of several processes, and of the
   message tags.

   Modelled code: specula/simul.py:69-72 (computeTag), 129-171 (split_output with
   get_ref=True), 616-650 (connect), 700-709 (connect_objects, one connection).

   Simplifications: the SHA-256 digest is an arbitrary function of the string; the
   reference to the local output itself is modelled in LoopModel.v. *)
From Coq Require Import String List Ascii ZArith Bool.
From Verif Require Import PyBase NamesModel.
Import ListNotations.
Local Open Scope string_scope.

(* str() of an output name, which may be None *)
Definition str_opt (s : option string) : string := match s with Some s => s | None => "None" end.

(* simul.py:70 *)
Definition tag_string (src dst : string) (out : option string) (inp : string) : string :=
  src ++ "%" ++ dst ++ "%" ++ str_opt out ++ "%" ++ inp.

Section Tags.
Variable hash : string -> Z.        (* int(sha256(..).hexdigest(), 16) *)

(* simul.py:69-72 *)
Definition computeTag (src dst : string) (out : option string) (inp : string) : Z :=
  (hash (tag_string src dst out inp) mod 10 ^ 6)%Z.

(* The objects as seen by one process: those it has built, with the names of their
   outputs, and the ranks of the others (simul.py:367-392). *)
Record process := mkProc {
  p_objs : dict (list string);     (* objs: outputs of each object *)
  p_remote : dict nat              (* remote_objs_ranks *)
}.

Inductive action :=
| Local                                    (* inputs[input_name].append(output.ref) *)
| Recv (rank : nat) (tag : Z)              (* append(None, remote_rank, tag) *)
| Send (rank : nat) (tag : Z) (delay : Z)  (* addRemoteOutput *)
| Nothing.

(* simul.py:150-171: is the referenced output in this process? *)
Definition get_ref (p : process) (o : output) : res bool :=
  match dget (o_obj o) (p_objs p) with
  | None => if dmem (o_obj o) (p_remote p) then Ok false else Err ValueError
  | Some outs =>
      match o_key o with
      | None => Ok true
      | Some k => if existsb (String.eqb k) outs then Ok true else Err ValueError
      end
  end.

(* simul.py:616-650 and 700-709 *)
Definition connect (p : process) (output_name input_name dest : string) : res action :=
  o <- split_output output_name ;;
  here <- get_ref p o ;;
  let local_dest := dmem dest (p_objs p) in
  let tag := computeTag (o_obj o) dest (o_key o) input_name in
  match here, local_dest with
  | true, true => Ok Local
  | false, true =>
      match dget (o_obj o) (p_remote p) with
      | Some r => Ok (Recv r tag)
      | None => Err KeyError
      end
  | true, false =>
      match dget dest (p_remote p) with
      | Some r => Ok (Send r tag (o_delay o))
      | None => Err KeyError
      end
  | false, false => Ok Nothing
  end.
End Tags.
