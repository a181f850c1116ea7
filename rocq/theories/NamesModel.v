(* Model of the output-reference syntax of specula/simul.py. *)
From Coq Require Import String List Ascii ZArith Bool.
From Verif Require Import PyBase.
Import ListNotations.

(* specula/simul.py: namedtuple Output(obj_name, output_key, delay, ref, input_name);
   the [ref] field (a live Python object) is modelled separately. *)
Record output := mkOutput {
  o_obj : string;
  o_key : option string;
  o_delay : Z;
  o_input : option string
}.

(* specula/simul.py:129-149 Simul.split_output with get_ref=False.
   Simplification: the argument is a string (non-strings are handled by callers). *)
Definition split_output (s : string) : res output :=
  bd <- (if has_char ":" s
         then ab <- split2 ":" s ;; d <- py_int (snd ab) ;; Ok (fst ab, d)
         else Ok (s, 0%Z)) ;;
  ir <- (if has_char "-" (fst bd)
         then ab <- split2 "-" (fst bd) ;; Ok (Some (fst ab), snd ab)
         else Ok (None, fst bd)) ;;
  ok <- (if has_char "." (snd ir)
         then ab <- split2 "." (snd ir) ;; Ok (fst ab, Some (snd ab))
         else Ok (snd ir, None)) ;;
  Ok (mkOutput (fst ok) (snd ok) (snd bd) (fst ir)).

(* specula/simul.py:173-175 Simul.output_owner *)
Definition output_owner (s : string) : res string :=
  o <- split_output s ;; Ok (o_obj o).

(* specula/simul.py:199-200 Simul.output_delay *)
Definition output_delay (s : string) : res Z :=
  o <- split_output s ;; Ok (o_delay o).

(* The same on a YAML list element.  Simplification: a non-string element raises
   TypeError (true for numbers, booleans and None; for nested lists and
   dictionaries the Python code would go on with a non-string object name). *)
Definition owner_v (v : yval) : res string :=
  match v with YStr s => output_owner s | _ => Err TypeError end.
Definition delay_v (v : yval) : res Z :=
  match v with YStr s => output_delay s | _ => Err TypeError end.
