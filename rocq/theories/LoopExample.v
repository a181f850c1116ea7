(* Small concrete systems used in the Examples and as counterexamples. *)
From Coq Require Import String List ZArith.
From Verif Require Import PyBase LoopModel LoopSpec TrigOrderModel TrigOrderSpec ScaoExample.
Import ListNotations.
Local Open Scope string_scope.
Local Open Scope Z_scope.

(* state = output = (value, generation time) *)
Definition tS : Type := (Z * Z)%type.
Definition touts (s : tS) (_ : option string) : list tS := [s].
Definition tgtime (d : tS) : option Z := Some (snd d).
Definition tval (v : ival tS) : Z := match v with IOne d => fst d | _ => 0 end.
Definition targ (n : string) (v : view tS) : Z :=
  match dget n v with Some iv => tval iv | None => 0 end.

Definition keep {A} (_ : A) (_ : view tS) (s : tS) : res tS := Ok s.
Definition stamp (t : Z) (_ : view tS) (s : tS) : res tS := Ok (fst s, t).
Definition calc (f : view tS -> Z -> Z) (t : Z) (v : view tS) (s : tS) : res tS := Ok (f v (fst s), snd s).
Definition inp (n : string) (o : string) (d : Z) : input := mkInput n false false [mkSrc o (Some "out") d].

Definition mk (l : list input) (f : view tS -> Z -> Z) : code tS tS :=
  mkCode tS tS l (fun _ s => Ok s) keep (calc f) stamp (fun _ s => Ok s).

(* A closed loop: wavefront sensor, controller, mirror read back with one step of delay. *)
Definition ao (o : string) : code tS tS :=
  if String.eqb o "atm" then mk [] (fun _ x => x + 3)
  else if String.eqb o "wfs" then mk [inp "a" "atm" 0; inp "m" "dm" (-1)] (fun v _ => targ "a" v - targ "m" v)
  else if String.eqb o "ctl" then mk [inp "e" "wfs" 0] (fun v x => x + targ "e" v)
  else if String.eqb o "dm" then mk [inp "c" "ctl" 0] (fun v _ => targ "c" v)
  else mk [] (fun _ x => x).

Definition ao_ps : params :=
  [("atm", []);
   ("wfs", [ins [("a", YStr "atm.out"); ("m", YStr "dm.out:-1")]]);
   ("ctl", [ins [("e", YStr "wfs.out")]]);
   ("dm", [ins [("c", YStr "ctl.out")]])].

Definition ao_ps' : params :=
  [("dm", [ins [("c", YStr "ctl.out")]]);
   ("ctl", [ins [("e", YStr "wfs.out")]]);
   ("wfs", [ins [("a", YStr "atm.out"); ("m", YStr "dm.out:-1")]]);
   ("atm", [])].

Definition ao_ord : order := loop_order (fun _ => true) ["atm"; "wfs"; "ctl"; "dm"] [0; 1; 2; 3]%nat.
Definition w0 : world tS := mkWorld tS (fun _ => (0, -1)) (fun _ => false) [].

(* Two objects of the same trigger list: "c" reads "p" with a delay, and "p" moves its
   output in prepare_trigger() (as the filters with a delay line do). *)
Definition hz (o : string) : code tS tS :=
  if String.eqb o "q" then mk [] (fun _ x => x)
  else if String.eqb o "p" then mkCode tS tS [] (fun _ s => Ok s) (calc (fun _ x => x + 1)) keep stamp (fun _ s => Ok s)
  else if String.eqb o "c" then mk [inp "a" "q" 0; inp "m" "p" (-1)] (fun v _ => targ "m" v)
  else mk [] (fun _ x => x).

Definition hz_ps : params :=
  [("q", []); ("c", [ins [("a", YStr "q.out"); ("m", YStr "p.out:-1")]]); ("p", [])].

(* An object whose only input is an optional list that nobody connected. *)
Definition ol (o : string) : code tS tS :=
  mk [mkInput "l" true true []] (fun _ x => x + 1).
