(* Python-level vocabulary shared by all models: exceptions as values, ordered
   dictionaries, a few string functions.  No proofs about SPECULA here. *)
From Coq Require Import String List Ascii ZArith Bool Arith Lia.
Import ListNotations.

(* Python exception classes that the modelled code can raise.  [OutOfFuel] is not
   a Python exception: it marks exhaustion of the recursion fuel used to define a
   Python loop as a total function.  Either it is proved unreachable, or (for loops
   that need not stop) it stands for "still running". *)
Inductive exn : Type :=
| ValueError | KeyError | TypeError | AttributeError | IndexError
| RuntimeError | UnboundLocalError | AssertionError | ZeroDivisionError
| NotImplementedError | OutOfFuel.

(* Result of a Python computation: a value or a raised exception. *)
Inductive res (A : Type) : Type :=
| Ok (a : A)
| Err (e : exn).
Arguments Ok {A} a.
Arguments Err {A} e.

Definition bind {A B} (m : res A) (f : A -> res B) : res B :=
  match m with Ok a => f a | Err e => Err e end.

Notation "x <- m ;; k" := (bind m (fun x => k))
  (at level 61, m at next level, right associativity).

(* [ [f(x) for x in l] ]: list comprehension, left to right, first exception wins. *)
Fixpoint map_res {A B} (f : A -> res B) (l : list A) : res (list B) :=
  match l with
  | [] => Ok []
  | x :: r => y <- f x ;; ys <- map_res f r ;; Ok (y :: ys)
  end.

(* [ [x for x in l if p(x)] ] with a condition that may raise. *)
Fixpoint filter_res {A} (p : A -> res bool) (l : list A) : res (list A) :=
  match l with
  | [] => Ok []
  | x :: r =>
      b <- p x ;; ys <- filter_res p r ;; Ok (if b then x :: ys else ys)
  end.

(* [for x in l: s = f(s, x)] with exceptions. *)
Fixpoint fold_res {A S} (f : S -> A -> res S) (s : S) (l : list A) : res S :=
  match l with
  | [] => Ok s
  | x :: r => s' <- f s x ;; fold_res f s' r
  end.

(* Python dictionaries with string keys: association lists in insertion order. *)
Definition dict (A : Type) := list (string * A).

Definition dkeys {A} (d : dict A) : list string := map fst d.

Fixpoint dget {A} (k : string) (d : dict A) : option A :=
  match d with
  | [] => None
  | (k', v) :: r => if String.eqb k k' then Some v else dget k r
  end.

Definition dmem {A} (k : string) (d : dict A) : bool :=
  match dget k d with Some _ => true | None => false end.

(* d[k] = v: keeps the position of an existing key, appends a new one. *)
Fixpoint dset {A} (k : string) (v : A) (d : dict A) : dict A :=
  match d with
  | [] => [(k, v)]
  | (k', v') :: r => if String.eqb k k' then (k, v) :: r else (k', v') :: dset k v r
  end.

(* del d[k] for a present key. *)
Definition ddel {A} (k : string) (d : dict A) : dict A :=
  filter (fun kv => negb (String.eqb k (fst kv))) d.

(* d.update(e) *)
Definition dupdate {A} (d e : dict A) : dict A :=
  fold_left (fun acc kv => dset (fst kv) (snd kv) acc) e d.

(* Values as produced by yaml.safe_load.  Floats are opaque to the modelled code
   and are represented by their text. *)
Inductive yval : Type :=
| YNone
| YBool (b : bool)
| YInt (z : Z)
| YFloat (s : string)
| YStr (s : string)
| YList (l : list yval)
| YDict (d : list (string * yval)).

(* A parameter file: object name -> parameter dictionary. *)
Definition pars := dict yval.
Definition params := dict pars.

(* ---- strings ---- *)
Local Open Scope char_scope.

Fixpoint has_char (c : ascii) (s : string) : bool :=
  match s with
  | EmptyString => false
  | String a r => Ascii.eqb c a || has_char c r
  end.

(* s.split(c) for a one-character separator. *)
Fixpoint split_char (c : ascii) (s : string) : list string :=
  match s with
  | EmptyString => [EmptyString]
  | String a r =>
      if Ascii.eqb c a then EmptyString :: split_char c r
      else match split_char c r with
           | [] => [String a EmptyString]
           | w :: ws => String a w :: ws
           end
  end.

(* a, b = s.split(c): tuple unpacking fails with ValueError unless there are
   exactly two parts. *)
Definition split2 (c : ascii) (s : string) : res (string * string) :=
  match split_char c s with
  | [a; b] => Ok (a, b)
  | _ => Err ValueError
  end.

Definition is_digit (a : ascii) : bool :=
  let n := nat_of_ascii a in (48 <=? n)%nat && (n <=? 57)%nat.

Definition digit_val (a : ascii) : Z := Z.of_nat (nat_of_ascii a - 48).

(* ASCII white space accepted by int() around the number. *)
Definition is_space (a : ascii) : bool :=
  let n := nat_of_ascii a in ((9 <=? n)%nat && (n <=? 13)%nat) || (n =? 32)%nat
                             || ((28 <=? n)%nat && (n <=? 31)%nat).

(* The digits of int(): at least one digit, single underscores allowed between
   digits.  [prev] tells whether the previous character was a digit. *)
Fixpoint int_digits (s : string) (prev : bool) (acc : Z) : option Z :=
  match s with
  | EmptyString => if prev then Some acc else None
  | String a r =>
      if is_digit a then int_digits r true (10 * acc + digit_val a)%Z
      else if Ascii.eqb a "_" then (if prev then int_digits r false acc else None)
      else None
  end.

Fixpoint lstrip (s : string) : string :=
  match s with
  | String a r => if is_space a then lstrip r else s
  | EmptyString => EmptyString
  end.

Fixpoint rstrip (s : string) : string :=
  match s with
  | EmptyString => EmptyString
  | String a r =>
      match rstrip r with
      | EmptyString => if is_space a then EmptyString else String a EmptyString
      | r' => String a r'
      end
  end.

(* int(s) for a string (base 10; non-ASCII digits and white space not modelled). *)
Definition py_int (s : string) : res Z :=
  match rstrip (lstrip s) with
  | EmptyString => Err ValueError
  | String a r =>
      let m := if Ascii.eqb a "-" then (int_digits r false 0, (-1)%Z)
               else if Ascii.eqb a "+" then (int_digits r false 0, 1%Z)
               else (int_digits (String a r) false 0, 1%Z) in
      match fst m with Some z => Ok (snd m * z)%Z | None => Err ValueError end
  end.

(* s.endswith(suffix) *)
Definition ends_with (suffix s : string) : bool :=
  (String.length suffix <=? String.length s)%nat &&
  String.eqb (substring (String.length s - String.length suffix) (String.length suffix) s) suffix.
