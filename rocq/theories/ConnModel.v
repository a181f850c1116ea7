(* Model of data objects, of their transfer between devices, of inputs, and of the
   encoding of data objects in messages between processes.

   Modelled code:
   - specula/base_data_obj.py:36-135 (transferDataTo, copyTo)
   - specula/connections.py:6-150 (_InputItem, InputList, InputValue)
   - specula/lib/utils.py:344-359 (flatten)
   - specula/base_processing_obj.py:155-173 (send_remote_output)
   - specula/base_value.py:27-37 (get_value, set_value)

   Simplifications.
   - Arrays are one-dimensional; [dst[:] = src] is defined for equal lengths and for one
     source element (broadcast).  Dtypes and copies of equal data are not represented.
   - Attributes are visited in the order of the list [d_attrs] (dir() gives alphabetical
     order); properties are not attributes.
   - "The GPU" stands for any device with index >= 0. *)
From Coq Require Import String List ZArith Bool.
From Verif Require Import PyBase.
Import ListNotations.
Local Open Scope Z_scope.

(* lib/utils.py:344-359: [flatten] of nested lists whose leaves are not iterable *)
Inductive nested (T : Type) := Leaf (x : T) | Nest (l : list (nested T)).
Arguments Leaf {T} x.
Arguments Nest {T} l.
Fixpoint flatten {T} (x : nested T) : list T :=
  match x with
  | Leaf t => [t]
  | Nest l => (fix go (l : list (nested T)) := match l with [] => [] | y :: r => flatten y ++ go r end) l
  end.

Section Conn.
Variable A : Type.        (* array elements *)
Variable X : Type.        (* any other Python value *)

(* The value of an attribute. [Arr gpu l]: numpy (gpu = false) or cupy array. *)
Inductive pv :=
| Arr (gpu : bool) (l : list A)
| Scal (a : A)
| PyNone
| Oth (x : X).

(* A data object: its attributes, target_device_idx, generation_time *)
Record dobj := mkD { d_attrs : dict pv; d_dev : Z; d_time : Z }.

Definition is_arr (v : pv) : bool := match v with Arr _ _ => true | _ => false end.
Definition is_none (v : pv) : bool := match v with PyNone => true | _ => false end.

(* numpy [dst[:] = src] *)
Definition np_assign (src dst : list A) : res (list A) :=
  if Nat.eqb (length src) (length dst) then Ok src
  else match src with [a] => Ok (repeat a (length dst)) | _ => Err ValueError end.

(* ndarray.get(out=..), ndarray.set(..): shapes must match *)
Definition exact_assign (src dst : list A) : res (list A) :=
  if Nat.eqb (length src) (length dst) then Ok src else Err ValueError.

(* base_data_obj.py:48-114: one array attribute.  [force] is force_reallocation, which
   remains set for the following attributes. *)
Definition transfer_attr (dev : Z) (acc : dict pv * bool) (kv : string * pv) :
  res (dict pv * bool) :=
  let '(attrs, force) := acc in
  match snd kv with
  | Arr g l =>
      match dget (fst kv) attrs with
      | None => Err AttributeError
      | Some dv =>
          let force := force || negb (is_arr dv) in
          let realloc (force : bool) :=
            if force then
              (* lines 99-114 *)
              let attrs := if dev >=? 0 then dset (fst kv) (Arr true l) attrs
                           else if dev =? -1 then dset (fst kv) (Arr false l) attrs
                           else attrs in
              Ok (attrs, true)
            else Ok (attrs, false) in
          match force, dv with
          | false, Arr gd ld =>
              (* lines 66-96 *)
              match g, gd with
              | true, true =>
                  if dev >=? 0 then
                    (* try: dest_attr[:] = self_attr  except: dest_attr = self_attr *)
                    match np_assign l ld with
                    | Ok l' => Ok (dset (fst kv) (Arr gd l') attrs, false)
                    | Err _ => Ok (attrs, false)
                    end
                  else realloc true
              | true, false =>
                  if dev =? -1 then
                    l' <- exact_assign l ld ;; Ok (dset (fst kv) (Arr gd l') attrs, false)
                  else realloc true
              | false, true =>
                  if dev >=? 0 then
                    l' <- exact_assign l ld ;; Ok (dset (fst kv) (Arr gd l') attrs, false)
                  else realloc true
              | false, false =>
                  if dev =? -1 then
                    l' <- np_assign l ld ;; Ok (dset (fst kv) (Arr gd l') attrs, false)
                  else realloc true
              end
          | _, _ => realloc true
          end
      end
  | _ => Ok acc
  end.

(* base_data_obj.py:36-116: self.transferDataTo(destobj, force) *)
Definition transferDataTo (self dst : dobj) (force : bool) : res dobj :=
  acc <- fold_res (transfer_attr (d_dev dst)) (d_attrs dst, force) (d_attrs self) ;;
  Ok (mkD (fst acc) (d_dev dst) (d_time self)).

(* base_data_obj.py:118-135 *)
Definition copyTo (self : dobj) (dev : Z) : res dobj :=
  if dev =? d_dev self then Ok self
  else transferDataTo self (mkD (d_attrs self) dev (d_time self)) true.

(* connections.py:56-75: get() of a local item.  [ref] is the current state of the object
   it refers to, [clone] the cloned_value.  When the devices coincide the result is the
   producer's object itself. *)
Definition item_get (dev : Z) (ref : dobj) (clone : option dobj) : res dobj :=
  if d_dev ref =? dev then Ok ref
  else match clone with
       | None => copyTo ref dev
       | Some c => transferDataTo ref c false
       end.

(* --------------------------------------------------------------- inputs (C21) *)

(* A connected object: identity, and the classes it is an instance of. *)
Section Inputs.
Variable Obj : Type.
Variable isinstance : Obj -> string -> bool.

(* The argument of set() and append(): an object, or a list of such arguments. *)
Inductive arg := AObj (o : Obj) | AList (l : list arg).

Record inputs := mkIn { in_type : string; in_optional : bool; in_items : list Obj }.

(* connections.py:104-124: append of local items *)
Fixpoint append (x : arg) (i : inputs) : res inputs :=
  match x with
  | AObj o =>
      if isinstance o (in_type i) then
        Ok (mkIn (in_type i) (in_optional i) (in_items i ++ [o]))
      else Err ValueError
  | AList l =>
      (fix go (l : list arg) (i : inputs) : res inputs :=
         match l with
         | [] => Ok i
         | x :: r => i' <- append x i ;; go r i'
         end) l i
  end.

(* connections.py:97-102, 131-136 *)
Definition set (x : arg) (i : inputs) : res inputs :=
  append x (mkIn (in_type i) (in_optional i) []).

(* connections.py:95-96: get() of an InputList *)
Definition list_get (i : inputs) : list Obj := flatten (Nest (map Leaf (in_items i))).

(* connections.py:138-150: get() of an InputValue *)
Definition value_get (i : inputs) : res (option Obj) :=
  match list_get i with
  | [] => if in_optional i then Ok None else Err ValueError
  | [o] => Ok (Some o)
  | _ => Err ValueError
  end.
End Inputs.

(* ---------------------------------------------------------- messages (C19) *)
Section Wire.
Variable vname : string.     (* the attribute read by get_value() and written by set_value() *)

Definition get_value (d : dobj) : pv :=
  match dget vname (d_attrs d) with Some v => v | None => PyNone end.

(* A message: the pickled object, or the raw buffer followed by the time stamp (the latter
   travels with the next tag). *)
Inductive msg := MPickle (d : dobj) | MRaw (l : list A) (t : Z).

(* base_processing_obj.py:155-173. [sv]: dest_tag in self.sent_valid *)
Definition send (first : bool) (d : dobj) (sv : bool) : res (msg * bool) :=
  m <- (if first || negb sv then Ok (MPickle d)
        else match get_value d with
             | Arr _ l => Ok (MRaw l (d_time d))
             | Scal a => Ok (MRaw [a] (d_time d))
             | PyNone => Err TypeError      (* an array of Python objects cannot be sent *)
             | Oth _ => Err TypeError
             end) ;;
  Ok (m, sv || negb (is_none (get_value d))).

(* MPI Recv into a buffer: shorter messages fill its beginning, longer ones are an error *)
Definition fill (msg buffer : list A) : res (list A) :=
  if Nat.leb (length msg) (length buffer) then Ok (msg ++ skipn (length msg) buffer)
  else Err RuntimeError.

(* connections.py:31-54 and 69-75: get() of a remote item when [m] is the message at the
   head of its channel.  A receive of the wrong kind fails. *)
Definition receive (dev : Z) (m : msg) (clone : option dobj) : res dobj :=
  match clone with
  | None =>
      match m with
      | MPickle d => copyTo d dev
      | MRaw _ _ => Err RuntimeError
      end
  | Some c =>
      match get_value c, m with
      | PyNone, MPickle d => transferDataTo d c false
      | PyNone, MRaw _ _ => Err RuntimeError
      | _, MPickle _ => Err RuntimeError
      | Arr g old, MRaw l t =>
          l' <- fill l old ;;
          let c' := mkD (dset vname (Arr g l') (d_attrs c)) (d_dev c) t in
          transferDataTo c' c' false
      | Scal _, MRaw l t =>
          match l with
          | [a] => let c' := mkD (dset vname (Scal a) (d_attrs c)) (d_dev c) t in
                   transferDataTo c' c' false
          | _ => Err RuntimeError
          end
      | Oth _, MRaw _ _ => Err TypeError
      end
  end.

(* The messages sent for the successive states of an output: the first one before the
   setup with first_mpi_send=True, the others with False (loop_control.py:82,107,152). *)
Fixpoint send_rest (ds : list dobj) (sv : bool) : res (list msg) :=
  match ds with
  | [] => Ok []
  | d :: r => ms <- send false d sv ;; l <- send_rest r (snd ms) ;; Ok (fst ms :: l)
  end.
Definition send_all (d0 : dobj) (ds : list dobj) : res (list msg) :=
  ms <- send true d0 false ;; l <- send_rest ds (snd ms) ;; Ok (fst ms :: l).

(* The successive results of get() in the receiving process. *)
Fixpoint receive_all (dev : Z) (ms : list msg) (clone : option dobj) : res (list dobj) :=
  match ms with
  | [] => Ok []
  | m :: r => c <- receive dev m clone ;; l <- receive_all dev r (Some c) ;; Ok (c :: l)
  end.
End Wire.

(* The successive results of get() of a local item for successive states of the producer. *)
Fixpoint fetch_all (dev : Z) (ps : list dobj) (clone : option dobj) : res (list dobj) :=
  match ps with
  | [] => Ok []
  | p :: r => c <- item_get dev p clone ;; l <- fetch_all dev r (Some c) ;; Ok (c :: l)
  end.

End Conn.

