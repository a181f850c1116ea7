(* Specification vocabulary for distributed simulations. *)
From Coq Require Import String List ZArith Bool.
From Verif Require Import PyBase LoopModel LoopSpec DistModel.
Import ListNotations.

Section DistSpec.
Variables St Dt : Type.
Variable outs : St -> option string -> list Dt.
Variable gtime : Dt -> option Z.
Variable cod : string -> code St Dt.
Variable rank : string -> option nat.

(* [c] connects two objects of the loop that live in different processes *)
Definition valid_conn (ord : order) (c : conn) : Prop :=
  In (cn_dst c) (map fst ord) /\
  exists i, In i (c_inputs St Dt (cod (cn_dst c))) /\ i_name i = cn_in c /\ In (cn_src c) (i_src i) /\
            exists r, rank (s_obj (cn_src c)) = Some r /\ rank (cn_dst c) <> Some r.

(* the objects of the loop, and only they, are assigned to the [n] processes *)
Definition placed (n : nat) (ord : order) : Prop :=
  (forall o, In o (map fst ord) <-> rank o <> None) /\
  (forall o r, rank o = Some r -> (r < n)%nat).

(* different inputs of an object have different names, and an input does not list the
   same reference twice *)
Definition distinct_inputs (ord : order) : Prop :=
  forall o, In o (map fst ord) ->
  NoDup (map i_name (c_inputs St Dt (cod o))) /\
  forall i, In i (c_inputs St Dt (cod o)) -> NoDup (i_src i).

(* an output read by another process is one data object, not a list, and stays so *)
Definition one_message (ord : order) (st : string -> St) : Prop :=
  forall c, valid_conn ord c ->
  let p := s_obj (cn_src c) in let key := s_key (cn_src c) in
  length (outs (st p) key) = 1 /\
  (forall v x x', c_setup St Dt (cod p) v x = Ok x' -> length (outs x key) = 1 -> length (outs x' key) = 1) /\
  (forall f, f = c_prep St Dt (cod p) \/ f = c_trig St Dt (cod p) \/ f = c_post St Dt (cod p) ->
   forall t v x x', f t v x = Ok x' -> length (outs x key) = 1 -> length (outs x' key) = 1).

(* setup() does not change an output that another process reads without delay *)
Definition quiet_setup (ord : order) : Prop :=
  forall c, valid_conn ord c -> (0 <= s_delay (cn_src c))%Z ->
  forall v x x', c_setup St Dt (cod (s_obj (cn_src c))) v x = Ok x' ->
  outs x' (s_key (cn_src c)) = outs x (s_key (cn_src c)).

(* last_iter is true in the last iteration and only there *)
Definition well_flagged (its : list (Z * bool)) : Prop :=
  exists its0 t, its = its0 ++ [(t, true)] /\ forall ti, In ti its0 -> snd ti = false.

(* the same simulation in one process: setup of all objects and the iterations *)
Definition iteration (ord : order) (w : world St) (ti : Z * bool) : res (world St) :=
  iter_step St Dt outs gtime cod ord (fst ti)
            (mkWorld St (w_st St w) (w_chg St w) (w_log St w ++ [EIter (fst ti) (snd ti)])).
Definition one_process (ord : order) (its : list (Z * bool)) (w : world St) : res (world St) :=
  w1 <- fold_res (setup_one St Dt outs cod) w (concat (groups ord)) ;;
  fold_res (iteration ord) w1 its.

(* the iterations of a run of duration [q] steps *)
Definition iterations (q : nat) (dt : Z) : list (Z * bool) :=
  map (fun k => (Z.of_nat k * dt, Z.of_nat k =? niters (Z.of_nat q * dt) dt 0 - 1)%Z) (seq 0 q).

Definition distributable (n : nat) (ord : order) (st : string -> St) : Prop :=
  NoDup (map fst ord) /\ respects St Dt cod ord /\ tame St Dt outs cod ord /\
  placed n ord /\ distinct_inputs ord /\ one_message ord st /\ quiet_setup ord.

(* the same object, keeping the list of the states left by its methods *)
Definition recorded (c : code St Dt) : code (St * list St) Dt :=
  let rec (r : res St) (x : St * list St) := s <- r ;; Ok (s, snd x ++ [s]) in
  mkCode (St * list St) Dt (c_inputs St Dt c)
    (fun v x => rec (c_setup St Dt c v (fst x)) x)
    (fun t v x => rec (c_prep St Dt c t v (fst x)) x)
    (fun t v x => rec (c_trig St Dt c t v (fst x)) x)
    (fun t v x => rec (c_post St Dt c t v (fst x)) x)
    (fun v x => rec (c_final St Dt c v (fst x)) x).

End DistSpec.
