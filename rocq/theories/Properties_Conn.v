(* Properties C19 - C22 and C67: inputs, device transfers, messages and their tags. *)
From Coq Require Import String List Ascii ZArith Bool Lia.
From Verif Require Import PyBase PyLemmas NamesModel ConnModel ConnSpec ConnProofs TagModel TagProofs.
Import ListNotations.
Local Open Scope string_scope.
Local Open Scope Z_scope.

(* ------------------------------------------------------------------ C19 *)

(* Sender and receiver agree on the format of every message, and every receive gives the
   value and the time of the object sent, for any history of an output whose value is
   missing for a while, then an array of fixed size (or a scalar from the beginning). *)
Theorem C19_formats_agree (A X : Type) (vn : string) (dev : Z) (p : dobj A X) (ps : list (dobj A X)) :
  -1 <= dev -> Forall (allocated A X) (p :: ps) -> sendable A X (get_value A X vn p) ->
  chain (fun p p' => steady A X p p' /\ vstep A X (get_value A X vn p) (get_value A X vn p')) (p :: ps) ->
  exists ms cs, send_all A X vn p ps = Ok ms /\ receive_all A X vn dev ms None = Ok cs /\
  Forall2 (fun c q => same_value A X (get_value A X vn c) (get_value A X vn q) /\
                      d_time A X c = d_time A X q) cs (p :: ps).
Proof. exact (wire_ok A X vn dev p ps). Qed.
Print Assumptions C19_formats_agree.

(* The received objects are identical to those sent if nothing but the value and the time
   of the output changes during the run. *)
Theorem C19_faithful (A X : Type) (vn : string) (p : dobj A X) (ps : list (dobj A X)) :
  Forall (allocated A X) (p :: ps) -> sendable A X (get_value A X vn p) ->
  chain (fun p p' => steady A X p p' /\ vstep A X (get_value A X vn p) (get_value A X vn p') /\
                     only_value A X vn p p') (p :: ps) ->
  exists ms cs, send_all A X vn p ps = Ok ms /\
  receive_all A X vn (d_dev A X p) ms None = Ok cs /\
  Forall2 (fun c q => (forall k, attr A X c k = attr A X q k) /\ d_time A X c = d_time A X q) cs (p :: ps).
Proof. exact (wire_faithful A X vn p ps). Qed.
Print Assumptions C19_faithful.

(* a scalar or an array or nothing, plus one attribute that is not an array *)
Definition obj (v : pv Z Z) (s t : Z) : dobj Z Z := mkD Z Z [("s0", Oth Z Z s); ("value", v)] (-1) t.
Notation none := (PyNone Z Z).
Notation arr := (Arr Z Z false).
Definition shown (r : res (list (dobj Z Z))) :=
  match r with Ok l => Some (map (fun d => (dget "value" (d_attrs Z Z d), dget "s0" (d_attrs Z Z d), d_time Z Z d)) l)
             | Err _ => None end.
Definition talk (p : dobj Z Z) (ps : list (dobj Z Z)) : res (list (dobj Z Z)) :=
  ms <- send_all Z Z "value" p ps ;; receive_all Z Z "value" (-1) ms None.

Example C19_example :
  shown (talk (obj none 1 (-1)) [obj none 1 0; obj (arr [3; 4]) 1 1; obj (arr [5; 6]) 1 2]) =
  Some [(Some none, Some (Oth Z Z 1), -1); (Some none, Some (Oth Z Z 1), 0);
        (Some (arr [3; 4]), Some (Oth Z Z 1), 1); (Some (arr [5; 6]), Some (Oth Z Z 1), 2)].
Proof. vm_compute. reflexivity. Qed.
Example C19_example_formats :
  send_all Z Z "value" (obj none 1 (-1)) [obj none 1 0; obj (arr [3; 4]) 1 1; obj (arr [5; 6]) 1 2] =
  Ok [MPickle Z Z (obj none 1 (-1)); MPickle Z Z (obj none 1 0); MPickle Z Z (obj (arr [3; 4]) 1 1);
      MRaw Z Z [5; 6] 2].
Proof. vm_compute. reflexivity. Qed.
Example C19_example_applies :
  Forall (allocated Z Z) [obj none 1 (-1); obj (arr [3; 4]) 1 1; obj (arr [5; 6]) 1 2] /\
  chain (fun p p' => steady Z Z p p' /\ vstep Z Z (get_value Z Z "value" p) (get_value Z Z "value" p') /\
                     only_value Z Z "value" p p')
        [obj none 1 (-1); obj (arr [3; 4]) 1 1; obj (arr [5; 6]) 1 2].
Proof.
  assert (Hal : forall v s t, (forall l, v <> Arr Z Z true l) -> allocated Z Z (obj v s t)).
  { intros v s t Hv. split; [repeat constructor; cbn; intuition discriminate|]. split; [cbn; lia|].
    intros k g l. unfold attr. cbn. destruct (String.eqb k "s0"); [discriminate|].
    destruct (String.eqb k "value"); [|discriminate]. intros E. injection E as ->.
    destruct g; [elim (Hv l eq_refl)|reflexivity]. }
  assert (Hon : forall v v' s t t', only_value Z Z "value" (obj v s t) (obj v' s t')).
  { intros v v' s t t'. split; [reflexivity|]. intros k Hk. unfold attr. cbn.
    destruct (String.eqb k "s0"); [reflexivity|]. destruct (String.eqb k "value") eqn:E; [|reflexivity].
    apply String.eqb_eq in E. congruence. }
  assert (Hst : forall v v' s t t', (forall g l, v = Arr Z Z g l -> exists l', v' = arr l' /\ length l' = length l) ->
                                    steady Z Z (obj v s t) (obj v' s t')).
  { intros v v' s t t' H. split; [reflexivity|]. split.
    - intros k. unfold attr. cbn. destruct (String.eqb k "s0"); [easy|]. destruct (String.eqb k "value"); easy.
    - intros k l [g E]. unfold attr in E. cbn in E. destruct (String.eqb k "s0") eqn:E1; [discriminate|].
      destruct (String.eqb k "value") eqn:E2; [|discriminate]. injection E as ->.
      destruct (H g l eq_refl) as (l' & -> & L). exists l'. split; [|exact L]. exists false. unfold attr. cbn.
      now rewrite E1, E2. }
  split; [apply Forall_cons; [|apply Forall_cons; [|apply Forall_cons; [|apply Forall_nil]]]; apply Hal; discriminate|].
  cbn [chain]. split; [|split; [|exact I]].
  - split; [apply Hst; discriminate|]. split; [exact I|apply Hon].
  - split; [apply Hst; intros g l E; injection E as <- <-; now exists [5; 6]|]. split; [reflexivity|apply Hon].
Qed.

(* Not true in general: a value that is missing at first and then a scalar never reaches the
   receiver, and the next message has the wrong format, ... *)
Theorem C19_scalar_refuted :
  (exists p q ms c d, send_all Z Z "value" p [q] = Ok ms /\ receive_all Z Z "value" (-1) ms None = Ok [c; d] /\
     get_value Z Z "value" q = Scal Z Z 7 /\ get_value Z Z "value" d = PyNone Z Z) /\
  (exists p ps ms, send_all Z Z "value" p ps = Ok ms /\ receive_all Z Z "value" (-1) ms None = Err RuntimeError).
Proof.
  split.
  - exists (obj none 1 (-1)), (obj (Scal Z Z 7) 1 0). do 3 eexists. vm_compute. repeat split.
  - exists (obj none 1 (-1)), [obj (Scal Z Z 7) 1 0; obj (Scal Z Z 8) 1 1]. eexists. vm_compute. repeat split.
Qed.
Print Assumptions C19_scalar_refuted.

(* ... an array that grows after the first message makes the receiver fail, one that shrinks is
   received in part, ... *)
Theorem C19_resize_refuted :
  (exists p q ms, send_all Z Z "value" p [q] = Ok ms /\ receive_all Z Z "value" (-1) ms None = Err RuntimeError /\
     get_value Z Z "value" p = arr [1; 2] /\ get_value Z Z "value" q = arr [1; 2; 3]) /\
  (exists p q ms c d, send_all Z Z "value" p [q] = Ok ms /\ receive_all Z Z "value" (-1) ms None = Ok [c; d] /\
     get_value Z Z "value" q = arr [5] /\ get_value Z Z "value" d = arr [5; 2]).
Proof.
  split.
  - exists (obj (arr [1; 2]) 1 (-1)), (obj (arr [1; 2; 3]) 1 0). eexists. vm_compute. repeat split.
  - exists (obj (arr [1; 2]) 1 (-1)), (obj (arr [5]) 1 0). do 3 eexists. vm_compute. repeat split.
Qed.
Print Assumptions C19_resize_refuted.

(* ... and attributes other than the value keep what they were in the first message (as the
   magnitude-dependent S0 of an electric field). *)
Theorem C19_attributes_refuted :
  exists p q ms c d, send_all Z Z "value" p [q] = Ok ms /\ receive_all Z Z "value" (-1) ms None = Ok [c; d] /\
     attr Z Z q "s0" = Some (Oth Z Z 9) /\ attr Z Z d "s0" = Some (Oth Z Z 1).
Proof. exists (obj (arr [1; 2]) 1 (-1)), (obj (arr [3; 4]) 9 0). do 3 eexists. vm_compute. repeat split. Qed.
Print Assumptions C19_attributes_refuted.

(* ------------------------------------------------------------------ C20 *)

(* The strings that are hashed are different for different connections, if no name contains
   a percent sign and no output is called "None".  Missing: nothing follows for the tags. *)
Theorem C20_strings_partial s d o i s' d' o' i' :
  no_percent s -> no_percent d -> plain_key o -> no_percent s' -> no_percent d' -> plain_key o' ->
  tag_string s d o i = tag_string s' d' o' i' -> s = s' /\ d = d' /\ o = o' /\ i = i'.
Proof. exact (tag_string_inj s d o i s' d' o' i'). Qed.
Print Assumptions C20_strings_partial.
Example C20_example : tag_string "atm" "prop" (Some "layers") "layers" = "atm%prop%layers%layers" /\
                      no_percent "atm" /\ plain_key (Some "layers").
Proof. repeat split. discriminate. Qed.

(* Whatever the hash function, two different connections share a tag: one of the
   connections from the objects "o", "oa", "oaa", ... to the same input. *)
Theorem C20_collision_refuted (hash : string -> Z) :
  exists i j, (i < j)%nat /\ (j <= Z.to_nat (10 ^ 6))%nat /\ name i <> name j /\
  computeTag hash (name i) "prop" (Some "ef") "in" = computeTag hash (name j) "prop" (Some "ef") "in".
Proof.
  destruct (pigeonhole (fun n => computeTag hash (name n) "prop" (Some "ef") "in") (10 ^ 6))
    as (i & j & Hij & Hj & E).
  - reflexivity.
  - intros n. apply Z.mod_pos_bound. reflexivity.
  - exists i, j. split; [exact Hij|]. split; [exact Hj|]. split; [|exact E].
    intros N. injection N as N. apply as_inj in N. lia.
Qed.
Print Assumptions C20_collision_refuted.

(* Names with a percent sign, and an output called "None", are mistaken for others. *)
Theorem C20_names_refuted (hash : string -> Z) :
  computeTag hash "a%b" "c" (Some "o") "i" = computeTag hash "a" "b%c" (Some "o") "i" /\
  computeTag hash "a" "c" None "i" = computeTag hash "a" "c" (Some "None") "i".
Proof. split; reflexivity. Qed.
Print Assumptions C20_names_refuted.

(* ------------------------------------------------------------------ C67 *)

(* [p r] is the process of rank [r]: it has built the objects of that rank and knows the
   ranks of the others. *)
Definition same_configuration (p : nat -> process) (rank : string -> option nat)
  (outs : string -> list string) : Prop :=
  forall r o,
  dget o (p_objs (p r)) = (if match rank o with Some q => Nat.eqb q r | None => false end
                           then Some (outs o) else None) /\
  dget o (p_remote (p r)) = match rank o with
                            | Some q => if Nat.eqb q r then None else Some q
                            | None => None end.

(* Every connection between two processes is made at both ends, with the same tag and with
   each other's rank, and nowhere else; a connection inside a process is made there only. *)
Theorem C67_both_ends (hash : string -> Z) (p : nat -> process) rank outs name inp dst o rs rd :
  same_configuration p rank outs ->
  split_output name = Ok o -> rank (o_obj o) = Some rs -> rank dst = Some rd ->
  (forall k, o_key o = Some k -> In k (outs (o_obj o))) ->
  exists tag, 0 <= tag < 10 ^ 6 /\
  forall r, connect hash (p r) name inp dst =
    Ok (if Nat.eqb r rs then (if Nat.eqb r rd then Local else Send rd tag (o_delay o))
        else if Nat.eqb r rd then Recv rs tag else Nothing).
Proof.
  intros Hc Hs Hrs Hrd Ho. exists (computeTag hash (o_obj o) dst (o_key o) inp).
  split; [apply Z.mod_pos_bound; reflexivity|]. intros r. unfold connect. rewrite Hs. cbn [bind].
  destruct (Hc r (o_obj o)) as [A1 A2]. destruct (Hc r dst) as [B1 B2].
  rewrite Hrs in A1, A2. rewrite Hrd in B1, B2.
  unfold get_ref. rewrite A1. unfold dmem. rewrite A2, B1, B2.
  rewrite (Nat.eqb_sym rs r), (Nat.eqb_sym rd r) in *.
  assert (R : match o_key o with
              | Some k => if existsb (String.eqb k) (outs (o_obj o)) then Ok true else Err ValueError
              | None => Ok true end = @Ok bool true).
  { destruct (o_key o) as [k|]; [|reflexivity].
    replace (existsb (String.eqb k) (outs (o_obj o))) with true; [reflexivity|].
    symmetry. apply existsb_exists. exists k. split; [now apply Ho|apply String.eqb_refl]. }
  destruct (Nat.eqb r rs), (Nat.eqb r rd); try rewrite R; reflexivity.
Qed.
Print Assumptions C67_both_ends.

Definition two (r : nat) : process :=
  match r with
  | O => mkProc [("wfs", ["out"])] [("ctl", 1%nat)]
  | S O => mkProc [("ctl", ["com"])] [("wfs", O)]
  | _ => mkProc [] [("wfs", O); ("ctl", 1%nat)]
  end.
Definition len_hash (s : string) : Z := Z.of_nat (String.length s).
Example C67_example :
  connect len_hash (two 0) "wfs.out:-1" "in" "ctl" = Ok (Send 1 14 (-1)) /\
  connect len_hash (two 1) "wfs.out:-1" "in" "ctl" = Ok (Recv 0 14) /\
  connect len_hash (two 2) "wfs.out:-1" "in" "ctl" = Ok Nothing /\
  connect len_hash (two 1) "ctl.com" "x" "ctl" = Ok Local.
Proof. vm_compute. repeat split. Qed.

(* ------------------------------------------------------------------ C21 *)

(* For any sequence of set and append operations with arbitrarily nested lists of objects of
   the declared type, the input list gives the objects connected since the last set, from
   left to right. *)
Theorem C21_flattened (Obj : Type) (isinstance : Obj -> string -> bool) (ops : list (iop Obj)) (i : inputs Obj) :
  (forall o l, In o ops -> leaves Obj (iop_arg Obj o) l ->
               Forall (fun x => isinstance x (in_type Obj i) = true) l) ->
  exists i' z, run_ops Obj isinstance ops i = Ok i' /\ connected Obj (in_items Obj i) ops z /\
  list_get Obj i' = z /\
  value_get Obj i' = match z with
                     | [] => if in_optional Obj i then Ok None else Err ValueError
                     | [o] => Ok (Some o)
                     | _ => Err ValueError
                     end.
Proof.
  intros H. destruct (run_ops_ok Obj isinstance ops i H) as (z & Z1 & Z2).
  eexists _, z. split; [exact Z2|]. split; [exact Z1|]. rewrite list_get_items. split; [reflexivity|].
  unfold value_get. rewrite list_get_items. reflexivity.
Qed.
Print Assumptions C21_flattened.

(* A single object of another type anywhere in the arguments makes the connection fail. *)
Theorem C21_type_checked (Obj : Type) (isinstance : Obj -> string -> bool) ops (i : inputs Obj) o l x :
  In o ops -> leaves Obj (iop_arg Obj o) l -> In x l -> isinstance x (in_type Obj i) = false ->
  run_ops Obj isinstance ops i = Err ValueError.
Proof.
  intros Ho Hl Hx Hi. apply (run_ops_err Obj isinstance ops i o l Ho Hl).
  apply Exists_exists. now exists x.
Qed.
Print Assumptions C21_type_checked.

(* objects 1..9 are Layers, others are not *)
Definition layer (x : Z) (t : string) : bool := String.eqb t "Layer" && (1 <=? x) && (x <=? 9).
Definition ob (z : Z) := AObj Z z.
Definition li (l : list (arg Z)) := AList Z l.
Definition input0 := mkIn Z "Layer" false [].
Example C21_example :
  (i <- run_ops Z layer [OApp Z (ob 9); OSet Z (li [ob 1; li [ob 2; li []; li [ob 3]]]); OApp Z (ob 4)] input0 ;;
   Ok (list_get Z i)) = Ok [1; 2; 3; 4] /\
  run_ops Z layer [OSet Z (li [ob 1; li [ob 20]])] input0 = Err ValueError /\
  (i <- run_ops Z layer [OSet Z (li [li [ob 7]])] input0 ;; value_get Z i) = Ok (Some 7) /\
  (i <- run_ops Z layer [OSet Z (li [ob 7]); OApp Z (ob 7)] input0 ;; value_get Z i) = Err ValueError /\
  value_get Z input0 = Err ValueError.
Proof. vm_compute. repeat split. Qed.

(* ------------------------------------------------------------------ C22 *)

(* An input on another device delivers, at every fetch, the current content of every array
   attribute and the current time of the producer, as long as arrays keep their sizes. *)
Theorem C22_current_data (A X : Type) (dev : Z) (p : dobj A X) (ps : list (dobj A X)) :
  -1 <= dev -> Forall (allocated A X) (p :: ps) -> chain (steady A X) (p :: ps) ->
  exists cs, fetch_all A X dev (p :: ps) None = Ok cs /\ Forall2 (up_to_date A X) cs (p :: ps).
Proof. intros H1 H2 H3. destruct (fetch_ok A X dev p ps H1 H2 H3) as (cs & E1 & E2 & _). eauto. Qed.
Print Assumptions C22_current_data.

(* Attributes that are not arrays are never updated after the first fetch. *)
Theorem C22_stale_attributes (A X : Type) (dev : Z) (p : dobj A X) (ps : list (dobj A X)) (k : string) :
  -1 <= dev -> Forall (allocated A X) (p :: ps) -> chain (steady A X) (p :: ps) ->
  d_dev A X p <> dev -> Forall (fun p => forall l, ~ array A X p k l) (p :: ps) ->
  exists cs, fetch_all A X dev (p :: ps) None = Ok cs /\
             Forall (fun c => attr A X c k = attr A X p k) cs.
Proof. intros H1 H2 H3 H4 H5. destruct (fetch_ok A X dev p ps H1 H2 H3) as (cs & E1 & _ & E2). eauto. Qed.
Print Assumptions C22_stale_attributes.

Definition gobj (v : pv Z Z) (s t : Z) : dobj Z Z := mkD Z Z [("s0", Oth Z Z s); ("value", v)] 0 t.
Notation garr := (Arr Z Z true).
(* a producer on the GPU, read from the CPU *)
Example C22_example :
  shown (fetch_all Z Z (-1) [gobj none 1 0; gobj (garr [1; 2]) 1 1; gobj (garr [3; 4]) 1 2] None) =
  Some [(Some none, Some (Oth Z Z 1), 0); (Some (arr [1; 2]), Some (Oth Z Z 1), 1);
        (Some (arr [3; 4]), Some (Oth Z Z 1), 2)].
Proof. vm_compute. reflexivity. Qed.

(* So the copy is not the same as the producer in general: other attributes are stale, and
   between two GPUs even an array that changed its size is silently left as it was. *)
Theorem C22_attributes_refuted :
  (exists p q c d, fetch_all Z Z (-1) [p; q] None = Ok [c; d] /\ steady Z Z p q /\
     attr Z Z q "s0" = Some (Oth Z Z 9) /\ attr Z Z d "s0" = Some (Oth Z Z 1)) /\
  (exists p q c d, fetch_all Z Z 1 [p; q] None = Ok [c; d] /\
     attr Z Z q "value" = Some (garr [3; 4; 5]) /\ attr Z Z d "value" = Some (garr [1; 2])).
Proof.
  split.
  - exists (gobj (garr [1; 2]) 1 1), (gobj (garr [3; 4]) 9 2). do 2 eexists.
    split; [vm_compute; reflexivity|]. split; [|split; reflexivity].
    split; [reflexivity|]. unfold attr, array, attr. cbn. split.
    + intros k. destruct (String.eqb k "s0"); [easy|]. destruct (String.eqb k "value"); easy.
    + intros k l. destruct (String.eqb k "s0"); [now intros [g E]|].
      destruct (String.eqb k "value"); [|now intros [g E]]. intros [g E]. injection E as <- <-.
      exists [3; 4]. split; [now exists true|reflexivity].
  - exists (gobj (garr [1; 2]) 1 1), (gobj (garr [3; 4; 5]) 1 2). do 2 eexists. vm_compute. repeat split.
Qed.
Print Assumptions C22_attributes_refuted.

(* Arrays already on the device of the destination are overwritten in place: none of them changes its size. *)
Theorem C22_in_place (A X : Type) (p c c' : dobj A X) : -1 <= d_dev A X c ->
  (forall k v, dget k (d_attrs A X c) = Some v -> exists l, v = Arr A X (0 <=? d_dev A X c) l) ->
  transferDataTo A X p c false = Ok c' ->
  forall k g l, dget k (d_attrs A X c) = Some (Arr A X g l) -> exists l', dget k (d_attrs A X c') = Some (Arr A X g l') /\ length l' = length l.
Proof.
  intros Hd Ha H. unfold transferDataTo in H. inv_bind H. injection H as <-. cbn [d_attrs].
  assert (G : forall src dst a, (forall k v, dget k dst = Some v -> exists l, v = Arr A X (0 <=? d_dev A X c) l) ->
     fold_res (transfer_attr A X (d_dev A X c)) (dst, false) src = Ok a ->
     (forall k g l, dget k dst = Some (Arr A X g l) -> exists l', dget k (fst a) = Some (Arr A X g l') /\ length l' = length l)).
  { clear a E Ha. induction src as [|[k v] src IH]; intros dst a Ha H; cbn [fold_res] in H; [injection H as <-; cbn [fst]; eauto|]. inv_bind H.
    assert (S : exists dst1, a0 = (dst1, false) /\ (forall k v, dget k dst1 = Some v -> exists l, v = Arr A X (0 <=? d_dev A X c) l) /\
        forall k g l, dget k dst = Some (Arr A X g l) -> exists l', dget k dst1 = Some (Arr A X g l') /\ length l' = length l).
    { clear IH H. unfold transfer_attr in E. cbn [fst snd] in E. destruct v as [g l|x| |x]; try (injection E as <-; exists dst; split; [reflexivity|split; [exact Ha|eauto]]).
      destruct (dget k dst) as [dv|] eqn:D; [|discriminate]. destruct (Ha k dv D) as [ld ->]. cbn [is_arr negb orb] in E.
      assert (Fin : forall l', length l' = length ld -> (forall k' v, dget k' (dset k (Arr A X (0 <=? d_dev A X c) l') dst) = Some v -> exists l, v = Arr A X (0 <=? d_dev A X c) l) /\
         forall k' g l, dget k' dst = Some (Arr A X g l) -> exists l'0, dget k' (dset k (Arr A X (0 <=? d_dev A X c) l') dst) = Some (Arr A X g l'0) /\ length l'0 = length l).
      { intros l' Hl. split.
        - intros k' v I. destruct (string_dec k' k) as [->|N]; [rewrite dget_dset_eq in I; injection I as <-; eauto|rewrite dget_dset_neq in I by auto; eauto].
        - intros k' g' l0 D'. destruct (string_dec k' k) as [->|N].
          + rewrite D in D'. injection D' as <- <-. exists l'. split; [apply dget_dset_eq|exact Hl].
          + exists l0. split; [rewrite dget_dset_neq; auto|reflexivity]. }
      assert (Q : exists l', (a0 = (dset k (Arr A X (0 <=? d_dev A X c) l') dst, false) /\ length l' = length ld) \/ a0 = (dst, false)).
      { destruct (Z.leb_spec 0 (d_dev A X c)) as [C|C]; destruct g; cbv beta iota zeta in E.
        - rewrite (proj2 (Z.geb_le _ _) C) in E. unfold np_assign in E. destruct (Nat.eqb_spec (length l) (length ld)); [injection E as <-; eauto|].
          destruct l as [|x [|]]; injection E as <-; [exists []; now right| |exists []; now right]. exists (repeat x (length ld)). left. split; [reflexivity|apply repeat_length].
        - rewrite (proj2 (Z.geb_le _ _) C) in E. unfold exact_assign in E. destruct (Nat.eqb_spec (length l) (length ld)); cbn [bind] in E; [injection E as <-; eauto|discriminate].
        - assert (M : (d_dev A X c =? -1) = true) by (apply Z.eqb_eq; lia). rewrite M in E. unfold exact_assign in E. destruct (Nat.eqb_spec (length l) (length ld)); cbn [bind] in E; [injection E as <-; eauto|discriminate].
        - assert (M : (d_dev A X c =? -1) = true) by (apply Z.eqb_eq; lia). rewrite M in E. unfold np_assign in E. destruct (Nat.eqb_spec (length l) (length ld)); cbn [bind] in E; [injection E as <-; eauto|].
          destruct l as [|x [|]]; cbn [bind] in E; try discriminate. injection E as <-. exists (repeat x (length ld)). left. split; [reflexivity|apply repeat_length]. }
      destruct Q as (l' & [[-> Hl]| ->]); [eexists; split; [reflexivity|exact (Fin l' Hl)]|exists dst; split; [reflexivity|split; [exact Ha|eauto]]]. }
    destruct S as (dst1 & -> & S1 & S2). intros k' g l D. destruct (S2 _ _ _ D) as (l1 & D1 & L1). destruct (IH dst1 a S1 H k' g l1 D1) as (l2 & D2 & L2). exists l2. split; [exact D2|congruence]. }
  exact (G _ _ _ Ha E).
Qed.
Print Assumptions C22_in_place.
Example C22_in_place_example :
  let c := mkD Z Z [("a", arr [0; 0]); ("b", arr [0; 0; 0])] (-1) 0 in
  transferDataTo Z Z (mkD Z Z [("a", garr [1; 2]); ("b", garr [3; 4; 5])] 0 7) c false = Ok (mkD Z Z [("a", arr [1; 2]); ("b", arr [3; 4; 5])] (-1) 7) /\
  transferDataTo Z Z (mkD Z Z [("a", garr [1; 2]); ("b", garr [3; 4])] 0 7) c false = Err ValueError.
Proof. vm_compute. split; reflexivity. Qed.
