(* Properties C08 - C10, C46, C68: parameter dictionaries, construction order, replay. *)
From Coq Require Import String List Ascii ZArith Bool Arith Lia.
From Verif Require Import PyBase PyLemmas NamesModel NamesSpec NamesProofs TrigOrderModel TrigOrderSpec
  TrigOrderProofs ConnProofs ParamsModel ParamsSpec ParamsProofs ParamsProofs2 ParamsProofs3 ParamsProofs4.
Import ListNotations.
Local Open Scope string_scope.
Local Open Scope list_scope.

(* ------------------------------------------------------------------ C08 *)

(* The construction order contains every object once, after the objects it refers to. *)
Theorem C08_build_order (ps : params) (order : list string) :
  NoDup (map fst ps) -> build_order ps = Ok order ->
  NoDup order /\ (forall k, In k order <-> declared ps k) /\
  (forall k r, uses ps k r -> before order r k) /\ acyclic (uses ps).
Proof. intros N. exact (build_order_sound ps N order). Qed.
Print Assumptions C08_build_order.

(* When all references are to declared objects and are not circular, there is such an order. *)
Theorem C08_build_order_exists (ps : params) :
  NoDup (map fst ps) -> refs_ok ps -> acyclic (uses ps) -> exists order, build_order ps = Ok order.
Proof. intros _. exact (build_order_total ps). Qed.
Print Assumptions C08_build_order_exists.

(* A circular reference is never accepted. *)
Theorem C08_circular (ps : params) (k : string) (cycle : list string) :
  NoDup (map fst ps) -> cycle <> [] ->
  (forall l1 a b l2, k :: cycle ++ [k] = l1 ++ a :: b :: l2 -> uses ps a b) ->
  forall order, build_order ps <> Ok order.
Proof.
  intros N _ H order Q. destruct (C08_build_order ps order N Q) as (_ & _ & _ & [rank Hr]).
  assert (G : forall l x y, (forall l1 a b l2, x :: l ++ [y] = l1 ++ a :: b :: l2 -> uses ps a b) -> rank y < rank x).
  { clear -Hr. induction l as [|z l IH]; intros x y H.
    - apply Hr. exact (H [] x y [] eq_refl).
    - assert (rank z < rank x) by (apply Hr; exact (H [] x z (l ++ [y]) eq_refl)).
      assert (rank y < rank z); [|lia]. apply IH. intros l1 a b l2 E. apply (H (x :: l1) a b l2). cbn. now rewrite <- E. }
  specialize (G cycle k k H). lia.
Qed.
Print Assumptions C08_circular.

Definition ex_refs : params :=
  [("prop", [("class", YStr "AtmoPropagation"); ("source_dict_ref", YList [YStr "on_axis"; YStr "off_axis"]);
             ("main_ref", YStr "main")]);
   ("off_axis", [("class", YStr "Source"); ("main_ref", YStr "main")]);
   ("main", [("class", YStr "SimulParams")]);
   ("on_axis", [("class", YStr "Source")])].
Example C08_example :
  build_order ex_refs = Ok ["on_axis"; "main"; "off_axis"; "prop"] /\
  build_order [("a", [("x_ref", YStr "b")]); ("b", [("x_ref", YStr "a")])] = Err OutOfFuel /\
  build_order [("a", [("x_ref", YStr "b")])] = Err KeyError.
Proof. vm_compute. auto. Qed.

(* ------------------------------------------------------------------ C09 *)

(* The entries of the additional file act one after the other: each is skipped when it is
   numbered for another simulation, or removes, overrides or adds exactly what it names. *)
Theorem C09_combine (idx : Z) (ps ps' : params) (additional : dict yval) :
  wf_params ps -> wf_file additional ->
  (forall name v, In (name, v) additional -> effective idx name (Some "remove") -> exists l, v = YList l) ->
  combine_params idx ps additional = Ok ps' ->
  file_effect idx additional ps ps' /\ wf_params ps'.
Proof. exact (combine_effect idx additional ps ps'). Qed.
Print Assumptions C09_combine.

Lemma override_not_remove o : (o ++ "_override")%string <> "remove".
Proof.
  intros H. apply (f_equal (ends_with "_override")) in H.
  assert (E : ends_with "_override" (o ++ "_override") = true) by (apply ends_with_iff; now eexists).
  rewrite E in H. discriminate.
Qed.

(* An override of an object that does not exist at that point is rejected, as is the
   addition of one that does, and the removal of one that does not. *)
Theorem C09_missing_override (idx : Z) (ps ps1 : params) (a b : dict yval) (name o : string) (v : yval) :
  combine_params idx ps a = Ok ps1 -> effective idx name (Some (o ++ "_override")%string) -> ~ declared ps1 o ->
  combine_params idx ps (a ++ (name, v) :: b) = Err ValueError.
Proof.
  intros H1 H2 H3. rewrite (combine_app _ _ _ _ _ H1), (combine_one _ _ _ _ _ _ H2). unfold combine_entry.
  pose proof (override_not_remove o) as N. apply String.eqb_neq in N. rewrite N.
  assert (E : ends_with "_override" (o ++ "_override") = true) by (apply ends_with_iff; now eexists). rewrite E.
  change 9 with (String.length "_override"). rewrite drop_last_app. apply dget_None in H3. cbn zeta. now rewrite H3.
Qed.
Print Assumptions C09_missing_override.

Theorem C09_duplicate (idx : Z) (ps ps1 : params) (a b : dict yval) (name o : string) (v : yval) :
  combine_params idx ps a = Ok ps1 -> effective idx name (Some o) -> o <> "remove" ->
  (forall c, o <> (c ++ "_override")%string) -> declared ps1 o ->
  combine_params idx ps (a ++ (name, v) :: b) = Err ValueError.
Proof.
  intros H1 H2 N1 N2 H3. rewrite (combine_app _ _ _ _ _ H1), (combine_one _ _ _ _ _ _ H2). unfold combine_entry.
  apply String.eqb_neq in N1. rewrite N1. destruct (ends_with "_override" o) eqn:E.
  - apply ends_with_iff in E as [c E]. now elim (N2 c).
  - apply dmem_declared in H3. now rewrite H3.
Qed.
Print Assumptions C09_duplicate.

Theorem C09_missing_removal (idx : Z) (ps ps1 : params) (a b : dict yval) (name o : string) (os1 os2 : list string) :
  combine_params idx ps a = Ok ps1 -> effective idx name (Some "remove") -> ~ declared ps1 o ->
  forall ps', combine_params idx ps (a ++ (name, YList (map YStr (os1 ++ o :: os2))) :: b) <> Ok ps'.
Proof.
  intros H1 H2 H3 ps'. rewrite (combine_app _ _ _ _ _ H1), (combine_one _ _ _ _ _ _ H2). intros H. inv_bind H.
  assert (M : forall os1 : list string, ~ In o os1 -> forall os2 ps', fold_res remove_one ps1 (map YStr (os1 ++ o :: os2)) <> Ok ps').
  { intros l N os ps2. now apply removes_missing. }
  assert (Sp : exists l1 l2, ~ In o l1 /\ os1 ++ o :: os2 = l1 ++ o :: l2).
  { clear. induction os1 as [|x os1 IH]; [now exists [], os2|]. destruct (string_dec x o) as [->|N].
    - exists [], (os1 ++ o :: os2). split; [easy|reflexivity].
    - destruct IH as (l1 & l2 & I1 & I2). exists (x :: l1), l2. split; [intros [?|?]; [congruence|contradiction]|]. cbn. now rewrite I2. }
  destruct Sp as (l1 & l2 & I1 & I2). rewrite I2 in E. exact (M l1 I1 l2 a0 E).
Qed.
Print Assumptions C09_missing_removal.

(* What a removal does, in words: the object is gone, nothing in the remaining inputs comes
   from it, and everything else is as before. *)
Theorem C09_removal_complete (o : string) (ps ps' : params) : removes o ps ps' ->
  ~ declared ps' o /\
  forall k i v, input ps' k i = Some v -> k <> o -> forall s d, v = YStr s \/ (exists l, v = YList l /\ In (YStr s) l) -> ~ refers s o d.
Proof.
  intros (H1 & H2 & H3). split.
  - unfold declared. fold (dkeys ps'). rewrite H2. intros Q. apply filter_In in Q as [_ Q].
    now rewrite String.eqb_refl in Q.
  - intros k i v Hv Nk s d Hs R. destruct (H3 k Nk) as (_ & C & _). specialize (C i). rewrite Hv in C. inversion C; subst.
    + destruct Hs as [Hs|(l & Hs & _)]; [|discriminate]. injection Hs as ->.
      match goal with Q : refers s ?x _, N : ?x <> o |- _ => apply N; exact (proj1 (refers_fun _ _ _ _ _ Q R)) end.
    + destruct Hs as [Hs|(l0 & Hs & Hin)]; [discriminate|]. injection Hs as ->.
      match goal with Q : forall x, In x l0 <-> _ |- _ => apply Q in Hin as [_ Hin]; apply Hin end. now exists s, d.
    + destruct Hs as [Hs|(l0 & Hs & Hin)]; congruence.
Qed.
Print Assumptions C09_removal_complete.

Definition ex_base : params :=
  [("main", [("class", YStr "SimulParams"); ("total_time", YInt 1)]);
   ("wfs", [("class", YStr "SH"); ("inputs", YDict [("in_ef", YStr "prop.out_ef")])]);
   ("rec", [("class", YStr "Modalrec"); ("inputs", YDict [("in_slopes", YStr "wfs.out_slopes")])]);
   ("disp", [("class", YStr "Display"); ("inputs", YDict [("in_list", YList [YStr "wfs.out_i"; YStr "rec.out_modes"])])]);
   ("prop", [("class", YStr "AtmoPropagation")])].
Example C09_example :
  combine_params 2 ex_base
    [("remove", YList [YStr "wfs"]); ("main_override_2", YDict [("total_time", YInt 5)]);
     ("main_override_3", YDict [("total_time", YInt 7)]); ("dm", YDict [("class", YStr "DM")])]
  = Ok [("main", [("class", YStr "SimulParams"); ("total_time", YInt 5)]);
        ("rec", [("class", YStr "Modalrec"); ("inputs", YDict [])]);
        ("disp", [("class", YStr "Display"); ("inputs", YDict [("in_list", YList [YStr "rec.out_modes"])])]);
        ("prop", [("class", YStr "AtmoPropagation")]);
        ("dm", [("class", YStr "DM")])] /\
  combine_params 2 ex_base [("dm_override", YDict [])] = Err ValueError /\
  combine_params 2 ex_base [("wfs", YDict [])] = Err ValueError /\
  combine_params 2 ex_base [("remove_2", YList [YStr "nothing"])] = Err ValueError.
Proof. vm_compute. auto. Qed.

(* ------------------------------------------------------------------ C10 *)

(* obj.param sets one parameter of an existing object. *)
Theorem C10_two_parts (ps : params) (a b : string) (v : yval) : free_of "." a -> free_of "." b ->
  if in_dec string_dec a (map fst ps)
  then exists ps', apply_overrides [(a ++ "." ++ b, v)]%string ps = Ok ps' /\ dkeys ps' = dkeys ps /\
         param ps' a b = Some v /\
         forall k n, (k, n) <> (a, b) -> param ps' k n = param ps k n
  else apply_overrides [(a ++ "." ++ b, v)]%string ps = Err KeyError.
Proof.
  intros Ha Hb. unfold apply_overrides, fold_res, apply_override. cbn [fst snd]. rewrite (split_two a b Ha Hb).
  destruct (in_dec string_dec a (map fst ps)) as [Hd|Hd].
  - apply dget_declared in Hd as [p Hp]. rewrite Hp. cbn [bind]. eexists. split; [reflexivity|].
    split; [now apply (dset_keys_some _ _ p)|]. unfold param. split; [now rewrite dget_dset_eq, dget_dset_eq|].
    intros k n N. destruct (string_dec k a) as [->|Nk]; [|now rewrite dget_dset_neq by congruence].
    rewrite dget_dset_eq, Hp. apply dget_dset_neq. congruence.
  - apply dget_None in Hd. now rewrite Hd.
Qed.
Print Assumptions C10_two_parts.

(* obj.param.key sets one entry of a parameter that is a dictionary. *)
Theorem C10_three_parts (ps : params) (a b c : string) (v : yval) (d : dict yval) :
  free_of "." a -> free_of "." b -> free_of "." c -> param ps a b = Some (YDict d) ->
  exists ps' d', apply_overrides [(a ++ "." ++ b ++ "." ++ c, v)]%string ps = Ok ps' /\ dkeys ps' = dkeys ps /\
    param ps' a b = Some (YDict d') /\ dget c d' = Some v /\
    (forall e, e <> c -> dget e d' = dget e d) /\
    forall k n, (k, n) <> (a, b) -> param ps' k n = param ps k n.
Proof.
  intros Ha Hb Hc Hp. unfold apply_overrides, fold_res, apply_override. cbn [fst snd]. rewrite (split_three a b c Ha Hb Hc).
  unfold param in Hp. destruct (dget a ps) as [p|] eqn:E; [|discriminate]. rewrite Hp. cbn [bind].
  exists (dset a (dset b (YDict (dset c v d)) p) ps), (dset c v d). split; [reflexivity|].
  split; [now apply (dset_keys_some _ _ p)|]. unfold param. split; [now rewrite dget_dset_eq, dget_dset_eq|].
  split; [apply dget_dset_eq|]. split; [intros e N; apply dget_dset_neq; congruence|].
  intros k n N. destruct (string_dec k a) as [->|Nk]; [|now rewrite dget_dset_neq by congruence].
  rewrite dget_dset_eq, E. apply dget_dset_neq. congruence.
Qed.
Print Assumptions C10_three_parts.

(* Only keys with two or three parts are accepted. *)
Theorem C10_other_forms (overrides : dict yval) (ps ps' : params) (key : string) (v : yval) :
  apply_overrides overrides ps = Ok ps' -> In (key, v) overrides -> exists a b, addresses key a b.
Proof.
  unfold apply_overrides. revert ps. induction overrides as [|[k0 v0] os IH]; cbn [fold_res]; intros ps H Q0; [destruct Q0|destruct Q0 as [Q|Q]].
  - injection Q as -> ->. inv_bind H. apply override_inv in E as (x & y & p & w & [(E & _ & Hx & Hy & _)|(c & d & E & _ & Hx & Hy & Hc & _)]);
    exists x, y; (split; [exact Hx|]; split; [exact Hy|]); [now left|right; now exists c].
  - inv_bind H. apply (IH _ H Q).
Qed.
Print Assumptions C10_other_forms.

(* Whatever the overrides, the parameters that they do not name are unchanged. *)
Theorem C10_frame (overrides : dict yval) (ps ps' : params) : apply_overrides overrides ps = Ok ps' ->
  dkeys ps' = dkeys ps /\
  forall k n, (forall key v, In (key, v) overrides -> ~ addresses key k n) -> param ps' k n = param ps k n.
Proof. exact (overrides_frame overrides ps ps'). Qed.
Print Assumptions C10_frame.

(* The last override of a parameter is the one that remains. *)
Theorem C10_last (os1 os2 : dict yval) (ps ps' : params) (a b : string) (v : yval) :
  free_of "." a -> free_of "." b -> apply_overrides (os1 ++ ((a ++ "." ++ b)%string, v) :: os2) ps = Ok ps' ->
  (forall key w, In (key, w) os2 -> ~ addresses key a b) -> param ps' a b = Some v.
Proof.
  intros Ha Hb H N. unfold apply_overrides in H. rewrite fold_res_app in H. inv_bind H. cbn [fold_res] in H. inv_bind H.
  destruct (overrides_frame os2 a1 ps' H) as [_ F]. rewrite (F a b N). clear F H.
  unfold apply_override in E0. cbn [fst snd] in E0. rewrite (split_two a b Ha Hb) in E0.
  destruct (dget a a0) as [p|]; [|discriminate]. injection E0 as <-. unfold param. now rewrite dget_dset_eq, dget_dset_eq.
Qed.
Print Assumptions C10_last.

Example C10_example :
  apply_overrides [("main.total_time", YInt 9); ("rec.inputs.in_slopes", YStr "other.out_slopes"); ("wfs.new", YInt 3)] ex_base
  = Ok [("main", [("class", YStr "SimulParams"); ("total_time", YInt 9)]);
        ("wfs", [("class", YStr "SH"); ("inputs", YDict [("in_ef", YStr "prop.out_ef")]); ("new", YInt 3)]);
        ("rec", [("class", YStr "Modalrec"); ("inputs", YDict [("in_slopes", YStr "other.out_slopes")])]);
        ("disp", [("class", YStr "Display"); ("inputs", YDict [("in_list", YList [YStr "wfs.out_i"; YStr "rec.out_modes"])])]);
        ("prop", [("class", YStr "AtmoPropagation")])] /\
  apply_overrides [("main", YInt 9)] ex_base = Err ValueError /\
  apply_overrides [("main.a.b.c", YInt 9)] ex_base = Err ValueError /\
  apply_overrides [("nobody.x", YInt 9)] ex_base = Err KeyError.
Proof. vm_compute. auto. Qed.

(* ------------------------------------------------------------------ C46 *)

(* With one data store, the replay configuration has a data source with the stored outputs
   instead of the store and of the stored objects; the inputs that refer to a stored output
   refer to the data source instead; all other parameters are the same. *)
Theorem C46_replay (ps rp : params) (l1 l2 : list (string * pars)) (ds : string) (p : pars) :
  wf_params ps -> ~ declared ps "data_source" ->
  ps = l1 ++ (ds, p) :: l2 -> class_of p "DataStore" ->
  (forall k q, In (k, q) (l1 ++ l2) -> ~ class_of q "DataStore") ->
  (forall key nm, ~ stores p "data_source" key nm) ->
  build_replay ps = Ok rp ->
  (forall k, declared rp k <-> k = "data_source" \/ declared ps k /\ k <> ds /\ forall key nm, ~ stores p k key nm) /\
  (forall k, declared rp k -> k <> "data_source" ->
     (forall name, name <> "inputs" -> param rp k name = param ps k name) /\
     (forall i, match input ps k i with
                | Some v => exists v', input rp k i = Some v' /\ redirected p v v'
                | None => input rp k i = None
                end)) /\
  param rp "data_source" "class" = Some (YStr "DataSource") /\
  (exists outs, param rp "data_source" "outputs" = Some (YList outs) /\
     forall n, In (YStr n) outs <-> exists o key, stores p o key (Some n)) /\
  param rp "data_source" "store_dir" = param ps ds "store_dir" /\
  param rp "data_source" "data_format" = param ps ds "data_format".
Proof.
  intros W N E C O S H. destruct (build_replay_spec ps rp l1 ds p l2 W N E C O S H) as (A & B & _ & D & F & G & K). auto 7.
Qed.
Print Assumptions C46_replay.

(* When the outputs read from removed objects are all stored, and read without delay and
   not in a list, no remaining input refers to an object that is not there. *)
Theorem C46_no_dangling (ps rp : params) (l1 l2 : list (string * pars)) (ds : string) (p : pars) :
  wf_params ps -> ~ declared ps "data_source" ->
  ps = l1 ++ (ds, p) :: l2 -> class_of p "DataStore" ->
  (forall k q, In (k, q) (l1 ++ l2) -> ~ class_of q "DataStore") ->
  (forall key nm, ~ stores p "data_source" key nm) ->
  (forall o key nm, stores p o key (Some nm) -> free_of "." nm) ->
  (forall k i v s, k <> ds -> (forall key nm, ~ stores p k key nm) -> input ps k i = Some v -> ref_in v s ->
     exists o d, refers s o d /\ declared ps o /\
       (o = ds \/ (exists key nm, stores p o key nm) -> exists key nm, v = YStr (o ++ "." ++ key) /\ stores p o key nm)) ->
  build_replay ps = Ok rp ->
  forall k i v s, declared rp k -> k <> "data_source" -> input rp k i = Some v -> ref_in v s ->
  exists o d, refers s o d /\ declared rp o.
Proof.
  intros W N E C O S Fr Hr H k i v s Hk Ns Hi Hs.
  destruct (build_replay_spec ps rp l1 ds p l2 W N E C O S H) as (A & B & T & _).
  destruct (B k Hk Ns) as [_ B2]. specialize (B2 i). apply A in Hk as [?|(K1 & K2 & K3)]; [contradiction|].
  destruct (input ps k i) as [v0|] eqn:Ev; [|congruence]. destruct B2 as (v' & Hv' & R). assert (v' = v) as -> by congruence.
  destruct R as [(o & key & nm & -> & St & ->)|[R ->]].
  - assert (s = "data_source." ++ nm)%string as -> by (destruct Hs as [Q|(l & Q & _)]; congruence).
    exists "data_source", 0%Z. split; [|apply A; now left].
    exists None, (Some nm), None. split; [reflexivity|]. split; [|reflexivity].
    pose proof (Fr _ _ _ St) as F. destruct St as (? & ? & ? & ? & _ & _ & _ & (P1 & P2 & P3 & P4 & P5 & P6 & P7 & P8 & P9) & _).
    repeat split; cbn; try exact I; try assumption; now apply has_char_free.
  - destruct (Hr k i v0 s K2 K3 Ev Hs) as (o & d & H1 & H2 & H3). exists o, d. split; [exact H1|].
    destruct (T o H2) as [Q|Q]; [exact Q|]. destruct (H3 Q) as (key & nm & Q1 & Q2). now elim (R o key nm Q1).
Qed.
Print Assumptions C46_no_dangling.

Definition ex_loop (dm_input : yval) : params :=
  [("main", [("class", YStr "SimulParams")]);
   ("wfs", [("class", YStr "SH"); ("inputs", YDict [("in_ef", YStr "dm.out_layer:-1")])]);
   ("rec", [("class", YStr "Modalrec"); ("inputs", YDict [("in_slopes", YStr "wfs.out_slopes")])]);
   ("dm", [("class", YStr "DM"); ("inputs", YDict [("in_command", dm_input)])]);
   ("store", [("class", YStr "DataStore"); ("store_dir", YStr "./out");
              ("inputs", YDict [("input_list", YList [YStr "sl-wfs.out_slopes"; YStr "cm-rec.out_modes"])])])].
Example C46_example :
  build_replay (ex_loop (YStr "rec.out_modes")) =
  Ok [("main", [("class", YStr "SimulParams")]);
      ("dm", [("class", YStr "DM"); ("inputs", YDict [("in_command", YStr "data_source.cm")])]);
      ("data_source", [("class", YStr "DataSource"); ("outputs", YList [YStr "sl"; YStr "cm"]); ("store_dir", YStr "./out")])].
Proof. vm_compute. reflexivity. Qed.

(* [ps] has the input [i] of object [k] referring to an object that is not declared *)
Definition dangling (ps : params) : Prop :=
  exists k i v s o d, declared ps k /\ input ps k i = Some v /\ ref_in v s /\ refers s o d /\ ~ declared ps o.

Definition resolved (ps : params) (x : yval) : bool :=
  match x with YStr s => match output_owner s with Ok o => dmem o ps | Err _ => true end | _ => true end.
Lemma not_dangling ps :
  forallb (fun kp => match dget "inputs" (snd kp) with
                     | Some (YDict d) => forallb (fun iv => forallb (resolved ps) (as_list (snd iv))) d
                     | _ => true end) ps = true -> ~ dangling ps.
Proof.
  intros H (k & i & v & s & o & d & H1 & H2 & H3 & H4 & H5). apply H5. rewrite forallb_forall in H.
  unfold input, param in H2. destruct (dget k ps) as [p|] eqn:E; [|discriminate]. specialize (H _ (dget_In _ _ _ E)). cbn [snd] in H.
  destruct (dget "inputs" p) as [w|]; [|discriminate]. destruct w; try discriminate. rewrite forallb_forall in H.
  specialize (H _ (dget_In _ _ _ H2)). cbn [snd] in H. rewrite forallb_forall in H. specialize (H (YStr s) (proj1 (ref_in_as_list v s) H3)).
  apply refers_iff in H4 as [H4 _]. cbn in H. rewrite H4 in H. now apply dmem_declared.
Qed.
Lemma not_declared ps k : dmem k ps = false -> ~ declared ps k.
Proof. intros H Q. apply dmem_declared in Q. congruence. Qed.

(* Without these conditions the replay configuration can refer to removed objects: a
   delayed reference to a stored output is not redirected, *)
Theorem C46_delayed_refuted : exists ps rp, build_replay ps = Ok rp /\ ~ dangling ps /\ dangling rp.
Proof.
  exists (ex_loop (YStr "rec.out_modes:-1")).
  eexists. split; [vm_compute; reflexivity|]. split.
  - apply not_dangling. vm_compute. reflexivity.
  - exists "dm", "in_command", (YStr "rec.out_modes:-1"), "rec.out_modes:-1", "rec", (-1)%Z.
    split; [vm_compute; auto|]. split; [reflexivity|]. split; [now left|]. split; [apply refers_iff; vm_compute; auto|].
    apply not_declared. reflexivity.
Qed.
Print Assumptions C46_delayed_refuted.

(* nor is a reference in a list, *)
Theorem C46_list_refuted : exists ps rp, build_replay ps = Ok rp /\ ~ dangling ps /\ dangling rp.
Proof.
  exists (ex_loop (YList [YStr "rec.out_modes"])).
  eexists. split; [vm_compute; reflexivity|]. split.
  - apply not_dangling. vm_compute. reflexivity.
  - exists "dm", "in_command", (YList [YStr "rec.out_modes"]), "rec.out_modes", "rec", 0%Z.
    split; [vm_compute; auto|]. split; [reflexivity|]. split; [right; eexists; split; [reflexivity|now left]|].
    split; [apply refers_iff; vm_compute; auto|]. apply not_declared. reflexivity.
Qed.
Print Assumptions C46_list_refuted.

(* an object with one stored output is removed although another output of it is used, *)
Theorem C46_other_output_refuted : exists ps rp, build_replay ps = Ok rp /\ ~ dangling ps /\ dangling rp.
Proof.
  exists (ex_loop (YStr "rec.out_pseudo_ol_modes")).
  eexists. split; [vm_compute; reflexivity|]. split.
  - apply not_dangling. vm_compute. reflexivity.
  - exists "dm", "in_command", (YStr "rec.out_pseudo_ol_modes"), "rec.out_pseudo_ol_modes", "rec", 0%Z.
    split; [vm_compute; auto|]. split; [reflexivity|]. split; [now left|]. split; [apply refers_iff; vm_compute; auto|].
    apply not_declared. reflexivity.
Qed.
Print Assumptions C46_other_output_refuted.

(* and with two data stores only the last one is replaced: the signals of the first are
   neither in the data source nor redirected. *)
Theorem C46_two_stores_refuted : exists ps rp st1 st2 o1 k1 n1 outs,
  build_replay ps = Ok rp /\
  In st1 ps /\ In st2 ps /\ class_of (snd st1) "DataStore" /\ class_of (snd st2) "DataStore" /\
  stores (snd st1) o1 k1 (Some n1) /\ declared rp o1 /\ declared rp (fst st1) /\
  param rp "data_source" "outputs" = Some (YList outs) /\ ~ In (YStr n1) outs.
Proof.
  set (s1 := ("store1", [("class", YStr "DataStore"); ("store_dir", YStr "./a");
                         ("inputs", YDict [("input_list", YList [YStr "sl-wfs.out_slopes"])])])).
  set (s2 := ("store2", [("class", YStr "DataStore"); ("store_dir", YStr "./b");
                         ("inputs", YDict [("input_list", YList [YStr "cm-rec.out_modes"])])])).
  exists [("wfs", [("class", YStr "SH")]);
          ("rec", [("class", YStr "Modalrec"); ("inputs", YDict [("in_slopes", YStr "wfs.out_slopes")])]); s1; s2].
  eexists. exists s1, s2, "wfs", "out_slopes", "sl", [YStr "cm"]. split; [vm_compute; reflexivity|].
  split; [cbn; auto|]. split; [cbn; auto|]. split; [reflexivity|]. split; [reflexivity|]. split.
  - exists "input_list", (YList [YStr "sl-wfs.out_slopes"]), "sl-wfs.out_slopes", None. split; [eexists; split; [reflexivity|]; cbn; auto|].
    split; [right; eexists; split; [reflexivity|now left]|]. split; [reflexivity|].
    split; [|exact I]. repeat split; cbn; try exact I; now apply has_char_free.
  - split; [vm_compute; auto|]. split; [vm_compute; auto|]. split; [reflexivity|]. cbn. intros [?|[]]. discriminate.
Qed.
Print Assumptions C46_two_stores_refuted.

(* ------------------------------------------------------------------ C68 *)

(* A targeted replay contains the SimulParams object, the targets, and whatever they need:
   each object it contains depends only on objects it contains and on the data source.
   Parameters other than inputs are those of the original, and an input is either as in
   the original or reads a stored output of an object it referred to. *)
Theorem C68_targeted_replay (ps rp ps' : params) (targets : list string) (dir : option string) :
  wf_params ps -> ~ declared ps "data_source" ->
  build_targeted_replay ps targets dir = Ok (rp, ps') ->
  exists main, param ps main "class" = Some (YStr "SimulParams") /\
  declared rp main /\ (forall t, In t targets -> declared rp t) /\
  (declared rp "data_source" <-> exists ds, param ps ds "class" = Some (YStr "DataStore")) /\
  (forall k, declared rp k -> k <> "data_source" -> declared ps k /\
     (forall name, name <> "inputs" -> param rp k name = param ps k name) /\
     (k = main \/ forall i,
        input rp k i = input ps k i \/
        exists n v s o d key, input rp k i = Some (YStr ("data_source." ++ n)) /\
          input ps k i = Some v /\ ref_in v s /\ refers s o d /\ stored_by ps (o ++ "." ++ key) (Some n))) /\
  (forall k, declared rp k -> k <> "data_source" -> k <> main -> only_list ps -> self_contained rp k).
Proof. exact (targeted_spec ps targets dir rp ps'). Qed.
Print Assumptions C68_targeted_replay.

(* The search for the needed objects ends, also with feedback loops. *)
Theorem C68_terminates (ps : params) (targets : list string) (dir : option string) :
  wf_params ps -> build_targeted_replay ps targets dir <> Err OutOfFuel.
Proof. exact (targeted_total ps targets dir). Qed.
Print Assumptions C68_terminates.

Definition ex_full : params :=
  [("main", [("class", YStr "SimulParams")]);
   ("wfs", [("class", YStr "SH"); ("subap_ref", YStr "pup"); ("inputs", YDict [("in_ef", YStr "dm.out_layer:-1")])]);
   ("pup", [("class", YStr "Pupilstop")]);
   ("rec", [("class", YStr "Modalrec"); ("inputs", YDict [("in_slopes", YStr "wfs.out_slopes")])]);
   ("dm", [("class", YStr "DM"); ("inputs", YDict [("in_command", YStr "rec.out_modes")])]);
   ("store", [("class", YStr "DataStore"); ("store_dir", YStr "./out");
              ("inputs", YDict [("input_list", YList [YStr "cm-rec.out_modes"])])])].
Example C68_example :
  build_targeted_replay ex_full ["wfs"] None =
  Ok ([("main", [("class", YStr "SimulParams")]);
       ("data_source", [("class", YStr "DataSource"); ("outputs", YList [YStr "cm"]); ("store_dir", YStr "./out")]);
       ("wfs", [("class", YStr "SH"); ("subap_ref", YStr "pup"); ("inputs", YDict [("in_ef", YStr "dm.out_layer:-1")])]);
       ("dm", [("class", YStr "DM"); ("inputs", YDict [("in_command", YStr "data_source.cm")])]);
       ("pup", [("class", YStr "Pupilstop")])],
      [("main", [("class", YStr "SimulParams")]);
       ("wfs", [("class", YStr "SH"); ("subap_ref", YStr "pup"); ("inputs", YDict [("in_ef", YStr "dm.out_layer:-1")])]);
       ("pup", [("class", YStr "Pupilstop")]);
       ("rec", [("class", YStr "Modalrec"); ("inputs", YDict [("in_slopes", YStr "wfs.out_slopes")])]);
       ("dm", [("class", YStr "DM"); ("inputs", YDict [("in_command", YStr "data_source.cm")])]);
       ("store", [("class", YStr "DataStore"); ("store_dir", YStr "./out");
                  ("inputs", YDict [("input_list", YList [YStr "cm-rec.out_modes"])])])]).
Proof. vm_compute. reflexivity. Qed.

(* The caller's parameters are modified: they are not those of the original simulation any
   more (see the input of dm in the example above). *)
Theorem C68_caller_unchanged_refuted : exists ps targets rp ps',
  build_targeted_replay ps targets None = Ok (rp, ps') /\ input ps' "dm" "in_command" <> input ps "dm" "in_command".
Proof.
  exists ex_full, ["dm"]. eexists. eexists. split; [vm_compute; reflexivity|]. vm_compute. discriminate.
Qed.
Print Assumptions C68_caller_unchanged_refuted.

(* An input that was a list with one stored element loses the other elements. *)
Theorem C68_lists_kept_refuted : exists ps targets rp ps' l n,
  build_targeted_replay ps targets None = Ok (rp, ps') /\
  input ps "sum" "in_list" = Some (YList l) /\ length l = 2 /\ input rp "sum" "in_list" = Some (YStr n).
Proof.
  exists (ex_full ++ [("sum", [("class", YStr "Combinator"); ("inputs", YDict [("in_list", YList [YStr "rec.out_modes"; YStr "dm.out_layer"])])])]), ["sum"].
  eexists. eexists. exists [YStr "rec.out_modes"; YStr "dm.out_layer"], "data_source.cm".
  split; [vm_compute; reflexivity|]. split; [reflexivity|]. split; [reflexivity|]. vm_compute. reflexivity.
Qed.
Print Assumptions C68_lists_kept_refuted.
