(* C94: the input lists of DataStore and DataBuffer. *)
From Coq Require Import String List Ascii ZArith Bool Lia.
From Verif Require Import PyBase PyLemmas NamesModel NamesSpec TrigOrderModel ParamsModel TagModel WireModel WireSpec WireProofs WireProofs2 ListSpec ListProofs Properties_Wire.
Import ListNotations.
Local Open Scope string_scope.

Lemma filter_nil_iff {A} (f : A -> bool) l : filter f l = [] <-> forall x, In x l -> f x = false.
Proof.
  induction l as [|x l IH]; cbn; [split; [intros _ ? []|reflexivity]|]. destruct (f x) eqn:Q; [split; [discriminate|intros H; rewrite (H x (or_introl eq_refl)) in Q; discriminate]|].
  rewrite IH. split; [intros H y [<-|I]; auto|intros H y I; apply H; auto].
Qed.
Lemma refs_app a b d i : refs (a ++ b)%list d i = (refs a d i ++ refs b d i)%list.
Proof. unfold refs, edges. now rewrite flat_map_app, filter_app, map_app. Qed.
Lemma refs_out ps d i : ~ In d (map fst ps) -> refs ps d i = [].
Proof.
  intros N. unfold refs. rewrite (proj2 (filter_nil_iff _ _)); [reflexivity|]. intros [[d1 i1] x] I. cbn. unfold edges in I. apply in_flat_map in I as ([d' p'] & I1 & I2). unfold edges_of in I2. cbn [fst snd] in I2.
  destruct (dget "inputs" p') as [[]|]; try destruct I2. apply in_flat_map in I2 as (iv & _ & I2). apply in_map_iff in I2 as (y & Y & _). injection Y as <- _ _.
  destruct (String.eqb_spec d' d) as [->|]; [|reflexivity]. exfalso. apply N, in_map_iff. exists (d, p'). auto.
Qed.

Lemma refs_one p ins d i v : dget "inputs" p = Some (YDict ins) -> NoDup (map fst ins) -> dget i ins = Some v -> refs [(d, p)] d i = listed v.
Proof.
  intros E N G. unfold refs, edges, edges_of. cbn [flat_map fst snd]. rewrite E, app_nil_r. clear E. induction ins as [|[c w] ins IH]; [discriminate|]. cbn [flat_map fst snd]. rewrite filter_app, map_app.
  cbn [map fst] in N. inversion N as [|x y N1 N2]; subst. cbn [dget] in G.
  assert (S : forall c w, map snd (filter (fun e => (String.eqb (fst (fst e)) d && String.eqb (snd (fst e)) i)%bool) (map (fun x => (d, c, x)) (listed w))) = if String.eqb c i then listed w else []).
  { clear. intros c w. induction (listed w) as [|x l IH]; cbn; [now destruct (String.eqb c i)|]. rewrite String.eqb_refl. cbn. destruct (String.eqb c i); cbn; [now rewrite IH|exact IH]. }
  rewrite S. destruct (String.eqb_spec i c) as [->|Ni].
  - injection G as <-. rewrite String.eqb_refl. rewrite (proj2 (filter_nil_iff _ _)); [now rewrite app_nil_r|]. intros [[d1 i1] x] I. apply in_flat_map in I as ([c' w'] & I1 & I2). apply in_map_iff in I2 as (y & Y & _). injection Y as <- <- <-. cbn.
    rewrite String.eqb_refl. destruct (String.eqb_spec c' c) as [->|]; [|reflexivity]. exfalso. apply N1, in_map_iff. exists (c, w'). auto.
  - destruct (String.eqb_spec c i); [congruence|]. cbn. auto.
Qed.
Lemma refs_in ps p ins d i v : NoDup (map fst ps) -> In (d, p) ps -> dget "inputs" p = Some (YDict ins) -> NoDup (map fst ins) -> dget i ins = Some v -> refs ps d i = listed v.
Proof.
  intros N I E Ni G. apply in_split in I as (a & b & ->). rewrite refs_app. change ((d, p) :: b) with ([(d, p)] ++ b)%list. rewrite refs_app. rewrite map_app in N. cbn [map fst] in N. apply NoDup_remove_2 in N.
  rewrite (refs_out a), (refs_out b), app_nil_r; [|intros X; apply N, in_or_app; auto|intros X; apply N, in_or_app; auto]. cbn [app]. eapply refs_one; eauto.
Qed.

Lemma bind_of {A B} (m : res A) (f : A -> res B) a : m = Ok a -> bind m f = f a.
Proof. intros ->. reflexivity. Qed.
Lemma leaves_fun D (r : ref D) l : leaves D r l -> forall l', leaves D r l' -> l = l'.
Proof.
  induction 1 as [d| |x l a b H1 IH1 H2 IH2]; intros l' H'; inversion H' as [| |x' l2 a' b' H1' H2']; subst; auto. f_equal; auto.
Qed.

Section C94.
Variable hash : string -> Z.
Variables T D : Type.
Variable isinst : D -> T -> bool.
Variable type_of : D -> T.
Variables none_type list_type : T.
Variable fresh_value : string -> D.
Notation wst := (wst T D).
Notation create := (create_input_list_inputs T D type_of none_type list_type fresh_value).
Notation connect_objects := (connect_objects hash T D isinst).
Notation fits := (fits T D type_of none_type list_type).
Notation made := (made T D type_of none_type list_type fresh_value).

(* the objects of class DataBuffer start without outputs *)
Definition fresh_buffers (st : wst) (ps : params) : Prop :=
  forall key p ob pr, In (key, p) ps -> class_in ["DataBuffer"] p -> dget key (w_objs st) = Some ob -> s_proc ob = Some pr -> p_outs pr = [].

(* Every entry becomes an input of the object and a reference in its parameters, in the place of the list. *)
Theorem C94_entries (st st' : wst) ps ps' : NoDup (map fst ps) -> fresh_buffers st ps -> create st ps = Ok (st', ps') ->
  Forall2 (fun kp kp' => fst kp' = fst kp /\ unlisted (snd kp) (snd kp')) ps ps' /\
  forall key p, In (key, p) ps -> made (w_objs st) (w_objs st') (w_remote st) key p.
Proof.
  intros N B H. unfold create_input_list_inputs in H. inv_bind H. injection H as <- <-. destruct a as [objs done]. cbn [fst snd w_objs].
  apply objects_step in E as (ps1 & -> & F & _ & _ & _ & M); auto.
Qed.

(* Nothing else changes, and no value of an output is lost. *)
Theorem C94_rest (st st' : wst) ps ps' : NoDup (map fst ps) -> fresh_buffers st ps -> create st ps = Ok (st', ps') ->
  map fst (w_objs st') = map fst (w_objs st) /\ w_remote st' = w_remote st /\ w_ranks st' = w_ranks st /\ w_links st' = w_links st /\
  map fst ps' = map fst ps /\ (forall o, ~ In o (map fst ps) -> dget o (w_objs st') = dget o (w_objs st)) /\
  forall o k r, value T D (w_objs st) o k r -> value T D (w_objs st') o k r.
Proof.
  intros N B H. unfold create_input_list_inputs in H. inv_bind H. injection H as <- <-. destruct a as [objs done]. cbn [fst snd w_objs w_remote w_ranks w_links].
  apply objects_step in E as (ps1 & -> & F & K & O & Ks & _); auto. repeat split; auto; [|apply K]. cbn [app]. clear -F. induction F as [|x y l l' [X _] F IH]; cbn; congruence.
Qed.

(* After the connection of the objects, the input made for an entry contains the data objects of the output that
   the entry names, or receives them from the process in which they are. *)
Theorem C94_values proc (st st' st2 : wst) ps ps' key p ob pr ins l m x : NoDup (map fst ps) -> fresh_buffers st ps -> apart T D st ->
  create st ps = Ok (st', ps') -> connect_objects proc st' ps' = Ok st2 ->
  In (key, p) ps -> dget key (w_objs st) = Some ob -> s_proc ob = Some pr ->
  has_list p l -> dget "inputs" p = Some (YDict ins) -> NoDup (map fst ins) -> last_called l m x -> m <> "input_list" ->
  exists t b items, contains T D st2 key m (mkInp t b items) /\ gives hash T D isinst st' key m t x items.
Proof.
  intros N B A H H2 I G P L E Ni Lc Nm. destruct (C94_entries _ _ _ _ N B H) as [F M]. destruct (C94_rest _ _ _ _ N B H) as (K1 & K2 & _ & _ & K3 & _).
  destruct (M key p I ob l G (or_introl L)) as (ob' & G' & S & X). rewrite P in X. destruct (s_proc ob') as [pr'|] eqn:P'; [|contradiction]. destruct X as (_ & X2 & _).
  destruct (X2 m x Lc) as (t & b & D1 & Ft).
  assert (A' : apart T D st') by (intros o Go; rewrite K2; apply A; intros Z; apply Go; apply (dget_keys (w_objs st) (w_objs st') o K1); exact Z).
  assert (C1 : contains T D st' key m (mkInp t b [])) by (exists ob', pr'; auto).
  destruct (C93_inputs hash T D isinst proc st' st2 ps' key m _ A' H2 C1) as (ls & Fl & C2). cbn [in_type in_list in_items app] in *.
  destruct (Forall2_in_l _ _ _ F _ I) as ([key' p'] & I' & Y & U). cbn [fst snd] in Y, U. subst key'. destruct U as (_ & U & _). destruct (U l L) as (ins0 & ins' & E0 & E' & _ & U1 & _ & U2).
  rewrite E in E0. injection E0 as <-.
  assert (N' : NoDup (map fst ps')) by (pose proof N as Z; rewrite <- K3 in Z; exact Z).
  assert (R : refs ps' key m = listed x) by (apply (refs_in ps' p' ins'); [exact N'|exact I'|exact E'|apply U2; exact Ni|apply U1; assumption]).
  pose proof (last_in _ _ _ Lc) as (_ & s & o & k & d & n & -> & _). rewrite R in Fl. cbn [listed] in Fl. inversion Fl as [|y z ly lz Q1 Q2]; subst. inversion Q2; subst. cbn [concat] in C2. rewrite app_nil_r in C2. eauto.
Qed.

(* in particular, for an output that exists from the beginning *)
Corollary C94_local proc (st st' st2 : wst) ps ps' key p ob pr ins l m s o k d n r lv : NoDup (map fst ps) -> fresh_buffers st ps -> apart T D st ->
  create st ps = Ok (st', ps') -> connect_objects proc st' ps' = Ok st2 ->
  In (key, p) ps -> dget key (w_objs st) = Some ob -> s_proc ob = Some pr ->
  has_list p l -> dget "inputs" p = Some (YDict ins) -> NoDup (map fst ins) -> last_called l m (YStr s) -> m <> "input_list" ->
  means s o k d n -> value T D (w_objs st) o k r -> leaves D r lv ->
  exists t b, contains T D st2 key m (mkInp t b (map Here lv)).
Proof.
  intros N B A H H2 I G P L E Ni Lc Nm M V Lv. destruct (C94_values proc st st' st2 ps ps' key p ob pr ins l m (YStr s) N B A H H2 I G P L E Ni Lc Nm) as (t & b & items & C & Gv).
  exists t, b. destruct (C94_rest _ _ _ _ N B H) as (K1 & _ & _ & _ & _ & _ & K). apply K in V.
  inversion Gv as [s1 o1 k1 dl1 n1 r1 l1 M1 V1 L1 J1|s1 o1 k1 dl1 n1 q1 M1 G1 R1]; subst; destruct (means_fun _ _ _ _ _ _ _ _ _ M M1) as (<- & <- & _).
  - rewrite (value_fun _ _ _ _ _ _ _ V V1) in Lv. now rewrite (leaves_fun _ _ _ Lv _ L1).
  - apply value_iff in V as (ob1 & X & _). congruence.
Qed.

(* What is needed: every entry names an output that exists, is not an empty list, and the object is a processing
   object; a DataBuffer must moreover be in this process. *)
Definition listable (st : wst) (key : string) (p : pars) : Prop :=
  (exists v, dget "class" p = Some v) /\
  (class_in ["DataBuffer"; "DataStore"] p -> forall v, dget "inputs" p = Some v -> exists ins, v = YDict ins /\
     forall w, dget "input_list" ins = Some w -> exists l, iterable w l /\
       (forall x, In x l -> exists t b, fits (w_objs st) (w_remote st) x t b) /\
       (forall ob, dget key (w_objs st) = Some ob -> l <> [] -> s_proc ob <> None)) /\
  (class_in ["DataBuffer"] p -> exists ob, dget key (w_objs st) = Some ob /\ s_proc ob <> None).

Lemma entry_total remote key objs ins x t b : fits objs remote x t b -> (forall ob, dget key objs = Some ob -> s_proc ob <> None) ->
  exists r, list_entry T D type_of none_type list_type remote key (objs, ins) x = Ok r.
Proof.
  intros F P. unfold list_entry, resolve.
  assert (X : exists s o k d n r, x = YStr s /\ means s o k d n /\ value_of T D objs remote (mkOutput o k d n) = Ok r /\ exists i, input_for T D type_of none_type list_type r = Ok i).
  { inversion F as [s o k d n r t1 b1 M V S|s o k d n M G R]; subst.
    - exists s, o, k, d, n, r. split; [reflexivity|]. split; [exact M|]. split; [apply value_of_ok; left; exact V|]. inversion S as [y l t2 Ty|r2 t2 Nl Ty]; subst; cbn; eauto. destruct r as [| |l]; cbn; eauto. exfalso. exact (Nl l eq_refl).
    - exists s, o, k, d, n, RNone. split; [reflexivity|]. split; [exact M|]. split; [apply value_of_ok; right; auto|cbn; eauto]. }
  destruct X as (s & o & k & d & n & r & -> & M & V & i & Hi). rewrite (means_split _ _ _ _ _ M). cbn [bind]. rewrite V. cbn [bind fst snd]. destruct (dget key objs) as [ob|] eqn:G; [|cbn; eauto].
  rewrite Hi. cbn [bind]. unfold proc_of. destruct (s_proc ob) as [pr|] eqn:Q; [|exfalso; exact (P ob eq_refl Q)]. cbn; eauto.
Qed.
Lemma entries_total remote key : forall l objs ins, (forall x, In x l -> exists t b, fits objs remote x t b) -> (forall ob, dget key objs = Some ob -> l <> [] -> s_proc ob <> None) ->
  exists r, fold_res (list_entry T D type_of none_type list_type remote key) (objs, ins) l = Ok r.
Proof.
  induction l as [|x l IH]; intros objs ins F P; cbn [fold_res]; [eauto|]. destruct (F x (or_introl eq_refl)) as (t & b & Fx).
  destruct (entry_total remote key objs ins x t b Fx) as [[objs1 ins1] E]; [intros ob G; apply (P ob G); discriminate|]. rewrite E. cbn [bind]. pose proof E as E1. apply entry_ok in E1 as (m & C & _ & Ho).
  apply IH.
  - intros y I. destruct (F y (or_intror I)) as (t' & b' & Fy). exists t', b'. eapply fits_keep; [|exact Fy]. destruct (dget key objs) as [ob|] eqn:G; [|subst; apply keep_refl].
    destruct Ho as (pr & t1 & b1 & Pr & _ & ->). eapply keep_set; eauto.
  - intros ob G _. destruct (dget key objs) as [ob0|] eqn:G0; [|subst; congruence]. destruct Ho as (pr & t1 & b1 & Pr & _ & ->). rewrite dget_dset, String.eqb_refl in G. injection G as <-. discriminate.
Qed.
Lemma object_total (st : wst) objs done key p : keep T D (w_objs st) objs -> dget key objs = dget key (w_objs st) -> listable st key p ->
  exists r, list_object T D type_of none_type list_type fresh_value (w_remote st) (objs, done) (key, p) = Ok r.
Proof.
  intros K G (Hc & Hl & Hb). unfold list_object.
  assert (X : exists objs1 p1, (if is_class ["DataBuffer"; "DataStore"] p then
           i <- inputs_items p ;;
           match i with
           | Some ins =>
               match dget "input_list" ins with
               | Some v => l <- iter_value v ;;
                           oi <- fold_res (list_entry T D type_of none_type list_type (w_remote st) key) (objs, ins) l ;;
                           Ok (fst oi, dset "inputs" (YDict (ddel "input_list" (snd oi))) p)
               | None => Ok (objs, p)
               end
           | None => Ok (objs, p)
           end
         else Ok (objs, p)) = Ok (objs1, p1) /\ dget "class" p1 = dget "class" p /\
         (forall ob, dget key objs = Some ob -> s_proc ob <> None -> exists ob', dget key objs1 = Some ob' /\ s_proc ob' <> None)).
  { assert (Z : exists objs1 p1, Ok (objs, p) = Ok (objs1, p1) /\ dget "class" p1 = dget "class" p /\
         (forall ob, dget key objs = Some ob -> s_proc ob <> None -> exists ob', dget key objs1 = Some ob' /\ s_proc ob' <> None)) by eauto 7.
    destruct (is_class ["DataBuffer"; "DataStore"] p) eqn:C; [|exact Z]. apply class_ok in C. specialize (Hl C). unfold inputs_items. destruct (dget "inputs" p) as [v|]; [|exact Z].
    destruct (Hl v eq_refl) as (ins & -> & Hi). cbn [bind]. destruct (dget "input_list" ins) as [w|]; [|exact Z]. destruct (Hi w eq_refl) as (l & It & Hf & Hp). apply iter_iterable in It. rewrite It. cbn [bind].
    destruct (entries_total (w_remote st) key l objs ins) as [[o2 i2] E].
    - intros x I. destruct (Hf x I) as (t & b & F). exists t, b. eapply fits_keep; eauto.
    - rewrite G. exact Hp.
    - rewrite E. cbn [bind fst snd]. do 2 eexists. split; [reflexivity|]. split; [rewrite dget_dset; reflexivity|]. apply fold_entries in E as ((_ & _ & _ & L) & _). intros ob Gk Pk. destruct (L ob Gk) as [_ La].
      destruct (s_proc ob) as [pr|]; [|congruence]. destruct (La pr eq_refl) as (pr' & Y & _). eexists. split; [exact Y|discriminate]. }
  destruct X as (objs1 & p1 & E & C1 & P1). rewrite E. cbn [bind]. rewrite C1. destruct Hc as [v Hv]. rewrite Hv.
  assert (IC : is_class ["DataBuffer"] p1 = is_class ["DataBuffer"] p) by (unfold is_class; now rewrite C1). rewrite IC. destruct (is_class ["DataBuffer"] p) eqn:Cb; [|eauto]. apply class_ok in Cb. destruct (Hb Cb) as (ob & Go & Po).
  rewrite <- G in Go. destruct (P1 ob Go Po) as (ob' & G' & P'). rewrite G'. unfold proc_of. destruct (s_proc ob'); [cbn; eauto|congruence].
Qed.

Theorem C94_ok (st : wst) (ps : params) : NoDup (map fst ps) -> fresh_buffers st ps -> (forall key p, In (key, p) ps -> listable st key p) ->
  exists st' ps', create st ps = Ok (st', ps').
Proof.
  intros N B L. unfold create_input_list_inputs.
  assert (X : forall (ps : params) objs (done : params), NoDup (map fst ps) -> fresh_buffers st ps -> (forall key p, In (key, p) ps -> listable st key p) -> keep T D (w_objs st) objs ->
     (forall key p, In (key, p) ps -> dget key objs = dget key (w_objs st)) -> exists r, fold_res (list_object T D type_of none_type list_type fresh_value (w_remote st)) (objs, done) ps = Ok r).
  { clear ps N B L. induction ps as [|[key p] ps IH]; intros objs done N B L K G; cbn [fold_res]; [eauto|]. cbn [map fst] in N. inversion N as [|x y N1 N2]; subst.
    destruct (object_total st objs done key p K (G key p (or_introl eq_refl)) (L key p (or_introl eq_refl))) as [[objs1 done1] E]. rewrite E. cbn [bind].
    apply object_step in E as (p' & _ & _ & K1 & O & _ & _); [|intros C ob pr G1; rewrite (G key p (or_introl eq_refl)) in G1; apply (B key p ob pr (or_introl eq_refl) C G1)].
    apply IH; auto.
    - intros k1 q ob pr I. apply B. now right.
    - intros k1 q I. apply L. now right.
    - eapply keep_trans; eauto.
    - intros k1 q I. rewrite O; [apply (G k1 q); now right|]. intros ->. apply N1, in_map_iff. exists (key, q). auto. }
  destruct (X ps (w_objs st) [] N B L (keep_refl _ _ _) ltac:(auto)) as [[objs done] E]. do 2 eexists. rewrite (bind_of _ _ _ E). reflexivity.
Qed.
End C94.
Print Assumptions C94_entries.
Print Assumptions C94_rest.
Print Assumptions C94_values.
Print Assumptions C94_local.
Print Assumptions C94_ok.

(* ---- examples: data objects are numbers of a class given by the tens; fresh values are of class 9 ---- *)
Definition exl_type (d : nat) : nat := Nat.div d 10.
Definition exl_create := create_input_list_inputs nat nat exl_type 0 100 (fun s => 90 + length (list_ascii_of_string s)).
Definition exl_connect := connect_objects ex_hash nat nat (fun d t => Nat.eqb (exl_type d) t).
Definition exl_st : wst nat nat := mkW
  [("prop", ex_pr [("out_ef", RObj 21); ("ef_list", RList [RObj 21; RObj 22]); ("none", RList [])] []);
   ("wfs", ex_pr [("out_i", RObj 31)] []); ("buf", ex_pr [] []); ("store", ex_pr [] [])]
  [] [] [].
Definition exl_buf (l : list yval) : string * pars := ("buf", [("class", YStr "DataBuffer"); ("inputs", YDict [("input_list", YList l)])]).
Definition exl_store (l : list yval) : string * pars := ("store", [("class", YStr "DataStore"); ("inputs", YDict [("input_list", YList l)]); ("store_dir", YStr "/tmp")]).
Definition exl_run (ps : params) := match exl_create exl_st ps with Ok (st, ps') => exl_connect None st ps' | Err x => Err x end.

Example C94_entries_example :
  match exl_create exl_st [exl_buf [YStr "pix-wfs.out_i"]; exl_store [YStr "efs-prop.ef_list"; YStr "mean-buf.pix_buffered:-1"]] with Ok (_, ps') => Some ps' | Err _ => None end =
  Some [("buf", [("class", YStr "DataBuffer"); ("inputs", YDict [("pix", YStr "pix-wfs.out_i")])]);
        ("store", [("class", YStr "DataStore"); ("inputs", YDict [("efs", YStr "efs-prop.ef_list"); ("mean", YStr "mean-buf.pix_buffered:-1")]); ("store_dir", YStr "/tmp")])].
Proof. vm_compute. reflexivity. Qed.
Example C94_values_example :
  ex_see (exl_run [exl_buf [YStr "pix-wfs.out_i"]; exl_store [YStr "efs-prop.ef_list"; YStr "mean-buf.pix_buffered:-1"]]) =
  Some [("prop", ([], [])); ("wfs", ([], [])); ("buf", ([("pix", [Here 31])], [])); ("store", ([("efs", [Here 21; Here 22]); ("mean", [Here 102])], []))].
Proof. vm_compute. reflexivity. Qed.

(* Two entries with the same name: the first one is lost, without a message. *)
Theorem C94_twice_refuted : exists hash T D isinst type_of none_type list_type fresh (st st' st2 : wst T D) ps ps' s p l v,
  create_input_list_inputs T D type_of none_type list_type fresh st ps = Ok (st', ps') /\ connect_objects hash T D isinst None st' ps' = Ok st2 /\
  In ("store", p) ps /\ has_list p l /\ In (YStr s) l /\ (exists o k d n, means s o k d n /\ value T D (w_objs st) o k (RObj v)) /\
  forall i n, contains T D st2 "store" i n -> ~ In (Here v) (in_items n).
Proof.
  set (ps := [exl_store [YStr "a-prop.out_ef"; YStr "a-wfs.out_i"]]).
  destruct (exl_create exl_st ps) as [[st' ps']|] eqn:E; [|vm_compute in E; discriminate]. destruct (exl_connect None st' ps') as [st2|] eqn:E2; [|vm_compute in E; injection E as <- <-; vm_compute in E2; discriminate].
  exists ex_hash, nat, nat, (fun d t => Nat.eqb (exl_type d) t), exl_type, 0, 100, (fun s => 90 + length (list_ascii_of_string s)), exl_st, st', st2, ps, ps', "a-prop.out_ef". do 2 eexists. exists 21.
  split; [exact E|]. split; [exact E2|]. split; [left; reflexivity|]. split.
  { split; [exists "DataStore"; split; [reflexivity|cbn; auto]|]. do 2 eexists. split; [reflexivity|]. split; [reflexivity|]. left. reflexivity. }
  split; [left; reflexivity|]. split.
  { exists "prop", (Some "out_ef"), 0%Z, (Some "a"). split; [|eapply value_out; reflexivity].
    assert (X : exists t, YStr "a-prop.out_ef" = YStr t /\ means t "prop" (Some "out_ef") 0 (Some "a")) by (apply (proj1 (split_means (YStr "a-prop.out_ef") (mkOutput "prop" (Some "out_ef") 0 (Some "a")))); reflexivity).
    destruct X as (t & Y & X). injection Y as <-. exact X. }
  vm_compute in E. injection E as <- <-. vm_compute in E2. injection E2 as <-. intros i n (ob & p & G & P & I). vm_compute in G. injection G as <-. vm_compute in P. injection P as <-. cbn [p_ins dget] in I.
  destruct (String.eqb i "a"); [|discriminate]. injection I as <-. cbn. intros [X|[]]. discriminate.
Qed.
Print Assumptions C94_twice_refuted.

(* A DataBuffer placed in another process. *)
Theorem C94_elsewhere_refuted : exists T D type_of none_type list_type fresh home shared (st : wst T D) ps,
  (exists r, create_input_list_inputs T D type_of none_type list_type fresh st ps = Ok r) /\
  create_input_list_inputs T D type_of none_type list_type fresh (part home shared st 0) ps = Err KeyError.
Proof.
  exists nat, nat, exl_type, 0, 100, (fun s => 90 + length (list_ascii_of_string s)), (fun o => if String.eqb o "buf" then 1%Z else 0%Z), ex_none, exl_st, [exl_buf [YStr "pix-wfs.out_i"]].
  split; [eexists; vm_compute; reflexivity|vm_compute; reflexivity].
Qed.
Print Assumptions C94_elsewhere_refuted.

(* The order of the objects matters: outputs of a DataBuffer exist only after it. *)
Theorem C94_order_refuted : exists T D type_of none_type list_type fresh (st : wst T D) a b,
  (exists r, create_input_list_inputs T D type_of none_type list_type fresh st [a; b] = Ok r) /\
  create_input_list_inputs T D type_of none_type list_type fresh st [b; a] = Err ValueError.
Proof.
  exists nat, nat, exl_type, 0, 100, (fun s => 90 + length (list_ascii_of_string s)), exl_st, (exl_buf [YStr "pix-wfs.out_i"]), (exl_store [YStr "mean-buf.pix_buffered"]).
  split; [eexists; vm_compute; reflexivity|vm_compute; reflexivity].
Qed.
Print Assumptions C94_order_refuted.

(* An output that is an empty list. *)
Theorem C94_empty_refuted : exists T D type_of none_type list_type fresh (st : wst T D) s o k l,
  (exists d n, means s o k d n) /\ value T D (w_objs st) o k (RList []) /\
  create_input_list_inputs T D type_of none_type list_type fresh st [exl_store (YStr s :: l)] = Err IndexError.
Proof.
  exists nat, nat, exl_type, 0, 100, (fun s => 90 + length (list_ascii_of_string s)), exl_st, "x-prop.none", "prop", (Some "none"), [].
  split; [|split; [eapply value_out; reflexivity|vm_compute; reflexivity]]. exists 0%Z, (Some "x").
  assert (X : exists t, YStr "x-prop.none" = YStr t /\ means t "prop" (Some "none") 0 (Some "x")) by (apply (proj1 (split_means (YStr "x-prop.none") (mkOutput "prop" (Some "none") 0 (Some "x")))); reflexivity).
  destruct X as (t & Y & X). injection Y as <-. exact X.
Qed.
Print Assumptions C94_empty_refuted.
