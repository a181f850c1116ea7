(* C92: the construction of objects from the parameters. *)
From Coq Require Import String List Ascii ZArith Bool Arith Lia.
From Verif Require Import PyBase PyLemmas NamesModel NamesSpec TrigOrderModel TrigOrderSpec ParamsModel ParamsSpec ParamsProofs
  BuildModel BuildSpec BuildProofs BuildProofs2.
From Verif Require CalFileModel.
Import ListNotations.
Local Open Scope string_scope.

Section P.
Variable E : env.
Notation run := (build_objects E).

(* Exactly the objects that live in this process are built here; of each of the others it is recorded where it is. *)
Theorem C92_placed (ps : params) (proc : option Z) (st : bst) (key : string) :
  NoDup (map fst ps) -> run ps proc = Ok st ->
  (declared ps key -> exists data r, placed E ps key data r /\
     ((exists o, dget key (b_objs st) = Some o) <-> lives data r proc) /\
     (lives data r proc -> dget key (b_remote st) = None) /\
     (~ lives data r proc -> exists z, dget key (b_remote st) = Some z /\ home r z)) /\
  (~ declared ps key -> dget key (b_objs st) = None /\ dget key (b_remote st) = None).
Proof.
  intros N H. destruct (run_facts E ps proc st N H) as (root & R & Out & In'). split.
  - intros D. destruct (In' key D) as (class & k & r & q & o & objs & K & _ & M & Do & Dr). exists (c_data k), r.
    pose proof (known_placed _ _ _ _ _ _ _ K) as Pl. split; [exact Pl|].
    pose proof (make_some E root key class k q objs _ o M) as Ms. rewrite <- here_lives.
    split; [rewrite Do; split; [intros [b Eb]; apply Ms; eauto|intros Hh; apply Ms in Hh; exact Hh]|]. rewrite Dr.
    destruct (build_here proc (c_data k) r); split; [auto|congruence|discriminate|]. intros _. exists (target r). split; auto. destruct r; reflexivity.
  - intros D. exact (Out key D).
Qed.

(* With n processes, a processing object whose rank is one of theirs is built by exactly one of them. *)
Theorem C92_once (ps : params) (n : nat) (sts : Z -> bst) (key : string) (r : option Z) :
  NoDup (map fst ps) -> (forall q, (0 <= q < Z.of_nat n)%Z -> run ps (Some q) = Ok (sts q)) ->
  placed E ps key false r -> (forall z, home r z -> (0 <= z < Z.of_nat n)%Z) ->
  exists q, (0 <= q < Z.of_nat n)%Z /\
    forall q', (0 <= q' < Z.of_nat n)%Z -> ((exists o, dget key (b_objs (sts q')) = Some o) <-> q' = q) /\ (q' <> q -> dget key (b_remote (sts q')) = Some q).
Proof.
  intros N H Pl Hr. assert (D : declared ps key). { destruct Pl as (p & c & k & D & _). apply dget_In in D. apply in_map_iff. exists (key, p). auto. }
  set (z := match r with Some z => z | None => 0%Z end). assert (Hz : home r z) by (unfold z; destruct r; reflexivity).
  exists z. split; [auto|]. intros q Hq. destruct (C92_placed ps (Some q) (sts q) key N (H q Hq)) as [P _]. destruct (P D) as (d & r' & Pl' & P1 & P2 & P3).
  destruct (placed_fun _ _ _ _ _ _ _ Pl Pl') as [<- <-].
  assert (L : lives false r (Some q) <-> q = z).
  { unfold z. split; [intros L; inversion L; subst; auto; discriminate|]. intros ->. destruct r; [now apply lives_asked|now apply lives_first]. }
  rewrite P1. split; [exact L|]. intros Hn. destruct (P3 (fun l => Hn (proj1 L l))) as (y & Y & Hy). rewrite Y. f_equal. unfold z. destruct r; cbn in Hy; auto.
Qed.

(* The arguments of a new object: the constructor accepts them; the last parameter that writes an argument
   decides, and says what it is in terms of the objects of the simulation; an argument that nobody writes is
   one of those the simulation adds, or is not given. *)
Theorem C92_args (ps : params) (proc : option Z) (st : bst) (key nm c : string) (my : dict argval) :
  NoDup (map fst ps) -> (forall k p, In (k, p) ps -> NoDup (map fst p)) -> run ps proc = Ok st -> dget key (b_objs st) = Some (BNew nm c my) ->
  exists p k root, dget key ps = Some p /\ class_of p c /\ e_class E c = Ok k /\ main_root ps root /\
    nm = key /\ dget "tag" p = None /\ e_init E c my = Ok tt /\
    (forall nv, In nv p -> reaches (c_args k) nv -> exists a x, spells (c_args k) a (fst nv) /\ says root k (b_objs st) a (fst nv) (snd nv) x) /\
    (forall l1 nv l2 a, p = (l1 ++ nv :: l2)%list -> reaches (c_args k) nv -> spells (c_args k) a (fst nv) ->
       (forall nv', In nv' l2 -> reaches (c_args k) nv' -> ~ spells (c_args k) a (fst nv')) ->
       exists x, says root k (b_objs st) a (fst nv) (snd nv) x /\ dget a my = Some x) /\
    (forall a, (forall nv, In nv p -> reaches (c_args k) nv -> ~ spells (c_args k) a (fst nv)) ->
       forall x, dget a my = Some x <-> In a (c_args k) /\ automatic root c a x).
Proof.
  intros N Np H D. destruct (run_facts E ps proc st N H) as (root & R & Out & In').
  assert (Dk : declared ps key).
  { destruct (in_dec string_dec key (map fst ps)) as [I|I]; [exact I|]. destruct (Out key I) as [O _]. congruence. }
  destruct (In' key Dk) as (class & k & r & q & o & objs & (p & Dp & Cp & Kp & Vp & Rp) & S & M & Do & Dr). rewrite D in Do. subst o.
  apply made_new in M as (Hh & -> & -> & T & I & F1 & F2 & F3). exists p, k, root.
  assert (Npp : NoDup (map fst p)) by (eapply Np; apply dget_In; eauto).
  pose proof (rank_split p r q Npp Rp) as (Q1 & Q2 & Q3).
  split; [exact Dp|]. split; [exact Cp|]. split; [exact Kp|]. split; [apply root_is in R as (? & ? & _ & _ & _ & R); exact R|]. split; [reflexivity|]. split; [rewrite <- Q3; exact T|]. split; [exact I|].
  assert (SP : forall nv a, In nv p -> spells (c_args k) a (fst nv) -> reaches (c_args k) nv -> In nv q).
  { intros nv a Ip Sp [_ Hr]. apply Q1. auto. }
  assert (RE : forall nv a, In nv q -> spells (c_args k) a (fst nv) -> reaches (c_args k) nv).
  { intros nv a Iq Sp. apply Q1 in Iq as [Ip Hi]. split; [|exact Hi]. intros Sk. destruct (in_dec string_dec (fst nv) (c_args k)) as [X|X]; auto. exfalso. exact (skip_not_spelled _ _ _ Sk X Sp). }
  split; [|split].
  - intros nv Ip Rc. assert (Iq : In nv q) by (apply Q1; destruct Rc; auto). destruct (F1 nv Iq) as [[Sk X]|(a & x & Sp & Sy)].
    + exfalso. apply X. apply Rc. exact Sk.
    + exists a, x. split; auto. eapply says_mono; eauto.
  - intros l1 nv l2 a Ep Rc Sp Hl. destruct (Q2 l1 nv l2 Ep) as (m1 & m2 & Eq & Sub); [apply Q1; split; [rewrite Ep; apply in_or_app; right; now left|apply Rc]|].
    destruct (F2 m1 nv m2 a Eq Sp) as (x & Sx & Dx).
    { intros nv' I' Sp'. apply (Hl nv' (Sub _ I')); auto. apply (RE nv' a); auto. rewrite Eq. apply in_or_app. right. now right. }
    exists x. split; auto. eapply says_mono; eauto.
  - intros a Ha x. apply F3. intros nv Iq Sp. apply (Ha nv); auto; [now apply Q1|]. eapply RE; eauto.
Qed.

(* An object restored from a file: its class, the file of its tag, and no other parameter than a rank and a device. *)
Theorem C92_tag (ps : params) (proc : option Z) (st : bst) (key nm : string) (l : loaded) :
  NoDup (map fst ps) -> (forall k p, In (k, p) ps -> NoDup (map fst p)) -> run ps proc = Ok st -> dget key (b_objs st) = Some (BTag nm l) ->
  exists p c t root, dget key ps = Some p /\ class_of p c /\ main_root ps root /\ nm = key /\ dget "tag" p = Some t /\ from_file root c c t l /\
    forall n v, In (n, v) p -> In n ["class"; "tag"; "target_rank"; "target_device_idx"].
Proof.
  intros N Np H D. destruct (run_facts E ps proc st N H) as (root & R & Out & In').
  assert (Dk : declared ps key).
  { destruct (in_dec string_dec key (map fst ps)) as [I|I]; [exact I|]. destruct (Out key I) as [O _]. congruence. }
  destruct (In' key Dk) as (class & k & r & q & o & objs & (p & Dp & Cp & Kp & Vp & Rp) & S & M & Do & Dr). rewrite D in Do. subst o.
  apply made_tag in M as (_ & -> & t & T & F & L). exists p, class, t, root. assert (Npp : NoDup (map fst p)) by (eapply Np; apply dget_In; eauto).
  pose proof (rank_split p r q Npp Rp) as (Q1 & Q2 & Q3). assert (Nq : NoDup (map fst q)) by (eapply rank_nodup; eauto).
  split; [exact Dp|]. split; [exact Cp|]. split; [apply root_is in R as (? & ? & _ & _ & _ & R); exact R|]. split; [reflexivity|]. split; [rewrite <- Q3; exact T|]. split; [exact F|].
  intros n v I. destruct (string_dec n "target_rank") as [->|Nr]; [cbn; auto|]. destruct (string_dec n "target_device_idx") as [->|Nd]; [cbn; auto 6|].
  assert (Iq : In n (map fst (ddel "target_device_idx" q))).
  { apply in_map_iff. exists (n, v). split; auto. apply In_ddel. split; auto. apply Q1. split; [exact I|]. cbn. intros; contradiction. }
  assert (Two : incl ["class"; "tag"] (map fst (ddel "target_device_idx" q))).
  { intros x [<-|[<-|[]]]; apply in_map_iff.
    - exists ("class", YStr class). split; auto. apply In_ddel. split; [|discriminate]. apply Q1. split; [now apply dget_In|discriminate].
    - exists ("tag", t). split; auto. apply In_ddel. split; [|discriminate]. now apply dget_In. }
  assert (Inc : incl (map fst (ddel "target_device_idx" q)) ["class"; "tag"]).
  { apply NoDup_length_incl; [constructor; [intros [X|[]]; discriminate|constructor; [intros []|constructor]]|rewrite map_length; exact L|exact Two]. }
  specialize (Inc n Iq). cbn in *. tauto.
Qed.

(* A parameter that the constructor does not expect stops every process. *)
Theorem C92_unknown (ps : params) (proc : option Z) (st : bst) (key c : string) (p : pars) (k : klass) (nv : string * yval) :
  NoDup (map fst ps) -> NoDup (map fst p) -> dget key ps = Some p -> class_of p c -> e_class E c = Ok k -> dget "tag" p = None ->
  In nv p -> reaches (c_args k) nv -> (forall a, ~ spells (c_args k) a (fst nv)) -> run ps proc <> Ok st.
Proof.
  intros N Np D C K T I Rc Un H. destruct (run_facts E ps proc st N H) as (root & R & Out & In').
  assert (Dk : declared ps key) by (apply in_map_iff; exists (key, p); split; [auto|now apply dget_In]).
  destruct (In' key Dk) as (class & k' & r & q & o & objs & (p' & Dp & Cp & Kp & Vp & Rp) & S & M & Do & Dr).
  rewrite D in Dp. injection Dp as <-. unfold class_of in C. rewrite C in Cp. injection Cp as <-. rewrite K in Kp. injection Kp as <-.
  pose proof (rank_split p r q Np Rp) as (Q1 & Q2 & Q3). rewrite T in Q3.
  assert (Iq : In nv q) by (apply Q1; destruct Rc; auto).
  unfold make in M. rewrite Q3 in M. inv_bind M. destruct (args_known _ _ _ _ _ _ _ _ E0 nv Iq) as [[Sk X]|[a0 Sp]].
  - apply X. apply Rc. exact Sk.
  - exact (Un a0 Sp).
Qed.

(* Single process: a configuration whose objects can be built one by one, with sound and acyclic references, is built. *)
Theorem C92_complete (ps : params) (root : string) :
  NoDup (map fst ps) -> main_root ps root -> refs_ok ps -> acyclic (uses ps) -> (forall k p, In (k, p) ps -> buildable E ps root p) ->
  exists st, run ps None = Ok st /\ forall key, declared ps key <-> exists o, dget key (b_objs st) = Some o.
Proof.
  intros N R Rf Ac B. destruct (build_order_total ps Rf Ac) as [order O].
  destruct (build_order_sound ps N order O) as (No & Hd & Hb & _).
  destruct (fold_complete E ps root order Hb No Hd N B [] order (mkB [] []) eq_refl) as [st F]; [intros k []|].
  exists st. assert (H : run ps None = Ok st) by (unfold build_objects; rewrite (root_ok ps root R); cbn [bind]; rewrite O; exact F). split; [exact H|].
  intros key. destruct (C92_placed ps None st key N H) as [P1 P2]. split.
  - intros D. destruct (P1 D) as (d & r & _ & Q & _). apply Q. constructor.
  - intros [o Do]. destruct (in_dec string_dec key (map fst ps)) as [I|I]; [exact I|]. destruct (P2 I) as [Z _]. congruence.
Qed.

(* The objects of a process are those of the simulation run alone. *)
Theorem C92_same (ps : params) (proc : option Z) (alone st : bst) (key : string) (o : built) :
  NoDup (map fst ps) -> run ps None = Ok alone -> run ps proc = Ok st -> dget key (b_objs st) = Some o -> dget key (b_objs alone) = Some o.
Proof.
  intros N H0 H. unfold build_objects in *. inv_bind H0. rewrite E0 in H. cbn [bind] in H. inv_bind H0. rewrite E1 in H. cbn [bind] in H.
  destruct (build_order_sound ps N _ E1) as (No & _). 
  apply (fold_sub E ps a proc a0 (mkB [] []) (mkB [] []) alone st); auto; [split; auto|intros s b X; exact X].
Qed.

(* When all the processes of a distribution build their objects, so does a single one. *)
Theorem C92_alone (ps : params) (procs : list Z) :
  NoDup (map fst ps) -> procs <> [] ->
  (forall key data r, placed E ps key data r -> exists q, In q procs /\ lives data r (Some q)) ->
  (forall q, In q procs -> exists st, run ps (Some q) = Ok st) -> exists st, run ps None = Ok st.
Proof.
  intros N Np Hl H. destruct procs as [|q0 procs'] eqn:Ep; [contradiction|]. rewrite <- Ep in *.
  destruct (H q0) as [st0 H0]; [rewrite Ep; now left|]. unfold build_objects in *. inv_bind H0. inv_bind H0.
  destruct (build_order_sound ps N _ E1) as (No & Hd & _). cbn [bind].
  assert (X : exists st, fold_res (build_one E ps a None) (mkB [] []) a0 = Ok st).
  { apply (fold_all E ps a procs a0) with (sts := fun _ => mkB [] []).
    - intros key class k r p _ K. destruct (Hl key (c_data k) r (known_placed _ _ _ _ _ _ _ K)) as (q & Hq & L). exists q. split; auto. now apply here_lives.
    - split; auto.
    - exact Np.
    - intros q _ s b Y. exact Y.
    - intros q Hq. destruct (H q Hq) as [st Y]. rewrite E0 in Y. cbn [bind] in Y. rewrite E1 in Y. exact (ex_intro _ _ Y). }
  destruct X as [st X]. exists st. rewrite E0. cbn [bind]. rewrite E1. exact X.
Qed.

(* A process of a simulation that can be built alone builds its part, when it has all the objects that its own ones
   mention and no object restored from a file is somewhere else. *)
Theorem C92_distributed (ps : params) (q : Z) (alone : bst) :
  NoDup (map fst ps) -> (forall k p, In (k, p) ps -> NoDup (map fst p)) -> run ps None = Ok alone ->
  (forall key data r p, placed E ps key data r -> dget key ps = Some p -> ~ lives data r (Some q) -> dget "tag" p = None) ->
  (forall key data r p s data' r', placed E ps key data r -> dget key ps = Some p -> lives data r (Some q) -> points p s ->
     placed E ps s data' r' -> lives data' r' (Some q)) ->
  exists st, run ps (Some q) = Ok st /\
    forall key data r o, placed E ps key data r -> (dget key (b_objs st) = Some o <-> lives data r (Some q) /\ dget key (b_objs alone) = Some o).
Proof.
  intros N Np H0 Ht Hr. pose proof H0 as HH. unfold build_objects in *. inv_bind H0. inv_bind H0. cbn [bind].
  destruct (build_order_sound ps N _ E1) as (No & Hd & _).
  assert (X : exists st, fold_res (build_one E ps a (Some q)) (mkB [] []) a0 = Ok st).
  { apply (fold_restrict E ps a q a0) with (st0 := mkB [] []) (st0' := alone); auto.
    - intros key class k r p _ K Hh. pose proof (known_placed _ _ _ _ _ _ _ K) as Pl. destruct K as (p0 & D & C & K & V & R).
      assert (Nl : ~ lives (c_data k) r (Some q)) by (rewrite <- here_lives; congruence).
      destruct (rank_split p0 r p (Np _ _ (dget_In _ _ _ D)) R) as (_ & _ & Q3). rewrite Q3. exact (Ht key _ r p0 Pl D Nl).
    - intros key class k r p s _ K Hh Ps c' k' r' p' K'. pose proof (known_placed _ _ _ _ _ _ _ K) as Pl. pose proof (known_placed _ _ _ _ _ _ _ K') as Pl'.
      destruct K as (p0 & D & C & K & V & R). apply here_lives. apply here_lives in Hh. apply (Hr key _ r p0 s _ r' Pl D Hh); auto.
      destruct Ps as (b & v & I & M). exists b, v. split; auto. destruct (rank_split p0 r p (Np _ _ (dget_In _ _ _ D)) R) as (Q1 & _). now apply Q1.
    - split; auto.
    - intros s b Y. discriminate. }
  destruct X as [st X]. exists st. assert (H1 : run ps (Some q) = Ok st) by (unfold build_objects; rewrite E0; cbn [bind]; rewrite E1; exact X).
  split; [rewrite E0; cbn [bind]; rewrite E1; exact X|]. intros key data r o Pl.
  assert (D : declared ps key) by (destruct Pl as (p & c & k & D & _); apply in_map_iff; exists (key, p); split; [auto|now apply dget_In]).
  destruct (C92_placed ps (Some q) st key N H1) as [P _]. destruct (P D) as (d & r' & Pl' & P1 & _). destruct (placed_fun _ _ _ _ _ _ _ Pl Pl') as [<- <-].
  split.
  - intros Y. split; [apply P1; eauto|]. exact (C92_same ps (Some q) alone st key o N HH H1 Y).
  - intros [L Y]. apply P1 in L as [o' Z]. pose proof (C92_same ps (Some q) alone st key o' N HH H1 Z). congruence.
Qed.

(* An object restored from a file cannot be given to a process: the others stop, since no constructor expects a tag. *)
Theorem C92_tag_elsewhere (ps : params) (q : Z) (st : bst) (key c : string) (p : pars) (k : klass) (t : yval) (z : Z) :
  NoDup (map fst ps) -> NoDup (map fst p) -> dget key ps = Some p -> class_of p c -> e_class E c = Ok k -> dget "tag" p = Some t ->
  dget "target_rank" p = Some (YInt z) -> q <> z -> (forall a, ~ spells (c_args k) a "tag") -> run ps (Some q) <> Ok st.
Proof.
  intros N Np D C K T Rk Hq Un H. destruct (run_facts E ps (Some q) st N H) as (root & R & Out & In').
  assert (Dk : declared ps key) by (apply in_map_iff; exists (key, p); split; [auto|now apply dget_In]).
  destruct (In' key Dk) as (class & k' & r & q' & o & objs & (p' & Dp & Cp & Kp & Vp & Rp) & S & M & Do & Dr).
  rewrite D in Dp. injection Dp as <-. unfold class_of in C. rewrite C in Cp. injection Cp as <-. rewrite K in Kp. injection Kp as <-.
  pose proof (rank_split p r q' Np Rp) as (Q1 & Q2 & Q3). unfold rank_of in Rp. rewrite Rk in Rp. injection Rp as <- <-.
  assert (Hh : build_here (Some q) (c_data k) (Some z) = false).
  { unfold build_here, target. destruct (Z.eqb_spec q z); [contradiction|]. destruct (Z.eqb_spec z q); [congruence|]. rewrite !andb_false_r. reflexivity. }
  rewrite Hh in M. unfold make in M. rewrite Q3, T in M. inv_bind M.
  assert (Iq : In ("tag", t) (ddel "target_rank" p)) by (apply Q1; split; [now apply dget_In|discriminate]).
  destruct (args_known _ _ _ _ _ _ _ _ E0 _ Iq) as [[[X|[X|X]] _]|[a0 Sp]]; try discriminate. exact (Un a0 Sp).
Qed.
End P.
Print Assumptions C92_placed.
Print Assumptions C92_once.
Print Assumptions C92_args.
Print Assumptions C92_tag.
Print Assumptions C92_unknown.
Print Assumptions C92_complete.
Print Assumptions C92_same.
Print Assumptions C92_alone.
Print Assumptions C92_distributed.
Print Assumptions C92_tag_elsewhere.

(* ------------------------------------------------------------------------------------ an example *)

(* Some classes of the code, with part of their arguments (simul_params.py, source.py, atmo_propagation.py, dm.py,
   atmo_evolution.py, data_objects/ifunc.py).  Constructors accept anything that names their compulsory arguments. *)
Definition classes : dict klass :=
  [("SimulParams", mkKlass ["self"; "pixel_pupil"; "pixel_pitch"; "root_dir"; "total_time"; "time_step"] [] true);
   ("Source", mkKlass ["self"; "polar_coordinates"; "magnitude"; "wavelengthInNm"; "height"] [] true);
   ("IFunc", mkKlass ["self"; "ifunc"; "type_str"; "mask"; "npixels"] [] true);
   ("AtmoPropagation", mkKlass ["self"; "simul_params"; "source_dict"; "doFresnel"; "target_device_idx"] [("source_dict", HOther); ("simul_params", HObj "SimulParams")] false);
   ("AtmoEvolution", mkKlass ["self"; "simul_params"; "L0"; "heights"; "data_dir"] [] false);
   ("DM", mkKlass ["self"; "simul_params"; "height"; "ifunc"; "m2c"; "sign"] [("ifunc", HObj "IFunc"); ("m2c", HObj "M2C"); ("simul_params", HObj "SimulParams")] false)].
Definition needs : dict (list string) :=
  [("SimulParams", []); ("Source", ["polar_coordinates"; "magnitude"; "wavelengthInNm"]); ("IFunc", []); ("AtmoPropagation", ["simul_params"; "source_dict"]);
   ("AtmoEvolution", ["simul_params"; "L0"]); ("DM", ["simul_params"; "height"])].
Definition exE : env := mkEnv
  (fun c => match dget c classes with Some k => Ok k | None => Err RuntimeError end)
  (fun c my => match dget c needs with
               | Some l => if forallb (fun a => dmem a my) l then Ok tt else Err TypeError
               | None => Err TypeError
               end)
  (fun type path => String.eqb path "/cal/ifunc/zonal.fits")
  (fun _ => false).

Definition main_p : pars := [("class", YStr "SimulParams"); ("root_dir", YStr "/cal/"); ("pixel_pupil", YInt 160)].
Definition prop_p : pars := [("class", YStr "AtmoPropagation"); ("simul_params_ref", YStr "main"); ("source_dict_ref", YList [YStr "on_axis"; YStr "lgs"]);
  ("inputs", YDict [("layer_list", YStr "dm.out_layer")]); ("outputs", YList [])].
Definition dm_p : pars := [("class", YStr "DM"); ("simul_params_ref", YStr "main"); ("ifunc_object", YStr "zonal"); ("height", YInt 0); ("target_rank", YInt 1)].
Definition star (m : Z) : pars := [("class", YStr "Source"); ("polar_coordinates", YList [YInt 0; YInt 0]); ("magnitude", YInt m); ("wavelengthInNm", YInt 750)].
Definition ex_ps : params := [("prop", prop_p); ("dm", dm_p); ("on_axis", star 8); ("lgs", star 5); ("main", main_p)].

Definition o_main := BNew "main" "SimulParams" [("root_dir", ARaw (YStr "/cal/")); ("pixel_pupil", ARaw (YInt 160))].
Definition o_star n m := BNew n "Source" [("polar_coordinates", ARaw (YList [YInt 0; YInt 0])); ("magnitude", ARaw (YInt m)); ("wavelengthInNm", ARaw (YInt 750))].
Definition o_prop := BNew "prop" "AtmoPropagation" [("simul_params", AObj o_main); ("source_dict", ADict [("on_axis", o_star "on_axis" 8); ("lgs", o_star "lgs" 5)])].
Definition o_dm := BNew "dm" "DM" [("simul_params", AObj o_main); ("ifunc", ALoaded (mkLoaded "IFunc" "/cal/ifunc/zonal.fits" "zonal")); ("height", ARaw (YInt 0))].

(* alone: everything, each object after those it mentions *)
Example C92_alone_example : build_objects exE ex_ps None =
  Ok (mkB [("main", o_main); ("on_axis", o_star "on_axis" 8); ("lgs", o_star "lgs" 5); ("prop", o_prop); ("dm", o_dm)] []).
Proof. vm_compute. reflexivity. Qed.

(* two processes: the mirror in the second, data in both *)
Example C92_two_example :
  build_objects exE ex_ps (Some 0%Z) = Ok (mkB [("main", o_main); ("on_axis", o_star "on_axis" 8); ("lgs", o_star "lgs" 5); ("prop", o_prop)] [("dm", 1%Z)]) /\
  build_objects exE ex_ps (Some 1%Z) = Ok (mkB [("main", o_main); ("on_axis", o_star "on_axis" 8); ("lgs", o_star "lgs" 5); ("dm", o_dm)] [("prop", 0%Z)]).
Proof. split; vm_compute; reflexivity. Qed.

Ltac ff := let n := fresh in let a := fresh in intros n a; repeat (destruct n as [|n]; cbn [String.get]; [first [discriminate|intros [= <-]; discriminate]|]); try discriminate.
(* the hypotheses of the theorems hold here *)
Example C92_complete_example : NoDup (map fst ex_ps) /\ main_root ex_ps "/cal/" /\ refs_ok ex_ps /\ acyclic (uses ex_ps) /\
  (forall k p, In (k, p) ex_ps -> buildable exE ex_ps "/cal/" p).
Proof.
  assert (N : NoDup (map fst ex_ps)) by (repeat constructor; cbn; intuition discriminate).
  split; [exact N|].
  assert (R : root_dir ex_ps = Ok "/cal/") by reflexivity. split; [apply root_is in R as (? & ? & _ & _ & _ & R); exact R|].
  assert (Pl : forall s, In s ["main"; "on_axis"; "lgs"] -> plain s).
  { intros s [<-|[<-|[<-|[]]]]; (split; [|split]); ff. }
  assert (On : forall s, In s ["main"; "on_axis"; "lgs"] -> object_name ex_ps (YStr s)).
  { intros s Hs. exists s. split; auto. split; auto. unfold declared. cbn in *. tauto. }
  assert (O : exists o, build_order ex_ps = Ok o) by (eexists; vm_compute; reflexivity). destruct O as [o O].
  destruct (build_order_sound ex_ps N o O) as (_ & Hd & Hb & Ac).
  split; [split|split; [exact Ac|]].
  - intros k p b v Ik Ib. assert (X : v = YStr "main" \/ v = YList [YStr "on_axis"; YStr "lgs"]).
    { assert (T : forall n w, n = b ++ "_ref" -> ends_with "_ref" n = false -> w = v -> False).
      { intros n w -> X _. rewrite (proj2 (ends_with_iff "_ref" (b ++ "_ref")) (ex_intro _ b eq_refl)) in X. discriminate. }
      cbn in Ik. destruct Ik as [[= <- <-]|[[= <- <-]|[[= <- <-]|[[= <- <-]|[[= <- <-]|[]]]]]]; cbn in Ib;
      repeat (destruct Ib as [Ib|Ib]; [apply pair_equal_spec in Ib as [Eb Ev]; first [left; symmetry; exact Ev|right; symmetry; exact Ev|
         exfalso; exact (T _ _ Eb eq_refl Ev)]|]); destruct Ib. }
    destruct X as [->| ->].
    + left. exists "main", "main", 0%Z. split; auto. apply plain_refers, Pl. now left.
    + right. eexists. split; [reflexivity|]. intros x [<-|[<-|[]]]; do 3 eexists; (split; [reflexivity|]); apply plain_refers, Pl; cbn; auto.
  - intros k r U. apply Hd. destruct (Hb k r U) as (l1 & l2 & l3 & ->). apply in_or_app. right. now left.
  - assert (Sg : forall a, ends_with "_list" a = false -> ends_with "_dict" a = false -> single a).
    { intros a A B. split; intros Q; apply has_end_iff in Q; congruence. }
    assert (My : forall l (my : dict argval), (forall a, In a l -> dmem a my = true) -> forallb (fun a => dmem a my) l = true) by (intros; now apply forallb_forall).
    assert (Sp : forall args nv, In (fst nv) args -> exists a, spells args a (fst nv) /\ forall E ps root k, usable E ps root k a (fst nv) (snd nv)).
    { intros args nv I. exists (fst nv). split; [split; auto|intros; constructor]. }
    intros k p Ik. cbn in Ik.
    destruct Ik as [[= <- <-]|[[= <- <-]|[[= <- <-]|[[= <- <-]|[[= <- <-]|[]]]]]];
      (split; [repeat constructor; cbn; intuition discriminate|]); (split; [exact I|]); (split; [exact I|]); do 2 eexists; (split; [reflexivity|]); (split; [reflexivity|]); right; (split; [reflexivity|]);
      cbn [c_args].
    + split; [|split; [cbn; intuition discriminate|intros my Hm; cbn [e_init exE needs dget String.eqb Ascii.eqb Bool.eqb]; rewrite My; [reflexivity|]]].
      * intros nv Iv [Rv _]. cbn in Iv. destruct Iv as [<-|[<-|[<-|[<-|[<-|[]]]]]]; cbn [fst snd] in *.
        { exfalso. cbn in Rv. assert (Z := Rv (or_introl eq_refl)). intuition discriminate. }
        { exists "simul_params". split; [split; [cbn; auto|right; split; [cbn; intuition discriminate|now left]]|]. apply (use_ref _ _ _ _ "simul_params"); [now apply Sg|apply On; cbn; auto]. }
        { exists "source_dict". split; [split; [cbn; auto|right; split; [cbn; intuition discriminate|now left]]|]. apply (use_list_ref _ _ _ _ "source_dict"); [right; exists "source"; reflexivity|].
          constructor; [apply On; cbn; auto|]. constructor; [apply On; cbn; auto|constructor]. }
        { exfalso. assert (Z := Rv (or_intror (or_introl eq_refl))). cbn in Z. intuition discriminate. }
        { exfalso. assert (Z := Rv (or_intror (or_intror eq_refl))). cbn in Z. intuition discriminate. }
      * intros a Ha. apply Hm. left. cbn in Ha. destruct Ha as [<-|[<-|[]]].
        { exists ("simul_params_ref", YStr "main"). split; [cbn; auto|]. split; [split; cbn; [intuition discriminate|discriminate]|]. split; [cbn; auto|right; split; [cbn; intuition discriminate|now left]]. }
        { exists ("source_dict_ref", YList [YStr "on_axis"; YStr "lgs"]). split; [cbn; auto|]. split; [split; cbn; [intuition discriminate|discriminate]|]. split; [cbn; auto|right; split; [cbn; intuition discriminate|now left]]. }
    + split; [|split; [cbn; intuition discriminate|intros my Hm; cbn [e_init exE needs dget String.eqb Ascii.eqb Bool.eqb]; rewrite My; [reflexivity|]]].
      * intros nv Iv [Rv Rz]. cbn in Iv. destruct Iv as [<-|[<-|[<-|[<-|[<-|[]]]]]]; cbn [fst snd] in *.
        { exfalso. assert (Z := Rv (or_introl eq_refl)). cbn in Z. intuition discriminate. }
        { exists "simul_params". split; [split; [cbn; auto|right; split; [cbn; intuition discriminate|now left]]|]. apply (use_ref _ _ _ _ "simul_params"); [now apply Sg|apply On; cbn; auto]. }
        { exists "ifunc". split; [split; [cbn; auto 6|right; split; [cbn; intuition discriminate|right; now right]]|]. apply (use_object _ _ _ _ "ifunc") with (type := "IFunc"); [now apply Sg|reflexivity|].
          exists "zonal", "/cal/ifunc/zonal.fits". split; [reflexivity|]. split; reflexivity. }
        { exists "height". split; [split; [cbn; auto 6|now left]|constructor]. }
        { exfalso. exact (Rz eq_refl 1%Z eq_refl). }
      * intros a Ha. apply Hm. left. cbn in Ha. destruct Ha as [<-|[<-|[]]].
        { exists ("simul_params_ref", YStr "main"). split; [cbn; auto|]. split; [split; cbn; [intuition discriminate|discriminate]|]. split; [cbn; auto|right; split; [cbn; intuition discriminate|now left]]. }
        { exists ("height", YInt 0). split; [cbn; auto 6|]. split; [split; cbn; [intuition discriminate|discriminate]|]. split; [cbn; auto|now left]. }
    + split; [|split; [cbn; intuition discriminate|intros my Hm; cbn [e_init exE needs dget String.eqb Ascii.eqb Bool.eqb]; rewrite My; [reflexivity|]]].
      * intros nv Iv [Rv _]. cbn in Iv. destruct Iv as [<-|Iv]; [exfalso; assert (Z := Rv (or_introl eq_refl)); cbn in Z; intuition discriminate|].
        destruct (Sp ["self"; "polar_coordinates"; "magnitude"; "wavelengthInNm"; "height"] nv) as (a & S1 & S2); [|exists a; split; auto]. repeat (destruct Iv as [<-|Iv]; [cbn; auto 6|]). destruct Iv.
      * intros a Ha. apply Hm. left. assert (Z : exists v, In (a, v) (star 8)) by (cbn in Ha |- *; destruct Ha as [<-|[<-|[<-|[]]]]; eexists; auto 6).
        destruct Z as [v Z]. exists (a, v). split; [exact Z|]. cbn in Ha. split; [split; cbn; destruct Ha as [<-|[<-|[<-|[]]]]; try discriminate; intuition discriminate|]. split; [|now left]. cbn. intuition.
    + split; [|split; [cbn; intuition discriminate|intros my Hm; cbn [e_init exE needs dget String.eqb Ascii.eqb Bool.eqb]; rewrite My; [reflexivity|]]].
      * intros nv Iv [Rv _]. cbn in Iv. destruct Iv as [<-|Iv]; [exfalso; assert (Z := Rv (or_introl eq_refl)); cbn in Z; intuition discriminate|].
        destruct (Sp ["self"; "polar_coordinates"; "magnitude"; "wavelengthInNm"; "height"] nv) as (a & S1 & S2); [|exists a; split; auto]. repeat (destruct Iv as [<-|Iv]; [cbn; auto 6|]). destruct Iv.
      * intros a Ha. apply Hm. left. assert (Z : exists v, In (a, v) (star 5)) by (cbn in Ha |- *; destruct Ha as [<-|[<-|[<-|[]]]]; eexists; auto 6).
        destruct Z as [v Z]. exists (a, v). split; [exact Z|]. cbn in Ha. split; [split; cbn; destruct Ha as [<-|[<-|[<-|[]]]]; try discriminate; intuition discriminate|]. split; [|now left]. cbn. intuition.
    + split; [|split; [cbn; intuition discriminate|intros my Hm; reflexivity]].
      intros nv Iv [Rv _]. cbn in Iv. destruct Iv as [<-|Iv]; [exfalso; assert (Z := Rv (or_introl eq_refl)); cbn in Z; intuition discriminate|].
      destruct (Sp ["self"; "pixel_pupil"; "pixel_pitch"; "root_dir"; "total_time"; "time_step"] nv) as (a & S1 & S2); [|exists a; split; auto]. repeat (destruct Iv as [<-|Iv]; [cbn; auto 6|]). destruct Iv.
Qed.

(* An object with a tag and a rank: it is found where it lives and stops the other process. *)
Definition tag_p : pars := [("class", YStr "IFunc"); ("tag", YStr "zonal"); ("target_rank", YInt 1)].
Theorem C92_tag_elsewhere_refuted : exists E ps, (exists st, build_objects E ps None = Ok st) /\
  (exists st, build_objects E ps (Some 1%Z) = Ok st /\ dget "ifunc" (b_objs st) = Some (BTag "ifunc" (mkLoaded "IFunc" "/cal/ifunc/zonal.fits" "zonal"))) /\
  build_objects E ps (Some 0%Z) = Err ValueError.
Proof.
  exists exE, [("main", main_p); ("ifunc", tag_p)]. split; [eexists; vm_compute; reflexivity|]. split; [eexists; split; vm_compute; reflexivity|vm_compute; reflexivity].
Qed.
Print Assumptions C92_tag_elsewhere_refuted.

(* An object mentioned by an object of another process is not found there, although the simulation can be built alone. *)
Theorem C92_reference_elsewhere_refuted : exists E ps, (exists st, build_objects E ps None = Ok st) /\
  (exists st, build_objects E ps (Some 0%Z) = Ok st) /\ build_objects E ps (Some 1%Z) = Err KeyError.
Proof.
  exists exE, [("main", (main_p ++ [("target_rank", YInt 0)])%list); ("dm", dm_p)]. split; [eexists; vm_compute; reflexivity|]. split; [eexists; vm_compute; reflexivity|vm_compute; reflexivity].
Qed.
Print Assumptions C92_reference_elsewhere_refuted.

(* A reference to an output of an object is accepted when objects are ordered, and then not found. *)
Theorem C92_output_reference_refuted : exists E ps order, build_order ps = Ok order /\ refs_ok ps /\ build_objects E ps None = Err KeyError.
Proof.
  set (ps := [("main", main_p); ("prop", [("class", YStr "AtmoPropagation"); ("simul_params_ref", YStr "main.out"); ("source_dict_ref", YList [])])]).
  assert (N : NoDup (map fst ps)) by (repeat constructor; cbn; intuition discriminate).
  exists exE, ps, ["main"; "prop"]. assert (O : build_order ps = Ok ["main"; "prop"]) by (vm_compute; reflexivity). split; [exact O|]. split; [|vm_compute; reflexivity].
  destruct (build_order_sound ps N _ O) as (_ & Hd & Hb & _). split; [|intros k r U; apply (proj1 (Hd r)); destruct (Hb k r U) as (l1 & l2 & l3 & E3); rewrite E3; apply in_or_app; right; now left].
  intros k p b v Ik Ib. assert (X : v = YStr "main.out" \/ v = YList []).
  { assert (T : forall n w, n = b ++ "_ref" -> ends_with "_ref" n = false -> w = v -> False).
    { intros n w -> X _. rewrite (proj2 (ends_with_iff "_ref" (b ++ "_ref")) (ex_intro _ b eq_refl)) in X. discriminate. }
    cbn in Ik. destruct Ik as [[= <- <-]|[[= <- <-]|[]]]; cbn in Ib;
    repeat (destruct Ib as [Ib|Ib]; [apply pair_equal_spec in Ib as [Eb Ev]; first [left; symmetry; exact Ev|right; symmetry; exact Ev|
       exfalso; exact (T _ _ Eb eq_refl Ev)]|]); destruct Ib. }
  destruct X as [->| ->].
  - left. exists "main.out", "main", 0%Z. split; auto. exists None, (Some "out"), None. split; [reflexivity|]. split; [|reflexivity]. cbn. repeat split; ff.
  - right. exists []. split; [reflexivity|intros x []].
Qed.
Print Assumptions C92_output_reference_refuted.

(* A class that is not in the table of directories cannot have a data_dir argument, even when the parameter is given. *)
Theorem C92_data_dir_refuted : exists E ps k, e_class E "Recorder" = Ok k /\ c_args k = ["self"; "data_dir"] /\ (forall my, e_init E "Recorder" my = Ok tt) /\
  dget "rec" ps = Some [("class", YStr "Recorder"); ("data_dir", YStr "/tmp")] /\ build_objects E ps None = Err KeyError.
Proof.
  exists (mkEnv (fun c => if String.eqb c "Recorder" then Ok (mkKlass ["self"; "data_dir"] [] false) else e_class exE c)
            (fun c my => if String.eqb c "Recorder" then Ok tt else e_init exE c my) (e_restore exE) (e_file exE)),
    [("main", main_p); ("rec", [("class", YStr "Recorder"); ("data_dir", YStr "/tmp")])], (mkKlass ["self"; "data_dir"] [] false).
  repeat split; vm_compute; reflexivity.
Qed.
Print Assumptions C92_data_dir_refuted.

(* The same argument written twice: the last parameter decides, silently. *)
Example C92_args_example : exists st, build_objects exE [("main", main_p); ("dm", [("class", YStr "DM"); ("ifunc_object", YStr "zonal"); ("simul_params_ref", YStr "main"); ("height", YInt 3); ("ifunc", YNone)])] None = Ok st /\
  dget "dm" (b_objs st) = Some (BNew "dm" "DM" [("ifunc", ARaw YNone); ("simul_params", AObj o_main); ("height", ARaw (YInt 3))]).
Proof. eexists. split; vm_compute; reflexivity. Qed.
(* a wrong name *)
Example C92_unknown_example q : In q [None; Some 0%Z; Some 1%Z] -> build_objects exE [("main", main_p); ("dm", ("heigth", YInt 3) :: dm_p)] q = Err ValueError.
Proof. intros [<-|[<-|[<-|[]]]]; vm_compute; reflexivity. Qed.
(* the directory of the screens *)
Example C92_automatic_example : exists st, build_objects exE [("main", main_p); ("atmo", [("class", YStr "AtmoEvolution"); ("simul_params_ref", YStr "main"); ("L0", YInt 40)])] None = Ok st /\
  dget "atmo" (b_objs st) = Some (BNew "atmo" "AtmoEvolution" [("data_dir", ADir "/cal/phasescreens/"); ("simul_params", AObj o_main); ("L0", ARaw (YInt 40))]).
Proof. eexists. split; vm_compute; reflexivity. Qed.

(* A device that is not a number is refused; so is an object to load into an argument that is not declared with a class. *)
Theorem C92_device_refused (E : env) (ps : params) root proc st key (p : pars) c k v : dget key ps = Some p -> dget "class" p = Some (YStr c) -> e_class E c = Ok k -> dget "target_device_idx" p = Some v ->
  match v with YNone | YInt _ | YBool _ | YFloat _ => False | _ => True end -> build_one E ps root proc st key = Err TypeError.
Proof. intros D C K V B. unfold build_one. rewrite D, C. cbn [bind]. rewrite K. cbn [bind]. unfold device_ok. rewrite V. destruct v; (contradiction || reflexivity). Qed.
Print Assumptions C92_device_refused.
Theorem C92_object_refused (E : env) root k objs name value h : let p := par_name (c_args k) name in
  mem name ["class"; "inputs"; "outputs"] = false -> mem p (c_args k) = true -> p <> name -> dget p (c_hints k) = Some h -> match h with HObj _ => False | _ => True end -> value <> YNone ->
  ends_with "_object" name = true -> (forall s, In s ["_list_ref"; "_dict_ref"; "_list_object"; "_dict_object"; "_ref"; "_data"] -> ends_with s name = false) ->
  one_arg E root k objs true name value = Err (match dget p CalFileModel.subdirs, value with None, _ => KeyError | Some _, YStr _ => AttributeError | Some _, _ => TypeError end).
Proof.
  intros p C M N H B V O F. unfold one_arg. rewrite C. cbn [andb]. fold p. rewrite M. cbn [negb]. rewrite !F by (cbn; tauto). cbn [andb]. rewrite O, (proj2 (String.eqb_neq p name) N). cbn [negb andb]. rewrite H.
  assert (R : match restore E root p "" value with Err TypeError => Err TypeError | Err KeyError => Err KeyError | _ => Err AttributeError end = @Err (option (string * argval)) (match dget p CalFileModel.subdirs, value with None, _ => KeyError | Some _, YStr _ => AttributeError | Some _, _ => TypeError end)).
  { unfold restore, CalFileModel.filename. destruct (dget p CalFileModel.subdirs); destruct value; cbn [bind]; try reflexivity. destruct (e_restore E "" _); reflexivity. }
  destruct h; [contradiction|..]; destruct value; try contradiction; exact R.
Qed.
Print Assumptions C92_object_refused.
Example C92_object_refused_example (E : env) : one_arg E "/data" (mkKlass ["self"; "pupilstop"] [("pupilstop", HOther)] false) [] true "pupilstop_object" (YInt 3) = Err TypeError.
Proof. reflexivity. Qed.
