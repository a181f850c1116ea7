(* C52: explicit and implicit pseudo open loop control.
   C53: multirate reconstruction.
   C69: reconstruction without POLC. *)
From Coq Require Import List ZArith Bool Lia PeanoNat QArith Qcanon.
From Verif Require Import PyBase PyLemmas Arith ArithLemmas FilterSpec SumLemmas NpModel NpSpec NpProofs NpSegments VecModel VecProofs2
  RecModel RecSpec RecProofs Properties_Filter.
Import ListNotations.
Local Open Scope nat_scope.

Definition polc_args {A} (n d : option Z) (P R D : mat A) : rec_args A :=
  mkRecArgs n (Some R) (Some P) (Some D) true None None false None d.

Lemma explicit_init_ok A n d (P R D : mat A) nm ns : shape P nm (length R) -> shape D ns nm -> 0 < ns ->
  modalrec_init (polc_args n d P R D) = Ok (mkRec (Some R) (Some P) (Some D) true (Some (Z.of_nat nm)) nm).
Proof.
  intros [HP _] SD Hs. unfold modalrec_init, polc_args. cbn [ra_polc ra_identity ra_ncut ra_recmat ra_filtmat ra_intmat ra_csize ra_projmat bind].
  unfold ncols. rewrite (hd_len D ns nm SD Hs), HP. reflexivity.
Qed.

Lemma implicit_init_ok A n d (P R D : mat A) nl ns nm : shape P nm nl -> shape R nl ns -> shape D ns nm -> 0 < nl -> 0 < ns ->
  exists H, implicit_init (polc_args n d P R D) = Ok (mkImp (mkRec None None None true (Some (Z.of_nat nm)) nm) (mm P R) H) /\
    shape H nm nm /\ forall i j, i < nm -> j < nm -> entry H i j = sub (entry (identity nm) i j) (entry (mm (mm P R) D) i j).
Proof.
  intros SP SR SD Hl Hs. pose proof (mm_shape P R nm nl ns SP SR Hl) as SC. pose proof (mm_shape _ D nm ns nm SC SD Hs) as SCD.
  destruct (minus_rows (identity nm) (mm (mm P R) D) nm nm (identity_shape nm) SCD) as (H & E & SH & EH).
  exists H. split; [|split; assumption]. unfold implicit_init.
  change (mkRecArgs (ra_nmodes (polc_args n d P R D)) (ra_recmat (polc_args n d P R D)) (ra_projmat (polc_args n d P R D))
            (ra_intmat (polc_args n d P R D)) true (ra_csize (polc_args n d P R D)) None false (ra_ncut (polc_args n d P R D))
            (ra_discard (polc_args n d P R D))) with (polc_args n d P R D).
  assert (LR : length R = nl) by apply SR.
  rewrite (explicit_init_ok A n d P R D nm ns) by (rewrite ?LR; auto). cbn [bind rc_R rc_P rc_D rc_csize rc_nmodes].
  rewrite (matmat_ok P R nm nl) by auto. cbn [bind]. rewrite (matmat_ok (mm P R) D nm ns) by (auto; apply SD). cbn [bind].
  replace (length (mm (mm P R) D)) with nm by (symmetry; apply SCD). rewrite E. reflexivity.
Qed.

Lemma setup_polc A (c : rec_cfg A) i ns nm : rc_polc c = true -> rc_csize c = Some (Z.of_nat nm) -> good_in ns nm i ->
  modalrec_setup c i = Ok (mkRecSt (slopes_of i) (zeros nm) (zeros (rc_nmodes c), None) (zeros (rc_nmodes c), None)).
Proof.
  intros Hp Hc (G1 & G2 & G3 & G4). unfold modalrec_setup. rewrite (stacked_ok i G1), Hp, Hc. cbn [bind].
  unfold time_of in G1. destruct (ri_slopes i) as [[v g]|]; [|destruct (ri_list i) as [|[v g] l]; [congruence|]];
    (destruct (ri_cmd i) as [o|]; [|congruence]); rewrite (proj2 (Z.ltb_ge _ 0)) by lia; rewrite Nat2Z.id; reflexivity.
Qed.

(* Exact arithmetic: at every time at which the slopes are fresh, and whatever happened
   before, both schemes output the same modes, given by the POLC formula. *)
Theorem C52_agree : forall A (P R D : mat A) nl ns nm n d, is_field A ->
  shape P nm nl -> shape R nl ns -> shape D ns nm -> 0 < nl -> 0 < ns ->
  exists ce ci, modalrec_init (polc_args n d P R D) = Ok ce /\ implicit_init (polc_args n d P R D) = Ok ci /\
  forall i0, good_in ns nm i0 -> exists se si, modalrec_setup ce i0 = Ok se /\ modalrec_setup (ic_base ci) i0 = Ok si /\
  forall hist t i, (forall x, In x hist -> good_in ns nm (snd x)) -> good_in ns nm i -> time_of i = Some t ->
  exists se' si', fold_res (modalrec_step ce) se (hist ++ [(t, i)]) = Ok se' /\ fold_res (implicit_step ci) si (hist ++ [(t, i)]) = Ok si' /\
    rs_modes se' = rs_modes si' /\ snd (rs_modes se') = Some t /\ length (fst (rs_modes se')) = nm /\
    (forall k, k < nm -> nth k (fst (rs_modes se')) zer = polc_mode P R D nl ns nm (slopes_of i) (commands_of nm i) k) /\
    snd (rs_pol se') = Some t /\ length (fst (rs_pol se')) = nl /\
    (forall j, j < nl -> nth j (fst (rs_pol se')) zer = open_loop_mode R D ns nm (slopes_of i) (commands_of nm i) j).
Proof.
  intros A P R D nl ns nm n d HF SP SR SD Hl Hs. assert (LR : length R = nl) by apply SR.
  destruct (implicit_init_ok A n d P R D nl ns nm SP SR SD Hl Hs) as (H & EI & SH & EH).
  eexists. eexists. split; [apply (explicit_init_ok A n d P R D nm ns); rewrite ?LR; auto|]. split; [exact EI|].
  intros i0 G0. eexists. eexists. split; [apply (setup_polc A _ i0 ns nm); auto|]. split; [apply (setup_polc A _ i0 ns nm); auto|].
  cbn [rc_nmodes ic_base]. intros hist t i Hh G T.
  set (ce := mkRec _ _ _ _ _ _). set (ci := mkImp _ _ _). set (se := mkRecSt _ _ _ _).
  assert (SC : shape (mm P R) nm ns) by (eapply mm_shape; eauto).
  assert (IE : exists s1, fold_res (modalrec_step ce) se hist = Ok s1 /\ length (rs_slopes s1) = ns /\ length (rs_cmds s1) = nm).
  { clear - Hh SP SR SD G0. induction hist as [|x hist IH] using rev_ind.
    - exists se. split; [reflexivity|]. cbn. split; [apply G0|apply repeat_length].
    - destruct IH as (s1 & E & L1 & L2); [intros; apply Hh; apply in_or_app; now left|]. rewrite fold_res_snoc, E. cbn [bind]. destruct x as [t i].
      assert (G : good_in ns nm i) by (apply (Hh (t, i)); apply in_or_app; right; now left).
      rewrite (explicit_step ce s1 t i P R D nl ns nm) by (auto). eexists. split; [reflexivity|]. destruct G as (_ & G2 & _ & G4).
      destruct (match time_of i with Some g => _ | None => _ end); cbn; auto. }
  assert (II : exists s1, fold_res (implicit_step ci) se hist = Ok s1 /\ length (rs_slopes s1) = ns /\ length (rs_cmds s1) = nm).
  { clear - Hh SC SH G0. induction hist as [|x hist IH] using rev_ind.
    - exists se. split; [reflexivity|]. cbn. split; [apply G0|apply repeat_length].
    - destruct IH as (s1 & E & L1 & L2); [intros; apply Hh; apply in_or_app; now left|]. rewrite fold_res_snoc, E. cbn [bind]. destruct x as [t i].
      assert (G : good_in ns nm i) by (apply (Hh (t, i)); apply in_or_app; right; now left).
      rewrite (implicit_step_ok ci s1 t i ns nm) by auto. eexists. split; [reflexivity|]. destruct G as (_ & G2 & _ & G4). cbn; auto. }
  destruct IE as (s1 & E1 & L1 & L2), II as (s2 & E2 & L3 & L4).
  rewrite !fold_res_snoc, E1, E2. cbn [bind].
  rewrite (explicit_step ce s1 t i P R D nl ns nm) by auto. rewrite (implicit_step_ok ci s2 t i ns nm) by auto. rewrite T, Z.eqb_refl.
  eexists. eexists. split; [reflexivity|]. split; [reflexivity|]. cbn [rs_modes rs_pol fst snd ic_C ic_H ci].
  destruct G as (_ & G2 & _ & G4). set (s := slopes_of i) in *. set (c := commands_of nm i) in *.
  assert (LD : length (mv D c) = ns) by (rewrite mv_length; apply SD).
  assert (LA : length (vadd s (mv D c)) = ns) by (now apply vadd_len).
  assert (LP : length (mv R (vadd s (mv D c))) = nl) by (rewrite mv_length; apply SR).
  assert (PO : forall j, j < nl -> nth j (mv R (vadd s (mv D c))) zer = open_loop_mode R D ns nm s c j).
  { intros j Hj. rewrite (mv_nth R _ nl ns) by auto. apply sumn_ext. intros m Hm. f_equal. unfold vadd.
    rewrite (map2_nth _ _ _ _ zer zer) by lia. f_equal. apply (mv_nth D c ns nm); auto. }
  split; [f_equal; symmetry; apply (polc_agree HF P R D (mm P R) H nl ns nm); auto|]. split; [reflexivity|].
  split; [unfold vsub; rewrite map2_length, mv_length; destruct SP as [-> _]; lia|]. split; [|split; [reflexivity|split; [exact LP|exact PO]]].
  intros k Hk. unfold vsub. rewrite (map2_nth _ _ _ _ zer zer) by (rewrite ?mv_length; try rewrite (proj1 SP); lia).
  unfold polc_mode. f_equal. rewrite (mv_nth P _ nm nl) by auto. apply sumn_ext. intros j Hj. now rewrite PO.
Qed.
Print Assumptions C52_agree.

(* Stale slopes: the explicit scheme keeps its output, the implicit one recomputes it. *)
Theorem C52_stale : forall A (ce : rec_cfg A) (ci : imp_cfg A) se si t g i P R D nl ns nm,
  rc_polc ce = true -> rc_R ce = Some R -> rc_P ce = Some P -> rc_D ce = Some D -> shape P nm nl -> shape R nl ns -> shape D ns nm ->
  rc_polc (ic_base ci) = true -> rc_D (ic_base ci) = None -> shape (ic_C ci) nm ns -> shape (ic_H ci) nm nm ->
  length (rs_slopes se) = ns -> length (rs_cmds se) = nm -> length (rs_slopes si) = ns -> length (rs_cmds si) = nm ->
  good_in ns nm i -> time_of i = Some g -> g <> t ->
  (exists se', modalrec_step ce se (t, i) = Ok se' /\ rs_modes se' = rs_modes se /\ rs_pol se' = rs_pol se) /\
  (exists si', implicit_step ci si (t, i) = Ok si' /\ snd (rs_modes si') = Some t).
Proof.
  intros A ce ci se si t g i P R D nl ns nm Hp HR HP HD SP SR SD Hp2 HD2 SC SH L1 L2 L3 L4 G T Hg. split.
  - rewrite (explicit_step ce se t i P R D nl ns nm) by auto. rewrite T, (proj2 (Z.eqb_neq g t) Hg). eexists. split; [reflexivity|]. now split.
  - rewrite (implicit_step_ok ci si t i ns nm) by auto. eexists. now split.
Qed.
Print Assumptions C52_stale.

(* concrete disagreement of the outputs on stale slopes *)
Definition modes_shown (r : res (rec_st qc)) : option (list Q * option Z) :=
  match r with Ok s => Some (map this (fst (rs_modes s)), snd (rs_modes s)) | Err _ => None end.
Theorem C52_always_refuted : exists (P R D : mat qc) i0 hist,
  modes_shown (c <- modalrec_init (polc_args None None P R D) ;; s <- modalrec_setup c i0 ;; fold_res (modalrec_step c) s hist)
    = Some (map this [qi 5], Some 0%Z) /\
  modes_shown (c <- implicit_init (polc_args None None P R D) ;; s <- modalrec_setup (ic_base c) i0 ;; fold_res (implicit_step c) s hist)
    = Some (map this [qi 8], Some 1%Z).
Proof.
  exists [[qi 1]], [[qi 1]], [[qi 2]]. exists (mkRecIn (Some ([qi 5], 0%Z)) [] (Some None) []).
  exists [(0%Z, mkRecIn (Some ([qi 5], 0%Z)) [] (Some None) []); (1%Z, mkRecIn (Some ([qi 5], 0%Z)) [] (Some (Some [qi 3])) [])].
  vm_compute. split; reflexivity.
Qed.
Print Assumptions C52_always_refuted.

(* The implicit scheme never writes its second output. *)
Theorem C52_implicit_open_loop_output : forall A (ci : imp_cfg A) hist si si',
  fold_res (implicit_step ci) si hist = Ok si' -> rs_pol si' = rs_pol si.
Proof.
  intros A ci hist. induction hist as [|x hist IH]; intros si si' H; cbn [fold_res] in H; [congruence|].
  inv_bind H. rewrite (IH _ _ H). clear H IH. unfold implicit_step, implicit_prepare, implicit_trigger in E.
  destruct (modalrec_prepare (ic_base ci) si (snd x)) as [s1|] eqn:F; [|discriminate]. cbn [bind] in E.
  destruct (match ri_cmd (snd x) with Some (Some v) => _ | _ => _ end) as [cm|]; [|discriminate]. cbn [bind] in E.
  do 3 inv_bind E. injection E as <-. cbn [rs_pol].
  unfold modalrec_prepare in F. do 2 inv_bind F. destruct (rc_polc (ic_base ci)); [do 2 inv_bind F|]; injection F as <-; reflexivity.
Qed.
Print Assumptions C52_implicit_open_loop_output.

(* Commands given as a list are never usable. *)
Theorem C52_command_list : forall A (ce : rec_cfg A) (ci : imp_cfg A) se si t i ns,
  rc_polc ce = true -> rc_polc (ic_base ci) = true -> time_of i <> None -> length (slopes_of i) = ns ->
  length (rs_slopes se) = ns -> length (rs_slopes si) = ns -> ri_cmd i = None -> ri_cmds i <> [] ->
  modalrec_step ce se (t, i) = Err AttributeError /\ implicit_step ci si (t, i) = Err AttributeError.
Proof.
  intros A ce ci se si t i ns H1 H2 T L L1 L2 Hc Hl.
  assert (E : forall (c : rec_cfg A) s, rc_polc c = true -> length (rs_slopes s) = ns -> modalrec_prepare c s i = Err AttributeError).
  { intros c s Hp Ls. unfold modalrec_prepare. rewrite (stacked_ok i T). cbn [bind]. rewrite assign_all_ok by congruence. cbn [bind].
    rewrite Hp, Hc. destruct (ri_cmds i); [congruence|reflexivity]. }
  split; [unfold modalrec_step|unfold implicit_step, implicit_prepare]; cbn [fst snd]; rewrite E by auto; reflexivity.
Qed.
Print Assumptions C52_command_list.

(* what is rejected at construction and at setup *)
Theorem C52_arguments : forall A (a : rec_args A), ra_polc a = true ->
  (ra_identity a = true -> modalrec_init a = Err ValueError) /\
  (ra_ncut a <> None -> modalrec_init a = Err ValueError) /\
  (forall c, modalrec_init a = Ok c -> ra_intmat a <> None /\ ra_projmat a <> None) /\
  (forall c i, rc_polc c = true -> ri_cmd i = None -> ri_cmds i = [] -> exists e, @modalrec_setup A c i = Err e).
Proof.
  intros A a Hp. unfold modalrec_init. rewrite Hp. split; [|split; [|split]].
  - intros ->. reflexivity.
  - intros Hn. destruct (ra_identity a); [reflexivity|]. destruct (ra_ncut a); [reflexivity|congruence].
  - intros c H. do 3 inv_bind H. destruct (ra_intmat a); [|discriminate]. destruct (ra_projmat a); [|discriminate]. split; discriminate.
  - intros c i Hc H1 H2. unfold modalrec_setup. rewrite Hc, H1, H2. unfold stacked.
    destruct (ri_slopes i) as [[v g]|]; [|destruct (ri_list i)]; eexists; reflexivity.
Qed.
Print Assumptions C52_arguments.

Example C52_example :
  let P : mat qc := [[qi 1; qi 0; qi 1]] in let R : mat qc := [[qi 1; qi 0]; [qi 0; qi 1]; [qi 1; qi 1]] in let D : mat qc := [[qi 2]; [qi 1]] in
  let i := mkRecIn (A:=qc) None [([qi 1], 7%Z); ([qi 4], 7%Z)] (Some (Some [qi 3])) [] in
  let out (r : res (rec_st qc)) := match r with Ok s => Some (map this (fst (rs_modes s)), snd (rs_modes s)) | Err _ => None end in
  out (ce <- modalrec_init (polc_args None None P R D) ;; s <- modalrec_setup ce i ;; modalrec_step ce s (7%Z, i)) = Some (map this [qi 18], Some 7%Z) /\
  out (ci <- implicit_init (polc_args None None P R D) ;; s <- modalrec_setup (ic_base ci) i ;; implicit_step ci s (7%Z, i)) = Some (map this [qi 18], Some 7%Z).
Proof. vm_compute. split; reflexivity. Qed.

(* ------------------------------------------------------------------------- C69 *)
Definition plain_args {A} (n : option Z) (R D F : option (mat A)) (id : bool) (cut : option Z) : rec_args A :=
  mkRecArgs n R None D false None F id cut None.

(* without POLC the output is the matrix applied to the slopes presented at that time *)
Theorem C69_matrix : forall A (c : rec_cfg A) R n m i0 hist t i, rc_polc c = false -> rc_R c = Some R -> shape R n m ->
  (forall x, In x (i0 :: map snd hist ++ [i]) -> time_of x <> None /\ length (slopes_of x) = m) ->
  exists s0 s1, modalrec_setup c i0 = Ok s0 /\ fold_res (modalrec_step c) s0 (hist ++ [(t, i)]) = Ok s1 /\
    rs_modes s1 = (mv R (slopes_of i), Some t) /\ rs_pol s1 = (zeros (rc_nmodes c), None).
Proof.
  intros A c R n m i0 hist t i Hp HR SR Hg. unfold modalrec_setup. destruct (Hg i0 ltac:(now left)) as [T0 L0].
  rewrite (stacked_ok i0 T0). rewrite Hp. cbn [bind].
  exists (mkRecSt (slopes_of i0) [] (zeros (rc_nmodes c), None) (zeros (rc_nmodes c), None)).
  assert (ST : forall s x u, time_of x <> None -> length (slopes_of x) = m -> length (rs_slopes s) = m ->
            modalrec_step c s (u, x) = Ok (mkRecSt (slopes_of x) (rs_cmds s) (mv R (slopes_of x), Some u) (rs_pol s))).
  { intros s x u Tx Lx Ls. unfold modalrec_step, modalrec_prepare. cbn [fst snd]. rewrite (stacked_ok x Tx). cbn [bind].
    rewrite assign_all_ok by congruence. cbn [bind]. rewrite Hp. cbn [bind]. unfold modalrec_trigger. rewrite HR, Hp. cbn [rs_slopes rs_cmds rs_pol].
    rewrite (shape_rows R n m) by auto. reflexivity. }
  assert (IE : exists s, fold_res (modalrec_step c) (mkRecSt (slopes_of i0) [] (zeros (rc_nmodes c), None) (zeros (rc_nmodes c), None)) hist = Ok s
     /\ length (rs_slopes s) = m /\ rs_pol s = (zeros (rc_nmodes c), None)).
  { clear - ST Hg L0. induction hist as [|[u x] hist IH] using rev_ind; [eexists; split; [reflexivity|]; now split|].
    destruct IH as (s & E & L & Q).
    { intros y [<- | Hy]; apply Hg; [now left|]. right. rewrite map_app, <- app_assoc. apply in_or_app. apply in_app_or in Hy as [Hy|Hy]; [now left|].
      right. apply in_or_app. right. exact Hy. }
    rewrite fold_res_snoc, E. cbn [bind]. assert (Gx : time_of x <> None /\ length (slopes_of x) = m).
    { apply Hg. right. rewrite map_app, <- app_assoc. apply in_or_app. right. now left. }
    rewrite ST by (auto; apply Gx). eexists. split; [reflexivity|]. split; [apply Gx|exact Q]. }
  destruct IE as (s & E & L & Q). assert (Gi : time_of i <> None /\ length (slopes_of i) = m).
  { apply Hg. right. apply in_or_app. right. now left. }
  eexists. split.
  - unfold time_of in T0. destruct (ri_slopes i0) as [[v g]|]; [reflexivity|]. destruct (ri_list i0); [congruence|reflexivity].
  - rewrite fold_res_snoc, E. cbn [bind]. rewrite ST by (auto; apply Gi). split; [reflexivity|]. now split.
Qed.
Print Assumptions C69_matrix.

(* which matrix is used *)
Theorem C69_choice : forall A (R F D : mat A) n (cut : nat),
  (* a reconstructor *)
  modalrec_init (plain_args n (Some R) (Some D) None false None) = Ok (mkRec (Some R) None (Some D) false None (length R)) /\
  (* its last modes cut: at least one must remain *)
  (0 < cut < length R -> modalrec_init (plain_args n (Some R) None None false (Some (Z.of_nat cut)))
      = Ok (mkRec (Some (firstn (length R - cut) R)) None None false None (length R - cut))) /\
  (length R <= cut -> 0 < cut -> modalrec_init (plain_args n (Some R) None None false (Some (Z.of_nat cut))) = Err ValueError) /\
  (* a filter applied before it *)
  (forall a b c, shape R a b -> shape F b c -> modalrec_init (plain_args n (Some R) None (Some F) false None)
      = Ok (mkRec (Some (mm R F)) None None false None a)) /\
  (* the identity *)
  (forall k, modalrec_init (plain_args (Some (Z.of_nat k)) None None None true None) = Ok (mkRec (Some (@identity A k)) None None false None k)) /\
  modalrec_init (plain_args None (None : option (mat A)) None None true None) = Err ValueError /\
  (* nothing given *)
  modalrec_init (plain_args n (None : option (mat A)) None None false None) = Err AttributeError.
Proof.
  intros A R F D n cut. split; [reflexivity|]. unfold modalrec_init, plain_args, choose_recmat.
  cbn [ra_polc ra_identity ra_ncut ra_recmat ra_filtmat ra_intmat ra_csize ra_projmat bind].
  split; [|split; [|split; [|split; [|split]]]].
  - intros Hc. assert (T : truthy (Some (Z.of_nat cut)) = Some (Z.of_nat cut)) by (destruct cut; [lia|reflexivity]). rewrite T.
    unfold drop_rows. rewrite (proj2 (Z.leb_gt _ _)) by (unfold zlen; lia).
    rewrite take_segment; [|intros v E; discriminate|intros v E; injection E as <-; unfold zlen; lia]. cbn [obound bind skipn].
    replace (Z.to_nat (zlen R - Z.of_nat cut)) with (length R - cut) by (unfold zlen; lia). rewrite Nat.sub_0_r.
    rewrite firstn_length, Nat.min_l by lia. reflexivity.
  - intros Hc H0. assert (T : truthy (Some (Z.of_nat cut)) = Some (Z.of_nat cut)) by (destruct cut; [lia|reflexivity]). rewrite T.
    unfold drop_rows. rewrite (proj2 (Z.leb_le _ _)) by (unfold zlen; lia). reflexivity.
  - intros a b c SR SF. cbn [truthy bind]. rewrite (matmat_ok R F a b) by (auto; apply SF). cbn [bind].
    unfold mm at 2. rewrite map_length. now rewrite (proj1 SR).
  - intros k. cbn [ra_nmodes]. rewrite (proj2 (Z.ltb_ge _ 0)) by lia. rewrite Nat2Z.id. cbn [truthy bind].
    unfold identity at 2. rewrite map_length, seq_length. reflexivity.
  - reflexivity.
  - reflexivity.
Qed.
Print Assumptions C69_choice.

(* exact arithmetic: the identity returns the slopes, and a filtered reconstructor is the
   reconstructor applied to the filtered slopes *)
Theorem C69_exact : forall A, is_field A -> forall (s : vec A),
  mv (identity (length s)) s = s /\
  forall R F a b, shape R a b -> shape F b (length s) -> 0 < b -> mv (mm R F) s = mv R (mv F s).
Proof.
  intros A HF s. split; [now apply mv_identity|]. intros R F a b SR SF Hb. apply (mv_mm HF R F s a b (length s)); auto.
Qed.
Print Assumptions C69_exact.

(* An interaction matrix instead of a reconstructor: it is used as it is, not inverted,
   so that its slopes are refused unless it is square; asking for a number of modes
   fails at construction. *)
Theorem C69_intmat_refuted : forall A (D : mat A) ns nm, shape D ns nm -> ns <> nm -> 0 < ns ->
  (exists c, modalrec_init (plain_args None None (Some D) None false None) = Ok c /\
     forall g t (s : vec A), length s = ns -> let i := mkRecIn (Some (s, g)) [] None [] in
       exists s0, modalrec_setup c i = Ok s0 /\ modalrec_step c s0 (t, i) = Err ValueError) /\
  forall n, (n <> 0)%Z -> modalrec_init (plain_args (Some n) None (Some D) None false None) = Err AttributeError.
Proof.
  intros A D ns nm SD Hn Hs. split.
  - exists (mkRec (Some D) None (Some D) false None (length D)). split; [reflexivity|]. intros g t s Ls i.
    exists (mkRecSt s [] (zeros (length D), None) (zeros (length D), None)). split; [reflexivity|].
    unfold modalrec_step, modalrec_prepare. cbn [fst snd stacked ri_slopes i bind rs_slopes]. rewrite assign_all_ok by reflexivity. cbn [bind rc_polc].
    unfold modalrec_trigger. cbn [bind rc_R rc_polc rs_slopes truthy ra_nmodes]. unfold matvec.
    destruct (forallb (fun r : vec A => length r =? length s) D) eqn:E; [exfalso|reflexivity]. rewrite forallb_forall in E.
    destruct SD as [SL SR]. destruct D as [|r D]; [cbn in SL; lia|]. specialize (E r (or_introl eq_refl)). apply Nat.eqb_eq in E.
    specialize (SR r (or_introl eq_refl)). congruence.
  - intros n Hz. unfold modalrec_init, plain_args, choose_recmat. cbn [ra_polc ra_identity ra_ncut ra_recmat ra_filtmat ra_intmat ra_csize ra_projmat ra_nmodes bind].
    destruct n; [congruence|reflexivity|reflexivity].
Qed.
Print Assumptions C69_intmat_refuted.

Example C69_example :
  let i s := mkRecIn (A:=qc) (Some (s, 3%Z)) [] None [] in
  match modalrec_init (plain_args None (Some [[qi 1; qi 2]; [qi 3; qi 4]]) None None false (Some 1%Z)) with
  | Ok c => match s <- modalrec_setup c (i [qi 1; qi 1]) ;; modalrec_step c s (3%Z, i [qi 5; qi 6]) with
            | Ok s => map this (fst (rs_modes s)) = map this [qi 17]
            | Err _ => False end
  | Err _ => False end.
Proof. vm_compute. reflexivity. Qed.

(* ------------------------------------------------------------------------- C53 *)
Lemma mask_eqb_eq a b : mask_eqb a b = true <-> a = b.
Proof. unfold mask_eqb. destruct (list_eq_dec Bool.bool_dec a b); split; congruence. Qed.
Lemma mask_get_None {X} m (tab : list (list bool * X)) : mask_get m tab = None <-> ~ In m (map fst tab).
Proof.
  unfold mask_get. induction tab as [|[k x] tab IH]; cbn [find map In fst]; [tauto|].
  destruct (mask_eqb m k) eqn:E.
  - apply mask_eqb_eq in E. subst. split; [discriminate|tauto].
  - rewrite IH. assert (m <> k) by (intros ->; rewrite (proj2 (mask_eqb_eq k k) eq_refl) in E; discriminate). split; intros H'; [intros [Q|Q]; congruence|tauto].
Qed.
Lemma mask_get_Some {X} m (tab : list (list bool * X)) x : NoDup (map fst tab) -> (mask_get m tab = Some x <-> In (m, x) tab).
Proof.
  unfold mask_get. induction tab as [|[k y] tab IH]; cbn [find map In fst]; intros ND; [split; [discriminate|tauto]|].
  inversion_clear ND as [|? ? N1 N2]. destruct (mask_eqb m k) eqn:E.
  - apply mask_eqb_eq in E. subst. split; [intros Q; injection Q as <-; now left|]. intros [Q|Q]; [congruence|]. exfalso. apply N1. now apply (in_map fst) in Q.
  - rewrite (IH N2). assert (m <> k) by (intros ->; rewrite (proj2 (mask_eqb_eq k k) eq_refl) in E; discriminate). split; [tauto|]. intros [Q|Q]; [congruence|exact Q].
Qed.
Lemma mask_table_iff {A} (l : list (list bool * mat A)) : forall tab tab', NoDup (map fst tab) ->
  (mask_table tab l = Ok tab' <-> tab' = tab ++ l /\ NoDup (map fst (tab ++ l))).
Proof.
  induction l as [|[m R] l IH]; intros tab tab' ND; cbn [mask_table].
  - rewrite app_nil_r. split; [intros H; injection H as <-; now split|]. intros [-> _]. reflexivity.
  - destruct (mask_get m tab) eqn:E.
    + split; [discriminate|]. intros [_ H]. exfalso. rewrite map_app in H. cbn [map fst] in H. apply NoDup_remove_2 in H. apply H. apply in_or_app. left.
      assert (Q : mask_get m tab <> None) by congruence. rewrite mask_get_None in Q. destruct (in_dec (list_eq_dec Bool.bool_dec) m (map fst tab)); tauto.
    + apply mask_get_None in E. rewrite IH.
      * rewrite <- app_assoc. reflexivity.
      * rewrite map_app. cbn [map fst]. apply (NoDup_Add (a:=m) (l:=map fst tab)); [|now split]. rewrite <- (app_nil_r (map fst tab)) at 1. apply Add_app.
Qed.

Lemma combine_fst {X Y} (l : list X) (m : list Y) : length l = length m -> map fst (combine l m) = l.
Proof. revert m. induction l as [|x l IH]; intros [|y m] H; cbn in *; try discriminate; [reflexivity|]. now rewrite IH by lia. Qed.
Lemma combine_snd {X Y} (l : list X) (m : list Y) : length l = length m -> map snd (combine l m) = m.
Proof. revert m. induction l as [|x l IH]; intros [|y m] H; cbn in *; try discriminate; [reflexivity|]. now rewrite IH by lia. Qed.

(* which tables are accepted *)
Theorem C53_construction : forall A (recs : list (mat A)) masks n c,
  mr_init recs masks n = Ok c <->
  exists k s, n = Some k /\ length recs = length masks /\ recs <> [] /\ NoDup masks /\
    (forall R, In R recs -> length R = k) /\ (forall m, In m masks -> length m = s) /\ 1 <= s /\ c = mkMr k (combine masks recs) s.
Proof.
  intros A recs masks n c. unfold mr_init. split.
  - destruct n as [k|]; [|discriminate]. destruct recs as [|R0 recs]; [discriminate|]. destruct masks as [|m0 masks]; [discriminate|].
    destruct (negb (length (R0 :: recs) =? length (m0 :: masks))) eqn:EL; [discriminate|]. apply negb_false_iff, Nat.eqb_eq in EL.
    intros H. inv_bind H. apply (mask_table_iff _ [] a (NoDup_nil _)) in E as [-> ND]. cbn [app] in *.
    destruct (negb _) eqn:E1 in H; [discriminate|]. destruct (negb _) eqn:E2 in H; [discriminate|].
    destruct (length m0 =? 0) eqn:E3; [discriminate|]. injection H as <-. apply negb_false_iff in E1, E2. apply Nat.eqb_neq in E3.
    rewrite forallb_forall in E1, E2. rewrite combine_fst in ND by (symmetry; exact EL).
    exists k, (length m0). split; [reflexivity|]. split; [exact EL|]. split; [discriminate|]. split; [exact ND|].
    assert (M1 : map fst (combine (m0 :: masks) (R0 :: recs)) = m0 :: masks) by (apply combine_fst; symmetry; exact EL).
    assert (M2 : map snd (combine (m0 :: masks) (R0 :: recs)) = R0 :: recs) by (apply combine_snd; symmetry; exact EL).
    split; [intros R HR; rewrite <- M2 in HR; apply in_map_iff in HR as (p & <- & Hp); now apply Nat.eqb_eq, E1|].
    split; [intros m Hm; rewrite <- M1 in Hm; apply in_map_iff in Hm as (p & <- & Hp); now apply Nat.eqb_eq, E2|]. split; [lia|reflexivity].
  - intros (k & s & -> & EL & HN & ND & HR & HM & Hs & ->). destruct recs as [|R0 recs]; [congruence|]. destruct masks as [|m0 masks]; [discriminate|].
    rewrite EL, Nat.eqb_refl. cbn [negb].
    assert (M1 : map fst (combine (m0 :: masks) (R0 :: recs)) = m0 :: masks) by (apply combine_fst; symmetry; exact EL).
    assert (T : mask_table [] (combine (m0 :: masks) (R0 :: recs)) = Ok (combine (m0 :: masks) (R0 :: recs))).
    { apply mask_table_iff; [constructor|]. cbn [app]. now rewrite M1. }
    rewrite T. cbn [bind]. rewrite (HM m0 (or_introl eq_refl)).
    replace (forallb (fun p => length (snd p) =? k) _) with true.
    2:{ symmetry. apply forallb_forall. intros [m R] Hp. apply in_combine_r in Hp. apply Nat.eqb_eq. now apply HR. }
    replace (forallb (fun p => length (fst p) =? s) _) with true.
    2:{ symmetry. apply forallb_forall. intros [m R] Hp. apply in_combine_l in Hp. apply Nat.eqb_eq. now apply HM. }
    cbn [negb]. rewrite (proj2 (Nat.eqb_neq s 0)) by lia. reflexivity.
Qed.
Print Assumptions C53_construction.

Lemma fold_add_total l : forall a, fold_left Nat.add l a = a + fold_left Nat.add l 0.
Proof. induction l as [|x l IH]; intros a; cbn [fold_left]; [lia|]. rewrite IH, (IH (0 + x)). lia. Qed.
Lemma total_concat {X} (l : list (list X)) : fold_left Nat.add (map (@length X) l) 0 = length (concat l).
Proof. induction l as [|x l IH]; [reflexivity|]. cbn [map fold_left concat]. rewrite fold_add_total, app_length, IH. lia. Qed.

Lemma offsets_nth {X} (ss : list (list X)) : forall a k, k <= length ss ->
  nth k (offsets a (map (@length X) ss)) 0 = a + length (concat (firstn k ss)).
Proof.
  induction ss as [|s ss IH]; intros a [|k] H; cbn [map offsets nth firstn concat length] in *; try lia.
  rewrite IH by lia. rewrite app_length. lia.
Qed.

(* which sensors are accepted: one per mask element, with as many slopes in total as the
   matrices have columns; sensor k takes the columns that follow those of the sensors before it *)
Theorem C53_setup : forall A (c : mr_cfg A) (ss : list (vec A)),
  ((exists offs, mr_setup c (map (@length _) ss) = Ok offs) <->
   length ss = mr_sensors c /\ forall m R, In (m, R) (mr_tab c) -> length m = mr_sensors c /\ ncols R = length (concat ss)) /\
  (forall e, mr_setup c (map (@length _) ss) = Err e -> e = ValueError) /\
  forall offs k, mr_setup c (map (@length _) ss) = Ok offs -> k <= length ss -> nth k offs 0 = length (concat (firstn k ss)).
Proof.
  intros A c ss. unfold mr_setup. rewrite map_length, total_concat. split; [split|split].
  - intros (offs & H). destruct (Nat.eqb_spec (length ss) (mr_sensors c)) as [E|E]; [|discriminate]. cbn [negb] in H. split; [exact E|].
    destruct (forallb _ (mr_tab c)) eqn:F; [|discriminate]. rewrite forallb_forall in F. intros m R HI. specialize (F _ HI). cbn [fst snd] in F.
    apply andb_true_iff in F as [F1 F2]. now apply Nat.eqb_eq in F1, F2.
  - intros [-> H]. rewrite Nat.eqb_refl. cbn [negb]. replace (forallb _ (mr_tab c)) with true; [eexists; reflexivity|].
    symmetry. apply forallb_forall. intros [m R] HI. destruct (H m R HI) as [Q1 Q2]. cbn [fst snd]. rewrite Q1, Q2. now rewrite !Nat.eqb_refl.
  - intros e H. destruct (negb _) in H; [congruence|]. destruct (negb _) in H; congruence.
  - intros offs k H Hk. destruct (negb _) in H; [discriminate|]. destruct (negb _) in H; [discriminate|]. injection H as <-.
    now rewrite offsets_nth.
Qed.
Print Assumptions C53_setup.

(* One trigger: every output is written and marked with the current time; output [k] is
   the block of columns of sensor [k] applied to its slopes, or zero. *)
Theorem C53_outputs : forall A (recs : list (mat A)) masks n c t ins outs offs total,
  mr_init recs masks n = Ok c -> mr_setup c (map (fun p => length (fst p)) ins) = Ok offs ->
  length outs = length ins -> (forall o, In o outs -> length (fst o) = mr_n c) ->
  total = length (concat (map fst ins)) -> (forall R r, In R recs -> In r R -> length r = total) ->
  let fresh := map (fun p => (snd p =? t)%Z) ins in
  (~ In true fresh -> exists outs', mr_trigger c offs t outs ins = Ok outs' /\ outs' = repeat (zeros (mr_n c), Some t) (length ins)) /\
  (In true fresh -> ~ In fresh masks -> mr_trigger c offs t outs ins = Err KeyError) /\
  (forall q R, In true fresh -> nth_error masks q = Some fresh -> nth_error recs q = Some R ->
     exists outs', mr_trigger c offs t outs ins = Ok outs' /\ length outs' = length ins /\
       forall k, k < length ins ->
         let s := fst (nth k ins ([], 0%Z)) in let a := length (concat (map fst (firstn k ins))) in
         nth k outs' ([], None) =
           (if nth k fresh false then mv (map (fun r => firstn (length s) (skipn a r)) R) s else zeros (mr_n c), Some t)).
Proof.
  intros A recs masks n c t ins outs offs total HI HS HO HN HT HC fresh.
  apply C53_construction in HI as (k & sn & -> & EL & Hne & ND & HR & HM & Hs & ->). cbn [mr_n mr_tab mr_sensors] in *.
  unfold mr_setup in HS. destruct (negb (_ =? _)) eqn:E0; [discriminate|]. destruct (negb (forallb _ _)) eqn:E1 in HS; [discriminate|]. injection HS as <-.
  unfold mr_trigger. cbn [mr_tab mr_n]. fold fresh.
  assert (EX : existsb (fun b => b) fresh = true <-> In true fresh).
  { rewrite existsb_exists. split; [intros (x & Hx & Hb); now subst|intros H; exists true; now split]. }
  split; [|split].
  - intros Hn. destruct (existsb _ fresh) eqn:E; [exfalso; apply Hn, EX; reflexivity|]. cbn [negb]. eexists. split; [reflexivity|].
    rewrite <- HO. clear - HN. induction outs as [|o outs IH]; [reflexivity|]. cbn [map length repeat]. rewrite IH by (intros; apply HN; now right).
    now rewrite (HN o (or_introl eq_refl)).
  - intros Ht Hn. rewrite (proj2 EX Ht). cbn [negb].
    replace (mask_get fresh (combine masks recs)) with (@None (mat A)); [reflexivity|]. symmetry. apply mask_get_None.
    rewrite combine_fst by congruence. exact Hn.
  - intros q R Ht Hm Hr. rewrite (proj2 EX Ht). cbn [negb].
    assert (G : mask_get fresh (combine masks recs) = Some R).
    { apply mask_get_Some; [rewrite combine_fst by congruence; exact ND|]. clear - Hm Hr. revert recs q Hm Hr.
      induction masks as [|m masks IH]; intros [|R0 recs] [|q] Hm Hr; cbn in *; try discriminate; [left; congruence|right; eauto]. }
    rewrite G. assert (SR : shape R k total) by (split; [apply HR; now apply nth_error_In in Hr|intros r Hrr; apply (HC R r); [now apply nth_error_In in Hr|exact Hrr]]).
    destruct (mr_go_ok R t k total SR ins outs 0 HO HN ltac:(lia)) as (outs' & E & L & K).
    exists outs'. split; [exact E|]. split; [exact L|]. intros j Hj. rewrite (K j Hj). cbn [Nat.add]. unfold block, fresh.
    rewrite (nth_indep (map _ ins) false ((fun p : vec A * Z => (snd p =? t)%Z) ([], 0%Z))) by (rewrite map_length; exact Hj).
    rewrite (map_nth (fun p : vec A * Z => (snd p =? t)%Z)). reflexivity.
Qed.
Print Assumptions C53_outputs.

Lemma sum_blocks A (HF : is_field A) (r : vec A) t ins : forall a, a + length (concat (map fst ins)) <= length r ->
  sumn (length ins) (fun k => let s := fst (nth k ins ([], 0%Z)) in
    if (snd (nth k ins ([], 0%Z)) =? t)%Z then dot (firstn (length s) (skipn (a + length (concat (map fst (firstn k ins)))) r)) s else zer) =
  dot (firstn (length (concat (map fst ins))) (skipn a r)) (refreshed t ins).
Proof.
  pose proof (F_R HF) as HR0. destruct HR0 as [R0l Rac Ras M1l Mc Ma Dl Su Op].
  assert (DA : forall (u1 u2 v1 v2 : vec A), length u1 = length v1 -> dot (u1 ++ u2) (v1 ++ v2) = add (dot u1 v1) (dot u2 v2)).
  { intros u1 u2 v1 v2 L. unfold dot, vsum.
    assert (E : map2 mul (u1 ++ u2) (v1 ++ v2) = map2 mul u1 v1 ++ map2 mul u2 v2).
    { revert v1 L. induction u1 as [|x u1 IH]; intros [|y v1] L; cbn in *; try discriminate; [reflexivity|]. now rewrite IH by lia. }
    rewrite E, fold_left_app. generalize (map2 mul u2 v2). generalize (fold_left add (map2 mul u1 v1) zer). clear - R0l Rac Ras. intros x l.
    assert (G : forall l (y : A), fold_left add l y = add y (fold_left add l zer)).
    { clear l x. induction l as [|z l IH]; intros y; cbn [fold_left]; [now rewrite Rac, R0l|]. rewrite IH, (IH (add zer z)), R0l. now rewrite Ras. }
    apply G. }
  induction ins as [|[s g] ins IH]; intros a H.
  - cbn [length sumn map concat firstn refreshed]. reflexivity.
  - cbn [length]. rewrite (sumn_first A HF). cbn [nth fst snd map concat firstn length] in *. rewrite app_length in H.
    unfold refreshed. cbn [map concat fst snd]. fold (refreshed t ins).
    rewrite app_length. rewrite <- (firstn_skipn (length s) (firstn (length s + length (concat (map fst ins))) (skipn a r))).
    rewrite firstn_firstn, Nat.min_l by lia.
    rewrite skipn_firstn_comm. replace (length s + length (concat (map fst ins)) - length s) with (length (concat (map fst ins))) by lia.
    rewrite skipn_skipn'. assert (L1 : length (firstn (length s) (skipn a r)) = length s) by (rewrite firstn_length, skipn_length; lia).
    rewrite DA by (rewrite L1; destruct (g =? t)%Z; [reflexivity|symmetry; apply repeat_length]).
    f_equal.
    + rewrite Nat.add_0_r. destruct (g =? t)%Z; [reflexivity|]. symmetry. apply (dot_zeros_r A HF _ (length s)). exact L1.
    + rewrite <- IH by lia. apply sumn_ext. intros k Hk. rewrite app_length, Nat.add_assoc. reflexivity.
Qed.

(* Exact arithmetic: the outputs add up to the selected matrix applied to the stacked
   slopes, those of the sensors not refreshed set to zero. *)
Theorem C53_sum : forall A (recs : list (mat A)) masks n c t ins outs offs total q R, is_field A ->
  mr_init recs masks n = Ok c -> mr_setup c (map (fun p => length (fst p)) ins) = Ok offs ->
  length outs = length ins -> (forall o, In o outs -> length (fst o) = mr_n c) ->
  total = length (concat (map fst ins)) -> (forall R r, In R recs -> In r R -> length r = total) ->
  let fresh := map (fun p => (snd p =? t)%Z) ins in
  In true fresh -> nth_error masks q = Some fresh -> nth_error recs q = Some R ->
  exists outs', mr_trigger c offs t outs ins = Ok outs' /\ length outs' = length ins /\
    forall m, m < mr_n c -> sumn (length ins) (fun k => nth m (fst (nth k outs' ([], None))) zer) = nth m (mv R (refreshed t ins)) zer.
Proof.
  intros A recs masks n c t ins outs offs total q R HF HI HS HO HN HT HC fresh Ht Hm Hr.
  destruct (C53_outputs A recs masks n c t ins outs offs total HI HS HO HN HT HC) as (_ & _ & K). fold fresh in K.
  destruct (K q R Ht Hm Hr) as (outs' & E & L & V). exists outs'. split; [exact E|]. split; [exact L|]. intros m Hmm.
  apply C53_construction in HI as (k0 & sn & -> & EL & Hne & ND & HR & HM & Hs & ->). cbn [mr_n] in *.
  assert (LR : length R = k0) by (apply HR; now apply nth_error_In in Hr).
  assert (Lr : length (nth m R []) = total) by (apply (HC R); [now apply nth_error_In in Hr|apply nth_In; lia]).
  rewrite (sumn_ext _ _ (fun k => let s := fst (nth k ins ([], 0%Z)) in
    if (snd (nth k ins ([], 0%Z)) =? t)%Z then dot (firstn (length s) (skipn (0 + length (concat (map fst (firstn k ins)))) (nth m R []))) s else zer)).
  - rewrite (sum_blocks A HF (nth m R []) t ins 0) by lia. cbn [skipn]. rewrite firstn_all2 by lia.
    unfold mv. rewrite (nth_indep _ _ (dot [] (refreshed t ins))) by (rewrite map_length; lia). now rewrite (map_nth (fun r => dot r (refreshed t ins))).
  - intros k Hk. rewrite (V k Hk). cbn [fst Nat.add]. unfold fresh.
    rewrite (nth_indep (map _ ins) false ((fun p : vec A * Z => (snd p =? t)%Z) ([], 0%Z))) by (rewrite map_length; exact Hk).
    rewrite (map_nth (fun p : vec A * Z => (snd p =? t)%Z)). destruct (snd (nth k ins ([], 0%Z)) =? t)%Z.
    + unfold mv. set (f := fun r : vec A => dot r (fst (nth k ins ([], 0%Z)))). set (g := fun r : vec A => firstn _ (skipn _ r)).
      rewrite map_map. rewrite (nth_indep _ _ (f (g []))) by (rewrite map_length; lia). now rewrite (map_nth (fun r => f (g r))).
    + unfold zeros. apply nth_repeat.
Qed.
Print Assumptions C53_sum.

Example C53_example :
  let recs : list (mat qc) := [[[qi 1; qi 2; qi 3]]; [[qi 10; qi 20; qi 30]]] in
  let go t ins := match c <- mr_init recs [[true; true]; [false; true]] (Some 1) ;;
                        o <- mr_setup c [2; 1] ;; mr_trigger c o t (mr_outputs0 c) ins with
                  | Ok l => Ok (map (fun p => (map this (fst p), snd p)) l) | Err e => Err e end in
  go 5%Z [([qi 1; qi 1], 5%Z); ([qi 2], 5%Z)] = Ok [(map this [qi 3], Some 5%Z); (map this [qi 6], Some 5%Z)] /\
  go 5%Z [([qi 1; qi 1], 4%Z); ([qi 2], 5%Z)] = Ok [(map this [qi 0], Some 5%Z); (map this [qi 60], Some 5%Z)] /\
  go 5%Z [([qi 1; qi 1], 4%Z); ([qi 2], 4%Z)] = Ok [(map this [qi 0], Some 5%Z); (map this [qi 0], Some 5%Z)] /\
  go 5%Z [([qi 1; qi 1], 5%Z); ([qi 2], 4%Z)] = Err KeyError.
Proof. vm_compute. repeat split; reflexivity. Qed.
