(* C80: combining, reflecting and flattening electric fields. *)
From Coq Require Import List ZArith Bool Arith Lia Field Field_theory Permutation QArith Qcanon.
From Verif Require Import PyBase PyLemmas Arith ArithLemmas FilterSpec SumLemmas NpModel FitsModel FitsSpec RebinModel RebinSpec RebinProofs CutModel CutSpec CutProofs VecModel
  OpticalModel FieldModel FieldSpec FieldProofs Properties_Filter Properties_Field.
Import ListNotations.
Local Open Scope nat_scope.
Local Open Scope ar_scope.

Lemma fold_res_last {S X} (f : S -> X -> res S) s l x : fold_res f s (l ++ [x]) = bind (fold_res f s l) (fun t => f t x).
Proof. revert s. induction l as [|y l IH]; intros s; cbn [app fold_res bind]; [now destruct (f s x)|]. destruct (f s y); cbn [bind]; [apply IH|reflexivity]. Qed.

Section G.
Context {A : arith} (HF : is_field A) (same : A -> A -> bool).
Let HF' : field_theory 0 1 add mul sub opp dvd inv (@eq A) := HF.
Add Field fA16 : HF'.

(* -------------------------------------------------------------------------- combination *)
Lemma comb_adds l : forall (o : efield A) r c amp ph, field r c amp ph o -> (forall e, In e l -> sized e r c) ->
  exists o', fold_res (comb_add A) o l = Ok o' /\ ef_pitch A o' = ef_pitch A o /\ ef_S0 A o' = ef_S0 A o + sum_over (ef_S0 A) l /\
    field r c (fun i j => amp i j * prod_over (fun e => amp_at e i j) l) (fun i j => ph i j + sum_over (fun e => ph_at e i j) l) o'.
Proof.
  induction l as [|e l IH]; intros o r c amp ph [Fa Fp] H.
  - exists o. split; [reflexivity|]. split; [reflexivity|]. split; [cbn; ring|]. split; (eapply image_ext; [eassumption|]); intros i j _ _; cbn; ring.
  - destruct (H e (or_introl eq_refl)) as [Ea Ep]. cbn [fold_res]. unfold comb_add at 1. rewrite (inplace2_image add r c ph _ _ _ Fp Ep). cbn [bind].
    rewrite (inplace2_image mul r c amp _ _ _ Fa Ea). cbn [bind].
    match goal with |- exists o', fold_res _ ?e1 l = Ok o' /\ _ =>
      destruct (IH e1 r c _ _ (conj (tab_image r c _) (tab_image r c _)) (fun y Hy => H y (or_intror Hy))) as (o' & E & P & S & Ga & Gp) end.
    exists o'. split; [exact E|]. split; [exact P|]. split; [rewrite S; cbn [ef_S0 sum_over]; ring|].
    split; (eapply image_ext; [eassumption|]); intros i j _ _; cbn [sum_over prod_over]; ring.
Qed.
Definition combined r c (l : list (efield A)) (o : efield A) : Prop :=
  ef_S0 A o = sum_over (ef_S0 A) l /\ field r c (fun i j => prod_over (fun e => amp_at e i j) l) (fun i j => sum_over (fun e => ph_at e i j) l) o.
Lemma comb_trigger_ok (o : efield A) r c l : sized o r c -> l <> [] -> (forall e, In e l -> sized e r c) ->
  exists o', comb_trigger A o l = Ok o' /\ ef_pitch A o' = ef_pitch A o /\ combined r c l o'.
Proof.
  intros [Oa Op] N H. destruct l as [|e l]; [contradiction|]. destruct (H e (or_introl eq_refl)) as [Ea Ep]. unfold comb_trigger.
  rewrite (assign2_image r c _ _ _ _ Op Ep). cbn [bind]. rewrite (assign2_image r c _ _ _ _ Oa Ea). cbn [bind].
  match goal with |- exists o', fold_res _ ?e1 l = Ok o' /\ _ =>
    destruct (comb_adds l e1 r c _ _ (conj (tab_image r c _) (tab_image r c _)) (fun y Hy => H y (or_intror Hy))) as (o' & E & P & S & Ga & Gp) end.
  exists o'. split; [exact E|]. split; [exact P|]. split; [exact S|]. split; assumption.
Qed.
Lemma comb_check_ok (e : efield A) l r c : sized e r c -> (forall x, In x l -> sized x r c /\ same (ef_pitch A e) (ef_pitch A x) = true) -> comb_check A same e l = Ok tt.
Proof.
  intros Se. induction l as [|x l IH]; intros H; [reflexivity|]. destruct (H x (or_introl eq_refl)) as [Sx Px]. cbn [comb_check]. unfold same_shape2.
  rewrite (sized_rows _ _ _ Se), (sized_cols _ _ _ Se), (sized_rows _ _ _ Sx), (sized_cols _ _ _ Sx), !Nat.eqb_refl, Px. cbn [andb negb]. apply IH. intros y Hy. apply H. now right.
Qed.
Lemma comb_setup_ok lst e1 e2 ins first rest n : comb_inputs A lst e1 e2 = Ok ins -> ins = first :: rest -> sized first n n ->
  (forall x, In x rest -> sized x n n /\ same (ef_pitch A first) (ef_pitch A x) = true) ->
  exists o, comb_setup A same lst e1 e2 = Ok o /\ sized o n n /\ ef_pitch A o = ef_pitch A first.
Proof.
  intros Ei -> S H. unfold comb_setup. rewrite Ei. cbn [bind]. rewrite (comb_check_ok first rest n n S H). cbn [bind].
  rewrite (sized_rows _ _ _ S), (sized_cols _ _ _ S). destruct (C79_resize HF (ef_initial A) n n (Some (ef_pitch A first))) as (o & E & F & P & _).
  exists o. split; [exact E|]. split; [exact (sized_of _ _ _ _ _ F)|exact P].
Qed.

(* After setup with square fields and any triggers, the output has the sum of the phases, the
   product of the amplitudes and the sum of the flux densities of the last inputs. *)
Theorem C80_combine lst e1 e2 ins first rest n hist last : comb_inputs A lst e1 e2 = Ok ins -> ins = first :: rest -> sized first n n ->
  (forall x, In x rest -> sized x n n /\ same (ef_pitch A first) (ef_pitch A x) = true) ->
  (forall l, In l (hist ++ [last]) -> l <> [] /\ forall e, In e l -> sized e n n) ->
  exists o, combine A same lst e1 e2 (hist ++ [last]) = Ok o /\ ef_pitch A o = ef_pitch A first /\ combined n n last o.
Proof.
  intros Ei En S H R. destruct (comb_setup_ok lst e1 e2 ins first rest n Ei En S H) as (o & E & So & P). unfold combine. rewrite E. cbn [bind].
  rewrite fold_res_last. assert (Q : exists o1, fold_res (comb_trigger A) o hist = Ok o1 /\ ef_pitch A o1 = ef_pitch A o /\ sized o1 n n).
  { assert (Rh : forall l, In l hist -> l <> [] /\ forall e, In e l -> sized e n n) by (intros l Hl; apply R; apply in_or_app; now left). clear R E P. revert o So Rh.
    induction hist as [|l hist IH]; intros o So Rh; [now exists o|]. destruct (Rh l (or_introl eq_refl)) as [N Hl].
    destruct (comb_trigger_ok o n n l So N Hl) as (o1 & E1 & P1 & _ & F1). cbn [fold_res]. rewrite E1.
    destruct (IH o1 (sized_of _ _ _ _ _ F1) (fun l Hl => Rh l (or_intror Hl))) as (o2 & E2 & P2 & S2). exists o2. split; [exact E2|]. split; [congruence|exact S2]. }
  destruct Q as (o1 & E1 & P1 & S1). rewrite E1. cbn [bind]. destruct (R last) as [N Hl]; [apply in_or_app; right; now left|].
  destruct (comb_trigger_ok o1 n n last S1 N Hl) as (o' & E' & P' & C'). exists o'. split; [exact E'|]. split; [congruence|exact C'].
Qed.
(* The order of the inputs does not matter. *)
Theorem C80_combine_order r c l l' (o : efield A) : Permutation l l' -> combined r c l o -> combined r c l' o.
Proof.
  intros P (S & Fa & Fp). split; [rewrite S; now apply (sum_over_perm HF)|]. split; (eapply image_ext; [eassumption|]); intros i j _ _.
  - now apply (prod_over_perm HF).
  - now apply (sum_over_perm HF).
Qed.
(* Either a list or two single inputs, not both. *)
Theorem C80_inputs lst (e1 e2 : option (efield A)) :
  (exists ins, comb_inputs A lst e1 e2 = Ok ins) <-> ((lst <> [] /\ (e1 = None \/ e2 = None)) \/ (lst = [] /\ e1 <> None /\ e2 <> None)).
Proof.
  unfold comb_inputs. destruct lst as [|x l], e1 as [a|], e2 as [b|]; cbn; split; intros H.
  all: try (destruct H as [? H]; discriminate).
  all: try (eexists; reflexivity).
  all: try (right; repeat split; congruence).
  all: try (left; split; [discriminate|]; tauto).
  all: destruct H as [[H1 [H2|H2]]|(H1 & H2 & H3)]; congruence.
Qed.
(* Fields that are not square are accepted by setup, but no trigger works. *)
Theorem C80_combine_rectangle lst e1 e2 ins first rest r c rounds last : comb_inputs A lst e1 e2 = Ok ins -> ins = first :: rest -> sized first r c ->
  r <> c -> (forall x, In x rest -> sized x r c /\ same (ef_pitch A first) (ef_pitch A x) = true) -> last <> [] -> (forall e, In e last -> sized e r c) ->
  (exists o, comb_setup A same lst e1 e2 = Ok o) /\ combine A same lst e1 e2 (last :: rounds) = Err ValueError.
Proof.
  intros Ei -> S N H L Hl. unfold combine, comb_setup. rewrite Ei. cbn [bind]. rewrite (comb_check_ok first rest r c S H). cbn [bind].
  rewrite (sized_rows _ _ _ S), (sized_cols _ _ _ S). destruct (C79_resize HF (ef_initial A) r c (Some (ef_pitch A first))) as (o & E & F & P & _). rewrite E. split; [now exists o|].
  cbn [bind fold_res]. destruct last as [|e l]; [contradiction|]. destruct (Hl e (or_introl eq_refl)) as [Ea Ep]. unfold comb_trigger at 1. unfold assign2 at 1, inplace2.
  destruct F as [Fa Fp]. rewrite (image_r _ _ _ _ Fp), (image_c _ _ _ _ Fp), (image_r _ _ _ _ Ep), (image_c _ _ _ _ Ep). unfold fits1.
  replace ((Nat.eqb r c || Nat.eqb r 1) && (Nat.eqb c r || Nat.eqb c 1)) with false; [reflexivity|]. symmetry.
  destruct (Nat.eqb_spec r c), (Nat.eqb_spec r 1), (Nat.eqb_spec c r), (Nat.eqb_spec c 1); cbn; (reflexivity || lia).
Qed.

(* --------------------------------------------------------------------------- reflection *)
Lemma like_ok (e : efield A) r c : sized e r c -> exists o, like_setup A e = Ok o /\ sized o r c /\ ef_pitch A o = ef_pitch A e.
Proof.
  intros S. unfold like_setup. rewrite (sized_rows _ _ _ S), (sized_cols _ _ _ S). destruct (C79_resize HF (ef_initial A) c r (Some (ef_pitch A e))) as (o & E & F & P & _).
  exists o. split; [exact E|]. split; [exact (sized_of _ _ _ _ _ F)|exact P].
Qed.
Lemma refl_ok (o e : efield A) r c amp ph : sized o r c -> field r c amp ph e ->
  refl_trigger A o e = Ok (mkEF A (tab A r c amp) (tab A r c (fun i j => opp (ph i j))) (ef_pitch A o) (ef_S0 A e)).
Proof.
  intros [Oa Op] [Ea Ep]. unfold refl_trigger. rewrite (assign2_image r c _ _ _ _ Oa Ea). cbn [bind].
  now rewrite (assign2_image r c _ _ _ _ Op (each_image opp r c _ _ Ep)).
Qed.
Lemma trigs_sized (f : efield A -> efield A -> res (efield A)) r c hist :
  (forall o e, sized o r c -> sized e r c -> exists o', f o e = Ok o' /\ sized o' r c /\ ef_pitch A o' = ef_pitch A o) ->
  forall o, sized o r c -> (forall e, In e hist -> sized e r c) -> exists o', fold_res f o hist = Ok o' /\ sized o' r c /\ ef_pitch A o' = ef_pitch A o.
Proof.
  intros Hf. induction hist as [|e hist IH]; intros o So H; [now exists o|]. destruct (Hf o e So (H e (or_introl eq_refl))) as (o1 & E1 & S1 & P1). cbn [fold_res]. rewrite E1.
  destruct (IH o1 S1 (fun e He => H e (or_intror He))) as (o2 & E2 & S2 & P2). exists o2. split; [exact E2|]. split; [exact S2|congruence].
Qed.
Theorem C80_reflect first hist (last : efield A) r c : sized first r c -> (forall e, In e (hist ++ [last]) -> sized e r c) ->
  exists o, reflect A first (hist ++ [last]) = Ok o /\ ef_pitch A o = ef_pitch A first /\ ef_S0 A o = ef_S0 A last /\ field r c (amp_at last) (fun i j => opp (ph_at last i j)) o.
Proof.
  intros S H. destruct (like_ok first r c S) as (o & E & So & P). unfold reflect. rewrite E. cbn [bind]. rewrite fold_res_last.
  destruct (trigs_sized (refl_trigger A) r c hist) with (o := o) as (o1 & E1 & S1 & P1); [|exact So|intros e He; apply H, in_or_app; now left|].
  { intros o0 e S0 Se. eexists. split; [exact (refl_ok o0 e r c _ _ S0 Se)|]. split; [|reflexivity]. apply (sized_of r c (amp_at e) (fun i j => opp (ph_at e i j))). split; apply tab_image. }
  rewrite E1. cbn [bind]. assert (Sl : sized last r c) by (apply H, in_or_app; right; now left). eexists. split; [exact (refl_ok o1 last r c _ _ S1 Sl)|].
  cbn [ef_pitch ef_S0]. split; [congruence|]. split; [reflexivity|]. split; apply tab_image.
Qed.
(* Twice reflected: the same field. *)
Theorem C80_reflect_twice (e o1 : efield A) r c : sized e r c -> reflect A e [e] = Ok o1 -> reflect A o1 [o1] = Ok e.
Proof.
  intros S E1. destruct (C80_reflect e [] e r c S) as (o & E & P & S0 & F); [intros x [<-|[]]; exact S|]. cbn [app] in E. rewrite E in E1. injection E1 as <-.
  assert (So := sized_of _ _ _ _ _ F). destruct (C80_reflect o [] o r c So) as (o2 & E2 & P2 & S02 & F2); [intros x [<-|[]]; exact So|]. cbn [app] in E2. rewrite E2. f_equal.
  destruct F as [Fa Fp], F2 as [Ga Gp], S as [Sa Sp]. destruct o2 as [a2 f2 p2 s2], e as [ae fe pe se]. cbn [ef_A ef_ph ef_pitch ef_S0] in *. f_equal; try congruence.
  - eapply image_eq; [exact Ga|]. eapply image_ext; [exact Sa|]. intros i j Hi Hj. symmetry. exact (image_ent _ _ _ _ i j Fa Hi Hj).
  - eapply image_eq; [exact Gp|]. eapply image_ext; [exact Sp|]. intros i j Hi Hj. cbv beta. unfold ph_at at 2. unfold entry. rewrite (proj2 (proj2 (proj2 Fp)) i j Hi Hj). unfold ph_at. cbn [ef_ph]. ring.
Qed.
End G.

(* --------------------------------------------------------------------------- flattening *)
Section Flat.
Context {A : arith} (HF : is_field A) (ofn : nat -> A) (HC : counts ofn) (lit : A -> bool).
Let HF' : field_theory 0 1 add mul sub opp dvd inv (@eq A) := HF.
Add Field fA17 : HF'.
(* sum over the pixels with light *)
Definition lit_flux (e : efield A) r c (f : nat -> nat -> A) : A := flux r c (fun i j => if lit (amp_at e i j) then f i j else 0).
Definition lit_mean (e : efield A) r c : A := lit_flux e r c (ph_at e) / lit_flux e r c (fun _ _ => 1).

Lemma flat_len {X Y} (f : X -> list Y) l : ofn (length (flat_map f l)) = sum_over (fun x => ofn (length (f x))) l.
Proof.
  assert (Oa : forall a b, ofn (a + b)%nat = ofn a + ofn b). { intros a b. rewrite !(ofn_sum ofn HC), (sumn_app A HF). reflexivity. }
  induction l as [|x l IH]; cbn [flat_map sum_over]; [now rewrite (ofn_sum ofn HC)|]. now rewrite app_length, Oa, IH.
Qed.
Lemma flat_ok (o e : efield A) r c : sized o r c -> sized e r c ->
  flat_trigger A ofn lit o e = Ok (mkEF A (tab A r c (amp_at e)) (tab A r c (fun i j => if lit (amp_at e i j) then ph_at e i j - lit_mean e r c else ph_at e i j)) (ef_pitch A o) (ef_S0 A e)).
Proof.
  intros [Oa Op] [Ea Ep]. unfold flat_trigger. rewrite (assign2_image r c _ _ _ _ Oa Ea). cbn [bind]. rewrite (assign2_image r c _ _ _ _ Op Ep). cbn [bind].
  unfold ef_rows, ef_cols. rewrite (image_r _ _ _ _ Ea), (image_c _ _ _ _ Ea), tab_r. cbn [tab a_c]. rewrite !Nat.eqb_refl. cbn [andb negb]. do 2 f_equal.
  fold (tab A r c (ph_at e)). set (vals := flat_map _ _).
  assert (V : vals = flat_map (fun i => flat_map (fun j => if lit (amp_at e i j) then [ph_at e i j] else []) (seq 0 c)) (seq 0 r)).
  { unfold vals. rewrite !flat_map_concat_map. f_equal. apply map_ext_in. intros i Hi. apply in_seq in Hi. rewrite !flat_map_concat_map. f_equal. apply map_ext_in. intros j Hj. apply in_seq in Hj.
    rewrite tab_ent by lia. rewrite (image_ent r c (amp_at e) _ i j Ea) by lia. reflexivity. }
  assert (M : mean A ofn vals = lit_mean e r c).
  { unfold mean, lit_mean, lit_flux, flux. rewrite V. f_equal.
    - rewrite (vsum_flat HF), (sum_over_seq HF). apply sumn_ext. intros i _. rewrite (vsum_flat HF), (sum_over_seq HF). apply sumn_ext. intros j _.
      destruct (lit (amp_at e i j)); cbn; unfold vsum; cbn [fold_left]; ring.
    - rewrite flat_len, (sum_over_seq HF). apply sumn_ext. intros i _. rewrite flat_len, (sum_over_seq HF). apply sumn_ext. intros j _.
      destruct (lit (amp_at e i j)); cbn [length]; rewrite (ofn_sum ofn HC); cbn [sumn]; ring. }
  rewrite M. apply (image_eq r c (fun i j => if lit (amp_at e i j) then ph_at e i j - lit_mean e r c else ph_at e i j)); [|apply tab_image].
  eapply image_ext; [apply tab_image|]. intros i j Hi Hj. cbv beta. rewrite tab_ent by assumption. rewrite (image_ent r c (amp_at e) _ i j Ea) by assumption. reflexivity.
Qed.
(* After any triggers: the phase of the last field, from which the mean over the pixels with
   light is taken away on these pixels only. *)
Theorem C80_flatten first hist (last : efield A) r c : sized first r c -> (forall e, In e (hist ++ [last]) -> sized e r c) ->
  exists o, flatten A ofn lit first (hist ++ [last]) = Ok o /\ ef_pitch A o = ef_pitch A first /\ ef_S0 A o = ef_S0 A last /\
    field r c (amp_at last) (fun i j => if lit (amp_at last i j) then ph_at last i j - lit_mean last r c else ph_at last i j) o.
Proof.
  intros S H. destruct (like_ok HF first r c S) as (o & E & So & P). unfold flatten. rewrite E. cbn [bind]. rewrite fold_res_last.
  destruct (trigs_sized (flat_trigger A ofn lit) r c hist) with (o := o) as (o1 & E1 & S1 & P1); [|exact So|intros e He; apply H, in_or_app; now left|].
  { intros o0 e S0 Se. eexists. split; [exact (flat_ok o0 e r c S0 Se)|]. split; [|reflexivity]. eapply sized_of. split; apply tab_image. }
  rewrite E1. cbn [bind]. assert (Sl : sized last r c) by (apply H, in_or_app; right; now left). eexists. split; [exact (flat_ok o1 last r c S1 Sl)|].
  cbn [ef_pitch ef_S0]. split; [congruence|]. split; [reflexivity|]. split; apply tab_image.
Qed.
(* The mean is that of the pixels with light: afterwards their phases sum to zero. *)
Lemma lit_count (e : efield A) r c : exists k, lit_flux e r c (fun _ _ => 1) = ofn k /\ ((exists i j, i < r /\ j < c /\ lit (amp_at e i j) = true) -> 0 < k).
Proof.
  exists (length (flat_map (fun i => flat_map (fun j => if lit (amp_at e i j) then [tt] else []) (seq 0 c)) (seq 0 r))). split.
  - unfold lit_flux, flux. rewrite flat_len, (sum_over_seq HF). apply sumn_ext. intros i _. rewrite flat_len, (sum_over_seq HF). apply sumn_ext. intros j _.
    destruct (lit (amp_at e i j)); cbn [length]; rewrite (ofn_sum ofn HC); cbn [sumn]; ring.
  - intros (i & j & Hi & Hj & L). set (w := flat_map _ _). assert (I : In tt w).
    { apply in_flat_map. exists i. split; [apply in_seq; lia|]. apply in_flat_map. exists j. split; [apply in_seq; lia|]. rewrite L. now left. }
    destruct w; [contradiction|cbn; lia].
Qed.
Theorem C80_flatten_mean (e o : efield A) r c : sized e r c -> flatten A ofn lit e [e] = Ok o -> (exists i j, i < r /\ j < c /\ lit (amp_at e i j) = true) ->
  lit_flux o r c (ph_at o) = 0.
Proof.
  intros S E X. destruct (C80_flatten e [] e r c S) as (o' & E' & _ & _ & Fa & Fp); [intros x [<-|[]]; exact S|]. cbn [app] in E'. rewrite E' in E. injection E as <-.
  destruct (lit_count e r c) as (k & Ek & Hk). assert (K : ofn k <> 0) by (apply (proj2 HC), Hk, X).
  transitivity (lit_flux e r c (ph_at e) - lit_mean e r c * lit_flux e r c (fun _ _ => 1)).
  - unfold lit_flux at 1. transitivity (flux r c (fun i j => (if lit (amp_at e i j) then ph_at e i j else 0) + (if lit (amp_at e i j) then 1 else 0) * opp (lit_mean e r c))).
    + apply flux_ext. intros i j Hi Hj. unfold amp_at at 1, ph_at at 1, entry. rewrite (proj2 (proj2 (proj2 Fa)) i j Hi Hj), (proj2 (proj2 (proj2 Fp)) i j Hi Hj).
      destruct (lit (amp_at e i j)); ring.
    + unfold flux. rewrite (sumn_ext r _ (fun i => sumn c (fun j => if lit (amp_at e i j) then ph_at e i j else 0) + sumn c (fun j => if lit (amp_at e i j) then 1 else 0) * opp (lit_mean e r c))).
      * rewrite (sumn_add A HF), (sumn_scale_r A HF). unfold lit_flux, flux. ring.
      * intros i _. now rewrite (sumn_add A HF), (sumn_scale_r A HF).
  - unfold lit_mean. rewrite Ek. field. exact K.
Qed.
(* Flattening again changes nothing. *)
Theorem C80_flatten_twice (e o : efield A) r c : sized e r c -> flatten A ofn lit e [e] = Ok o -> flatten A ofn lit o [o] = Ok o.
Proof.
  intros S E. pose proof (fun X => C80_flatten_mean e o r c S E X) as Z.
  destruct (C80_flatten e [] e r c S) as (o' & E' & P' & _ & Fa & Fp); [intros x [<-|[]]; exact S|]. cbn [app] in E'. rewrite E' in E. injection E as <-.
  assert (So := sized_of _ _ _ _ _ (conj Fa Fp)). destruct (C80_flatten o' [] o' r c So) as (o2 & E2 & P2 & S2 & Ga & Gp); [intros x [<-|[]]; exact So|]. cbn [app] in E2. rewrite E2. f_equal.
  destruct So as [Sa Sp]. destruct o2 as [a2 f2 p2 s2], o' as [ao fo po so]. cbn [ef_A ef_ph ef_pitch ef_S0] in *. f_equal; try congruence.
  - eapply image_eq; [exact Ga|exact Sa].
  - eapply image_eq; [exact Gp|]. eapply image_ext; [exact Sp|]. intros i j Hi Hj. cbv beta. set (o := mkEF A ao fo po so) in *.
    destruct (lit (amp_at o i j)) eqn:L; [|reflexivity]. unfold lit_mean. rewrite Z.
    + destruct (lit_count o r c) as (k & Ek & Hk). rewrite Ek. assert (K : ofn k <> 0) by (apply (proj2 HC), Hk; exists i, j; auto). field. exact K.
    + exists i, j. split; [exact Hi|]. split; [exact Hj|]. rewrite <- L. f_equal. symmetry. exact (proj2 (proj2 (proj2 Fa)) i j Hi Hj).
Qed.
End Flat.

Definition qsame (x y : qc) : bool := if Qc_eq_dec x y then true else false.
Definition sq1 : efield qc := mkEF qc (img [[1; 1]; [1; 0]]%Z) (img [[1; 2]; [3; 4]]%Z) (qi 2) (qi 7).
Definition sq2 : efield qc := mkEF qc (img [[1; 0]; [1; 2]]%Z) (img [[10; 20]; [30; 40]]%Z) (qi 2) (qi 5).
Definition sq3 : efield qc := mkEF qc (img [[2; 2]; [2; 2]]%Z) (img [[5; 5]; [5; 5]]%Z) (qi 3) (qi 1).
Example C80_example :
  see_ef (combine qc qsame [] (Some sq1) (Some sq2) [[sq1; sq2]]) = Ok ([[1; 0]; [1; 0]]%Q, [[11; 22]; [33; 44]]%Q, 2%Q, 12%Q) /\
  see_ef (combine qc qsame [sq1; sq2] None None [[sq2; sq2]; [sq1; sq2; sq3]]) = Ok ([[2; 0]; [2; 0]]%Q, [[16; 27]; [38; 49]]%Q, 2%Q, 13%Q) /\
  combine qc qsame [sq1; sq3] None None [] = Err ValueError /\
  see_ef (reflect qc sq1 [sq2]) = Ok ([[1; 0]; [1; 2]]%Q, [[-10; -20]; [-30; -40]]%Q, 2%Q, 5%Q) /\
  see_ef (flatten qc qn' qlit sq1 [sq1]) = Ok ([[1; 1]; [1; 0]]%Q, [[-1; 0]; [1; 4]]%Q, 2%Q, 7%Q).
Proof. vm_compute. repeat split. Qed.

(* Claim: fields of the same shape and pitch can be combined. *)
Theorem C80_rectangle_refuted : exists e : efield qc, sized e 2 3 /\ combine qc qsame [] (Some e) (Some e) [[e; e]] = Err ValueError.
Proof.
  exists wide. split; [|vm_compute; reflexivity].
  split; (split; [reflexivity|]; split; [reflexivity|]; split; [intros x [<-|[<-|[]]]; reflexivity|reflexivity]).
Qed.

Print Assumptions C80_combine.
Print Assumptions C80_combine_order.
Print Assumptions C80_inputs.
Print Assumptions C80_combine_rectangle.
Print Assumptions C80_reflect.
Print Assumptions C80_reflect_twice.
Print Assumptions C80_flatten.
Print Assumptions C80_flatten_mean.
Print Assumptions C80_flatten_twice.
Print Assumptions C80_rectangle_refuted.
