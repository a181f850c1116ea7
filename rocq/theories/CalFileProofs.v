(* Proofs about calibration files. *)
From Coq Require Import String Ascii List Bool PeanoNat ZArith Lia DecimalString Field_theory Ring_theory.
From Verif Require Import PyBase PyLemmas Arith ArithLemmas FilterSpec SumLemmas MultirateModel CalFileModel.
Import ListNotations.
Local Open Scope string_scope.

Lemma app_assoc_s (a b c : string) : (a ++ b) ++ c = a ++ b ++ c.
Proof. induction a; simpl; f_equal; auto. Qed.
Lemma app_nil_s (a : string) : a ++ "" = a.
Proof. induction a; simpl; f_equal; auto. Qed.
Lemma app_inj_s (a b c : string) : a ++ b = a ++ c -> b = c.
Proof. induction a; simpl; auto. intros [= H]. auto. Qed.
Fixpoint has_slash (s : string) : bool := match s with EmptyString => false | String c r => Ascii.eqb c "/" || has_slash r end.

Lemma ends_fits x f : ends_with ".fits" (x ++ String "/" f) = ends_with ".fits" f.
Proof.
  induction x as [|c x IH]; [reflexivity|].
  change (String c x ++ String "/" f) with (String c (x ++ String "/" f)).
  assert (E : String.eqb ".fits" (String c (x ++ String "/" f)) = false).
  { apply String.eqb_neq. intros H. injection H as _ H.
    do 4 (destruct x as [|? x]; [simpl in H; discriminate|]; injection H as _ H). destruct x; discriminate. }
  cbn [ends_with]. rewrite E. cbn [orb]. exact IH.
Qed.

Lemma ends_slash_split a : ends_slash a = true -> exists x, a = x ++ "/".
Proof.
  induction a as [|c a IH]; [discriminate|]. destruct a as [|b a].
  - cbn. intros H. apply Ascii.eqb_eq in H. subst. exists "". reflexivity.
  - intros H. destruct (IH H) as [x E]. exists (String c x). rewrite E. reflexivity.
Qed.

(* the part put before a relative name *)
Definition lead (a : string) : string := if String.eqb a "" || ends_slash a then a else a ++ "/".
Lemma join_lead a b : starts_slash b = false -> join a b = lead a ++ b.
Proof. intros H. unfold join, lead. rewrite H. destruct (_ || _); auto. rewrite app_assoc_s. reflexivity. Qed.
Lemma lead_form a : lead a = "" \/ exists x, lead a = x ++ "/".
Proof.
  unfold lead. destruct (String.eqb_spec a ""); cbn [orb]; [left; auto|]. right.
  destruct (ends_slash a) eqn:E; [apply ends_slash_split; auto|]. exists a. reflexivity.
Qed.

Lemma fits_lead a b : fits_name (lead a ++ b) = lead a ++ fits_name b.
Proof.
  unfold fits_name. destruct (lead_form a) as [-> | [x ->]]; [reflexivity|].
  rewrite !app_assoc_s. change ("/" ++ b) with (String "/" b). rewrite ends_fits.
  destruct (ends_with ".fits" b); rewrite ?app_assoc_s; reflexivity.
Qed.

Lemma fits_slash b : starts_slash (fits_name b) = starts_slash b.
Proof.
  unfold fits_name. destruct (ends_with ".fits" b); auto. destruct b as [|c b]; reflexivity.
Qed.

Lemma checked_written dir name : checked_path dir name = written_path dir name.
Proof.
  unfold checked_path, written_path. destruct (starts_slash name) eqn:E.
  - unfold join. rewrite fits_slash, E. reflexivity.
  - rewrite !join_lead by (rewrite ?fits_slash; auto). apply fits_lead.
Qed.

(* ---- the table ---- *)
Definition trimmed (d : string) : string := rstrip d.
Definition tidy (d : string) : bool :=
  negb (String.eqb (trimmed d) "") && negb (has_slash (trimmed d)) && (String.eqb d (trimmed d) || String.eqb d (trimmed d ++ "/")).
Lemma table_tidy : forallb (fun kv => tidy (snd kv)) subdirs = true.
Proof. vm_compute. reflexivity. Qed.

Lemma dget_in {V} k (d : dict V) v : dget k d = Some v -> In (k, v) d.
Proof.
  induction d as [|[k' v'] d IH]; [discriminate|]. cbn [dget]. destruct (String.eqb_spec k k').
  - intros [= ->]. subst. left. reflexivity.
  - intros H. right. auto.
Qed.

Lemma table_entry t d : dget t subdirs = Some d -> tidy d = true.
Proof.
  intros H. apply dget_in in H. pose proof table_tidy as T. rewrite forallb_forall in T. exact (T _ H).
Qed.

Lemma ends_slash_app x : ends_slash (x ++ "/") = true.
Proof. induction x as [|c x IH]; [reflexivity|]. cbn. destruct (x ++ "/") eqn:E; [destruct x; discriminate|]. exact IH. Qed.
Lemma ends_slash_has x : ends_slash x = true -> has_slash x = true.
Proof.
  intros H. apply ends_slash_split in H as [y ->]. induction y as [|c y IH]; [reflexivity|]. cbn. rewrite IH. apply orb_true_r.
Qed.

Lemma tidy_no_lead d : tidy d = true -> starts_slash d = false /\ lead d = trimmed d ++ "/" /\ has_slash (trimmed d) = false.
Proof.
  unfold tidy. intros H. apply andb_true_iff in H as [H H3]. apply andb_true_iff in H as [H1 H2].
  apply negb_true_iff in H1, H2. apply String.eqb_neq in H1.
  set (q := trimmed d) in *. assert (Q : starts_slash q = false).
  { destruct q as [|c q']; auto. cbn in H2. apply orb_false_iff in H2 as [H2 _]. apply Ascii.eqb_neq in H2.
    destruct c as [[] [] [] [] [] [] [] []]; auto. contradiction. }
  assert (QE : ends_slash q = false).
  { destruct (ends_slash q) eqn:E; auto. apply ends_slash_has in E. congruence. }
  assert (QS : starts_slash (q ++ "/") = false) by (destruct q; [contradiction|exact Q]).
  apply orb_true_iff in H3 as [E|E]; apply String.eqb_eq in E.
  - rewrite E. split; auto. split; auto. unfold lead. destruct (String.eqb_spec q ""); [contradiction|]. rewrite QE. reflexivity.
  - rewrite E. split; auto. split; auto. unfold lead. rewrite ends_slash_app, orb_true_r. reflexivity.
Qed.

(* the directory of a type, with its final slash *)
Definition home (root t : string) : option string :=
  match dget t subdirs with Some d => Some (lead root ++ trimmed d ++ "/") | None => None end.

Lemma lead_app a b : b <> "" -> lead (a ++ b) = a ++ lead b.
Proof.
  intros Hb. unfold lead. destruct (String.eqb_spec b ""); [contradiction|]. 
  assert (a ++ b <> "") by (destruct a; [auto|discriminate]). destruct (String.eqb_spec (a ++ b) ""); [contradiction|]. cbn [orb].
  assert (E : ends_slash (a ++ b) = ends_slash b).
  { clear -Hb. induction a as [|c a IH]; auto. cbn. destruct (a ++ b) eqn:E; [destruct a; [contradiction|discriminate]|]. exact IH. }
  rewrite E. destruct (ends_slash b); auto. rewrite app_assoc_s. reflexivity.
Qed.

Lemma lead_sub root d : tidy d = true -> lead (join root d) = lead root ++ trimmed d ++ "/".
Proof.
  intros T. destruct (tidy_no_lead d T) as (S1 & S2 & _). rewrite join_lead by auto.
  rewrite lead_app, S2; auto. intros ->. vm_compute in T. discriminate.
Qed.

Lemma filename_form root t name f : starts_slash name = false -> filename root t name = Ok f ->
  exists h, home root t = Some h /\ f = h ++ fits_name name.
Proof.
  intros Hn E. unfold filename, home in *. destruct (dget t subdirs) as [d|] eqn:Ed; [|discriminate].
  injection E as <-. pose proof (table_entry t d Ed) as T. eexists. split; [reflexivity|].
  rewrite join_lead, lead_sub by auto. rewrite <- (lead_sub root d T). rewrite fits_lead, lead_sub by auto. reflexivity.
Qed.

Lemma no_slash_split a b x y : has_slash a = false -> has_slash b = false -> a ++ String "/" x = b ++ String "/" y -> a = b /\ x = y.
Proof.
  revert b. induction a as [|c a IH]; intros [|e b] Ha Hb E; cbn in *.
  - injection E as <-. auto.
  - injection E as <- E. rewrite Ascii.eqb_refl in Hb. discriminate.
  - injection E as -> E. rewrite Ascii.eqb_refl in Ha. discriminate.
  - apply orb_false_iff in Ha as [_ Ha]. apply orb_false_iff in Hb as [_ Hb]. injection E as -> E.
    destruct (IH b Ha Hb E) as [-> ->]. auto.
Qed.

Lemma no_clash root t1 t2 n1 n2 f : starts_slash n1 = false -> starts_slash n2 = false ->
  filename root t1 n1 = Ok f -> filename root t2 n2 = Ok f ->
  fits_name n1 = fits_name n2 /\ exists d1 d2, dget t1 subdirs = Some d1 /\ dget t2 subdirs = Some d2 /\ trimmed d1 = trimmed d2.
Proof.
  intros H1 H2 E1 E2. destruct (filename_form _ _ _ _ H1 E1) as (h1 & G1 & F1). destruct (filename_form _ _ _ _ H2 E2) as (h2 & G2 & F2).
  unfold home in G1, G2. destruct (dget t1 subdirs) as [d1|] eqn:D1; [|discriminate]. destruct (dget t2 subdirs) as [d2|] eqn:D2; [|discriminate].
  injection G1 as <-. injection G2 as <-. rewrite F1 in F2. rewrite !app_assoc_s in F2. apply app_inj_s in F2.
  destruct (tidy_no_lead d1 (table_entry _ _ D1)) as (_ & _ & S1). destruct (tidy_no_lead d2 (table_entry _ _ D2)) as (_ & _ & S2).
  destruct (no_slash_split _ _ _ _ S1 S2 F2) as [E3 E4]. split; auto. eexists _, _. split; [reflexivity|]. split; [reflexivity|]. auto.
Qed.

(* a calibrator of one type and a reader of another *)
Lemma found root t1 t2 dir name d1 d2 : dget t1 subdirs = Some d1 -> dget t2 subdirs = Some d2 -> trimmed d1 = trimmed d2 ->
  root_subdir root t1 = Ok dir -> filename root t2 name = Ok (written_path dir name).
Proof.
  intros D1 D2 T E. unfold root_subdir in E. rewrite D1 in E. injection E as <-. unfold filename. rewrite D2. f_equal.
  fold (checked_path (join root d2) name). rewrite checked_written. unfold written_path.
  destruct (starts_slash (fits_name name)) eqn:Es; [unfold join at 1 3; rewrite Es; reflexivity|].
  rewrite !(join_lead _ (fits_name name)) by auto. f_equal.
  rewrite !lead_sub by (eapply table_entry; eauto). rewrite T. reflexivity.
Qed.

(* ---- files ---- *)
Lemma dget_dset {V} k k' (v : V) d : dget k (dset k' v d) = if String.eqb k k' then Some v else dget k d.
Proof.
  induction d as [|[a b] d IH]; cbn [dset dget].
  - destruct (String.eqb k k'); reflexivity.
  - destruct (String.eqb_spec k' a) as [->|Hn]; cbn [dget].
    + destruct (String.eqb k a); reflexivity.
    + destruct (String.eqb_spec k a) as [->|Hm].
      * destruct (String.eqb_spec a k'); [congruence|reflexivity].
      * exact IH.
Qed.

Section World.
Variable A : arith.

Lemma makedirs_has (w w' : world A) d : makedirs w d = Ok w' -> w_files w' = w_files w /\
  (dirname d = dirname d -> has_dir w' (if String.eqb (rstrip d) "" then d else rstrip d) = true).
Proof.
  unfold makedirs. destruct (String.eqb d "") eqn:E; [discriminate|]. intros [= <-]. cbn. split; auto. intros _.
  unfold has_dir. cbn [w_dirs]. rewrite existsb_app. cbn [existsb]. rewrite String.eqb_refl. cbn. rewrite !orb_true_r. reflexivity.
Qed.

Lemma rstrip_idem s : rstrip (rstrip s) = rstrip s.
Proof.
  induction s as [|c s IH]; [reflexivity|]. cbn [rstrip]. destruct (rstrip s) as [|e r] eqn:E.
  - destruct (Ascii.eqb c "/") eqn:Ec; [reflexivity|]. cbn. rewrite Ec. reflexivity.
  - cbn [rstrip]. cbn [rstrip] in IH. destruct (match rstrip r with "" => if Ascii.eqb e "/" then "" else String e "" | String a b => String e (String a b) end) eqn:F; [discriminate|]. 
    rewrite IH. reflexivity.
Qed.

Lemma dirname_strip p : let d := dirname p in (if String.eqb (rstrip d) "" then d else rstrip d) = d.
Proof.
  cbv zeta. unfold dirname. destruct (String.eqb (rstrip (head_of p)) "") eqn:E.
  - rewrite E. reflexivity.
  - rewrite rstrip_idem, E. reflexivity.
Qed.

Lemma makedirs_dirname (w w' : world A) p : makedirs w (dirname p) = Ok w' -> w_files w' = w_files w /\ has_dir w' (dirname p) = true.
Proof.
  intros E. destruct (makedirs_has _ _ _ E) as [E1 E2]. split; auto. rewrite <- (dirname_strip p) at 1. exact (E2 eq_refl).
Qed.

Lemma save_facts (w w' : world A) p c ow : save_file w p c ow = Ok w' ->
  (ow = false -> dmem p (w_files w) = false) /\ forall q, dget q (w_files w') = if String.eqb q p then Some c else dget q (w_files w).
Proof.
  unfold save_file. destruct (negb (has_dir w (dirname p))); [discriminate|].
  destruct (dmem p (w_files w) && negb ow) eqn:E; [discriminate|]. intros [= <-]. cbn. split.
  - intros ->. rewrite andb_true_r in E. exact E.
  - intros q. apply dget_dset.
Qed.

(* the sum of the slopes *)
Definition fed (s : sncal A) (vs : list (vec A)) : res (sncal A) := fold_res (@sn_trigger A) s vs.

Lemma fed_sum (HF : is_field A) vs : forall s s' u n, sn_sum s = Some u -> length u = n -> fed s vs = Ok s' ->
  exists u', sn_sum s' = Some u' /\ length u' = n /\ sn_count s' = (sn_count s + length vs)%nat /\
   sn_dir s' = sn_dir s /\ sn_name s' = sn_name s /\ sn_over s' = sn_over s /\
   Forall (fun v => length v = n) vs /\
   forall i, (i < n)%nat -> nth i u' 0%ar = (nth i u 0 + sumn (length vs) (fun k => nth i (nth k vs []) 0))%ar.
Proof.
  induction vs as [|v vs IH]; intros s s' u n Hu Hn E; cbn [fed fold_res] in E.
  - injection E as <-. exists u. cbn. repeat split; auto. intros i Hi. pose proof (F_R HF) as R. rewrite (Radd_comm R), (Radd_0_l R). reflexivity.
  - unfold fed in E. cbn [fold_res] in E. inv_bind E. unfold sn_trigger in E0. rewrite Hu in E0.
    destruct (Nat.eqb_spec (length u) (length v)) as [Hl|]; [|discriminate]. injection E0 as <-.
    destruct (IH (mkSn (sn_dir s) (sn_name s) (sn_over s) (Some (vadd u v)) (S (sn_count s))) s' (vadd u v) n eq_refl) as (u' & U1 & U2 & U3 & U4 & U5 & U6 & U7 & U8); auto.
    { unfold vadd. rewrite map2_length. lia. }
    exists u'. cbn in U3, U4, U5, U6. split; auto. split; auto. split; [cbn; lia|]. split; auto. split; auto. split; auto.
    split; [constructor; auto; lia|]. intros i Hi. rewrite U8 by auto. cbn [length]. rewrite (sumn_first A HF). cbn [nth].
    unfold vadd. rewrite map2_nth with (a := 0%ar) (b := 0%ar) by lia. pose proof (F_R HF) as R. rewrite (Radd_assoc R). reflexivity.
Qed.

Lemma fed_all (HF : is_field A) s0 s v vs : sn_sum s0 = None -> fed s0 (v :: vs) = Ok s ->
  exists u, sn_sum s = Some u /\ length u = length v /\ sn_count s = (sn_count s0 + S (length vs))%nat /\
   sn_dir s = sn_dir s0 /\ sn_name s = sn_name s0 /\ sn_over s = sn_over s0 /\
   Forall (fun x => length x = length v) (v :: vs) /\
   forall i, (i < length v)%nat -> nth i u 0%ar = sumn (S (length vs)) (fun k => nth i (nth k (v :: vs) []) 0%ar).
Proof.
  intros H0 E. unfold fed in E. cbn [fold_res] in E. inv_bind E. unfold sn_trigger in E0. rewrite H0 in E0. injection E0 as <-.
  destruct (fed_sum HF vs (mkSn (sn_dir s0) (sn_name s0) (sn_over s0) (Some v) (S (sn_count s0))) s v (length v) eq_refl eq_refl E)
    as (u & U1 & U2 & U3 & U4 & U5 & U6 & U7 & U8).
  exists u. cbn in U3, U4, U5, U6. split; auto. split; auto. split; [lia|]. split; auto. split; auto. split; auto. split; [constructor; auto|].
  intros i Hi. rewrite U8 by auto. rewrite (sumn_first A HF). reflexivity.
Qed.

Lemma sn_new_facts (w : world A) dir tag template ow s : sn_new w dir tag template ow = Ok s ->
  sn_dir s = dir /\ pick_tag tag template = Ok (sn_name s) /\ sn_over s = ow /\ sn_sum s = None /\ sn_count s = 0 /\
  (ow = false -> dmem (written_path dir (sn_name s)) (w_files w) = false).
Proof.
  intros E. unfold sn_new in E. inv_bind E. rewrite checked_written in E.
  destruct (dmem (written_path dir a) (w_files w) && negb ow) eqn:Ed; [discriminate|]. injection E as <-. cbn.
  repeat split; auto. intros ->. rewrite andb_true_r in Ed. exact Ed.
Qed.

Lemma sn_finalize_facts s s' (w w' : world A) : sn_finalize s w = Ok (s', w') ->
  exists u, sn_sum s = Some u /\
   forall q, dget q (w_files w') = if String.eqb q (written_path (sn_dir s) (sn_name s))
     then Some (map (fun x => dvd x (of_nat (sn_count s))) u) else dget q (w_files w).
Proof.
  unfold sn_finalize. destruct (sn_sum s) as [u|]; [|discriminate]. intros E. inv_bind E. inv_bind E. injection E as _ <-.
  exists u. split; auto. intros q. destruct (makedirs_dirname _ _ _ E0) as [F _]. destruct (save_facts _ _ _ _ _ E1) as [_ G].
  rewrite G, F. reflexivity.
Qed.

(* finalize succeeds *)
Lemma sn_finalize_ok s (w : world A) u : sn_sum s = Some u -> dirname (written_path (sn_dir s) (sn_name s)) <> "" ->
  (sn_over s = false -> dmem (written_path (sn_dir s) (sn_name s)) (w_files w) = false) ->
  exists s' w', sn_finalize s w = Ok (s', w').
Proof.
  intros Hu Hd Ho. unfold sn_finalize. rewrite Hu. set (p := written_path _ _) in *.
  destruct (makedirs w (dirname p)) as [w1|e] eqn:E1.
  2:{ unfold makedirs in E1. destruct (String.eqb_spec (dirname p) ""); [contradiction|discriminate]. }
  cbn [bind]. destruct (makedirs_dirname _ _ _ E1) as [F G]. unfold save_file. rewrite G, F. cbn [negb].
  destruct (sn_over s); cbn [negb]; [rewrite andb_false_r|rewrite (Ho eq_refl)]; cbn; eauto.
Qed.

(* reconstructors of several sensors *)
Lemma multi_twice dir tag i : dir = "" \/ starts_slash dir = true -> join dir (multi_path dir tag i) = multi_path dir tag i.
Proof.
  unfold multi_path. intros [-> | H].
  - unfold join. cbn [String.eqb orb]. destruct (starts_slash _); reflexivity.
  - set (x := tag ++ _). assert (S : starts_slash (join dir x) = true).
    { unfold join. destruct (starts_slash x) eqn:E; auto. destruct (_ || _); destruct dir; try discriminate; exact H. }
    unfold join at 1. rewrite S. reflexivity.
Qed.

Lemma lead_long a b : lead a ++ b = b -> lead a = "".
Proof.
  intros H. assert (L : String.length (lead a ++ b) = String.length b) by (rewrite H; reflexivity).
  destruct (lead a) as [|c l]; auto. exfalso. cbn in L.
  assert (forall x y, String.length (x ++ y) = String.length x + String.length y)%nat as K.
  { induction x; cbn; auto. }
  rewrite K in L. lia.
Qed.

Lemma multi_differs dir tag i : dir <> "" -> starts_slash dir = false -> starts_slash tag = false -> tag <> "" ->
  join dir (multi_path dir tag i) <> multi_path dir tag i.
Proof.
  intros Hd Hs Ht Hn. assert (Hm : starts_slash (multi_path dir tag i) = false).
  { unfold multi_path. rewrite join_lead by (destruct tag; [contradiction|exact Ht]). unfold lead.
    destruct dir as [|c dir]; [contradiction|]. destruct (_ || _); exact Hs. }
  rewrite join_lead by auto. intros E. apply lead_long in E. unfold lead in E.
  destruct (String.eqb_spec dir ""); [contradiction|]. cbn [orb] in E. destruct (ends_slash dir); [auto|]. destruct dir; discriminate.
Qed.
End World.
