(* Where calibrations are written and read. *)
From Coq Require Import String Ascii List Bool PeanoNat Lia ZArith QArith Qcanon.
From Verif Require Import PyBase PyLemmas Arith ArithLemmas FilterSpec SumLemmas MultirateModel CalFileModel CalFileProofs Properties_Filter.
Import ListNotations.
Local Open Scope nat_scope.
Local Open Scope string_scope.

(* The file a calibrator checks before it starts is the file it writes at the end. *)
Theorem C91_checked dir name : checked_path dir name = written_path dir name.
Proof. exact (checked_written dir name). Qed.
Print Assumptions C91_checked.

(* What a calibrator writes is what the loader of the matching parameter opens, whatever the root and the tag. *)
Theorem C91_found root name writer reader dir :
  In (writer, reader) [("SnCalibrator", "sn"); ("SnCalibrator", "slopenull"); ("RecCalibrator", "recmat"); ("RecCalibrator", "Recmat");
    ("ImCalibrator", "intmat"); ("ImCalibrator", "Intmat"); ("ShSubapCalibrator", "subapdata"); ("ShSubapCalibrator", "SubapData");
    ("PyrPupdataCalibrator", "pupdata"); ("PyrPupdataCalibrator", "PupData"); ("MultiRecCalibrator", "recmat"); ("MultiImCalibrator", "intmat")] ->
  root_subdir root writer = Ok dir -> filename root reader name = Ok (written_path dir name).
Proof.
  intros H E. cbn [In] in H.
  repeat match type of H with _ \/ _ => destruct H as [H|H] | False => contradiction end;
  injection H as <- <-; eapply found; try exact E; reflexivity.
Qed.
Print Assumptions C91_found.

Example C91_found_example :
  root_subdir "/data/calib" "PyrPupdataCalibrator" = Ok "/data/calib/pupils/" /\
  filename "/data/calib" "pupdata" "p120" = Ok "/data/calib/pupils/p120.fits" /\
  written_path "/data/calib/pupils/" "p120" = "/data/calib/pupils/p120.fits".
Proof. repeat split; reflexivity. Qed.

(* A slope null is not found when it is loaded by the name of its class. *)
Theorem C91_class_refuted : exists root name dir f,
  root_subdir root "SnCalibrator" = Ok dir /\ filename root "Slopes" name = Ok f /\ f <> written_path dir name.
Proof. exists "/data", "n1", "/data/slopenulls/", "/data/slopes/n1.fits". repeat split; try reflexivity. discriminate. Qed.
Print Assumptions C91_class_refuted.

(* Two relative names give the same file only when they are equal, up to the extension, and the two kinds share
   their directory. *)
Theorem C91_no_clash root t1 t2 n1 n2 f : starts_slash n1 = false -> starts_slash n2 = false ->
  filename root t1 n1 = Ok f -> filename root t2 n2 = Ok f ->
  fits_name n1 = fits_name n2 /\ exists d1 d2, dget t1 subdirs = Some d1 /\ dget t2 subdirs = Some d2 /\ rstrip d1 = rstrip d2.
Proof. intros H1 H2 E1 E2. exact (no_clash root t1 t2 n1 n2 f H1 H2 E1 E2). Qed.
Print Assumptions C91_no_clash.

(* A name that starts with a slash escapes both the root and the directory of its kind. *)
Theorem C91_absolute root t name : starts_slash name = true -> dmem t subdirs = true -> filename root t name = Ok (fits_name name).
Proof.
  intros H D. unfold filename. unfold dmem in D. destruct (dget t subdirs) as [d|]; [|discriminate].
  unfold join at 1. rewrite H. reflexivity.
Qed.
Print Assumptions C91_absolute.

Theorem C91_unknown root t name : dmem t subdirs = false -> filename root t name = Err KeyError /\ root_subdir root t = Err KeyError.
Proof. unfold dmem, filename, root_subdir. destruct (dget t subdirs); [discriminate|]. auto. Qed.
Print Assumptions C91_unknown.

(* The calibration of the slope null: the file holds, for every slope, the mean of the frames, and no other file
   changes; without permission to overwrite the file did not exist. *)
Theorem C91_slope_null (A : arith) (HF : is_field A) (w w' : world A) dir tag template ow s0 s s' v vs :
  sn_new w dir tag template ow = Ok s0 ->
  fold_res (@sn_trigger A) s0 (v :: vs) = Ok s ->
  sn_finalize s w = Ok (s', w') ->
  exists name m, pick_tag tag template = Ok name /\ dget (written_path dir name) (w_files w') = Some m /\
    (ow = false -> dmem (written_path dir name) (w_files w) = false) /\
    length m = length v /\ Forall (fun x => length x = length v) vs /\
    (forall i, i < length v ->
      nth i m zer = dvd (sumn (S (length vs)) (fun k => nth i (nth k (v :: vs) []) zer)) (of_nat (S (length vs)))) /\
    forall q, q <> written_path dir name -> dget q (w_files w') = dget q (w_files w).
Proof.
  intros E1 E2 E3. destruct (sn_new_facts A w dir tag template ow s0 E1) as (N1 & N2 & N3 & N4 & N5 & N6).
  destruct (fed_all A HF s0 s v vs N4 E2) as (u & U1 & U2 & U3 & U4 & U5 & U6 & U7 & U8).
  destruct (sn_finalize_facts A s s' w w' E3) as (u2 & V1 & V2). rewrite U1 in V1. injection V1 as <-.
  rewrite U3, U4, U5, N1, N5 in V2. cbn [Nat.add] in V2. eexists (sn_name s0), _. split; [exact N2|].
  split; [rewrite V2, String.eqb_refl; reflexivity|]. split; [exact N6|]. split; [rewrite map_length; exact U2|].
  split; [inversion U7; auto|]. split.
  - intros i Hi. rewrite nth_indep with (d' := dvd zer (of_nat (S (length vs)))) by (rewrite map_length; lia).
    rewrite (map_nth (fun x => dvd x (of_nat (S (length vs))))). rewrite U8 by auto. reflexivity.
  - intros q Hq. rewrite V2. destruct (String.eqb_spec q (written_path dir (sn_name s0))); [contradiction|reflexivity].
Qed.
Print Assumptions C91_slope_null.

(* Started with permission or without an old file, fed frames of one length, it ends by writing. *)
Theorem C91_slope_null_ok (A : arith) (HF : is_field A) (w : world A) dir tag template ow name v vs :
  pick_tag tag template = Ok name -> (ow = false -> dmem (written_path dir name) (w_files w) = false) ->
  dirname (written_path dir name) <> "" -> Forall (fun x => length x = length v) vs ->
  exists s0 s s' w', sn_new w dir tag template ow = Ok s0 /\ fold_res (@sn_trigger A) s0 (v :: vs) = Ok s /\ sn_finalize s w = Ok (s', w').
Proof.
  intros Ht Ho Hd Hl. exists (mkSn dir name ow None 0).
  assert (E1 : sn_new w dir tag template ow = Ok (mkSn dir name ow None 0)).
  { unfold sn_new. rewrite Ht. cbn [bind]. rewrite checked_written. destruct ow; cbn [negb]; [rewrite andb_false_r|rewrite (Ho eq_refl)]; reflexivity. }
  assert (K : forall l u k, length u = length v -> Forall (fun x => length x = length v) l ->
     exists s u', fold_res (@sn_trigger A) (mkSn dir name ow (Some u) k) l = Ok s /\ sn_dir s = dir /\ sn_name s = name /\ sn_over s = ow /\ sn_sum s = Some u').
  { induction l as [|x l IH]; intros u k Hu Hf; [cbn; eexists _, _; repeat split; reflexivity|]. inversion Hf; subst.
    cbn [fold_res]. assert (T : sn_trigger (mkSn dir name ow (Some u) k) x = Ok (mkSn dir name ow (Some (vadd u x)) (S k)))
      by (unfold sn_trigger; cbn [sn_sum]; rewrite Hu, H1, Nat.eqb_refl; reflexivity).
    rewrite T. cbn [bind].
    apply IH; auto. unfold vadd. rewrite map2_length. lia. }
  destruct (K vs v 1 eq_refl Hl) as (s & u & F1 & F2 & F3 & F4 & F5).
  destruct (sn_finalize_ok A s w u F5) as (s' & w' & F6); [rewrite F2, F3; auto|rewrite F2, F3, F4; auto|].
  exists s, s', w'. split; [exact E1|]. split; [|exact F6]. cbn [fold_res]. unfold sn_trigger at 1. cbn. exact F1.
Qed.
Print Assumptions C91_slope_null_ok.

Example C91_slope_null_example :
  exists s0 s s' w', sn_new (A := qc) (mkW [("/c/other.fits", [qi 9])] []) "/c" (Some "auto") (Some "n1") false = Ok s0 /\
    fold_res (@sn_trigger qc) s0 [[qi 1; qi 2]; [qi 3; qi 5]; [qi 2; qi 2]] = Ok s /\
    sn_finalize s (mkW [("/c/other.fits", [qi 9])] []) = Ok (s', w') /\
    option_map (map this) (dget "/c/n1.fits" (w_files w')) = Some [2; 3]%Q /\ dget "/c/other.fits" (w_files w') = Some [qi 9].
Proof. do 4 eexists. repeat split; vm_compute; reflexivity. Qed.

(* It refuses to start over an old file, or without a name. *)
Theorem C91_refuses (A : arith) (w : world A) dir tag template :
  (forall name, pick_tag tag template = Ok name -> dmem (written_path dir name) (w_files w) = true ->
     sn_new w dir tag template false = Err RuntimeError) /\
  (tag = None \/ tag = Some "auto" -> template = None -> forall ow, sn_new w dir tag template ow = Err ValueError).
Proof.
  split.
  - intros name Hn Hd. unfold sn_new. rewrite Hn. cbn [bind]. rewrite checked_written, Hd. reflexivity.
  - intros [->| ->] -> ow; reflexivity.
Qed.
Print Assumptions C91_refuses.

(* Finalizing twice divides twice. *)
Theorem C91_twice_refuted : exists s s1 s2 w0 w1 w2, fold_res (@sn_trigger qc) (mkSn "/c" "n" true None 0) [[qi 4]; [qi 8]] = Ok s /\
  sn_finalize s w0 = Ok (s1, w1) /\ sn_finalize s1 w1 = Ok (s2, w2) /\
  option_map (map this) (dget "/c/n.fits" (w_files w1)) = Some [6]%Q /\ option_map (map this) (dget "/c/n.fits" (w_files w2)) = Some [3]%Q.
Proof. eexists _, _, _, (mkW [] []), _, _. repeat split; vm_compute; reflexivity. Qed.
Print Assumptions C91_twice_refuted.

(* Nothing is written, and the end fails, when no frame arrived, or when the file has no directory. *)
Theorem C91_end_refuted : exists (w : world qc) s0 s1 s, sn_new w "/c" (Some "n") None false = Ok s0 /\ sn_finalize s0 w = Err AttributeError /\
  sn_new w "" (Some "n") None false = Ok s1 /\ sn_trigger s1 [qi 1] = Ok s /\ sn_finalize s w = Err RuntimeError.
Proof. eexists (mkW [] ["/c"]), _, _, _. repeat split; vm_compute; reflexivity. Qed.
Print Assumptions C91_end_refuted.

(* Several sensors: the directory is prepended twice.  That is harmless for an absolute directory ... *)
Theorem C91_multi dir tag i : dir = "" \/ starts_slash dir = true -> join dir (multi_path dir tag i) = multi_path dir tag i.
Proof. exact (multi_twice dir tag i). Qed.
Print Assumptions C91_multi.

(* ... and for a relative one it always writes elsewhere than it checked. *)
Theorem C91_multi_relative dir tag i : dir <> "" -> starts_slash dir = false -> starts_slash tag = false -> tag <> "" ->
  join dir (multi_path dir tag i) <> multi_path dir tag i.
Proof. exact (multi_differs dir tag i). Qed.
Print Assumptions C91_multi_relative.

(* With a relative directory: the end fails although the directory exists; and where it can be written, an old
   file is not noticed at the start, so that a second run fails only at its end. *)
Theorem C91_multi_refuted : exists dir tag (r : vec qc) w1 w2 w3,
  has_dir w1 dir = true /\ multi_setup w1 dir tag false 1 = Ok tt /\ multi_finalize w1 dir tag false [r] = Err RuntimeError /\
  multi_setup w2 dir tag false 1 = Ok tt /\ multi_finalize w2 dir tag false [r] = Ok w3 /\
  dget (multi_path dir tag 0) (w_files w3) = None /\
  multi_setup w3 dir tag false 1 = Ok tt /\ multi_finalize w3 dir tag false [r] = Err RuntimeError.
Proof.
  eexists "calib/rec", "r", [qi 1], (mkW [] ["calib"; "calib/rec"]), (mkW [] ["calib/rec/calib/rec"]), _.
  repeat split; vm_compute; reflexivity.
Qed.
Print Assumptions C91_multi_refuted.

(* ---- the directories ---- *)

(* every directory of calibrations and the kinds that are kept there *)
Definition kept : list (string * list string) := [
  ("phasescreens/", ["phasescreen"; "AtmoRandomPhase"; "AtmoEvolution"; "AtmoEvolutionUpDown"; "AtmoInfiniteEvolution"; "AtmoInfiniteEvolutionUpDown"]);
  ("slopenulls/", ["slopenull"; "sn"; "SnCalibrator"]); ("backgrounds/", ["background"]); ("dark/", ["DynamicDarkCalibrator"]);
  ("pupils/", ["pupils"; "PyrPupdataCalibrator"; "DynamicPyrPupdataCalibrator"]); ("pupils", ["pupdata"; "PupData"]);
  ("subapdata/", ["subapdata"; "SubapData"; "ShSubapCalibrator"]);
  ("filter/", ["filter"; "iir_filter_data"; "IirFilterData"; "ssr_filter_data"; "SsrFilterData"]);
  ("rec/", ["rec"; "recmat"; "Recmat"; "projmat"; "RecCalibrator"; "MultiRecCalibrator"]);
  ("im/", ["im"; "intmat"; "Intmat"; "ImCalibrator"; "MultiImCalibrator"]);
  ("ifunc/", ["ifunc"; "IFunc"; "ifunc_inv"; "IFuncInv"]); ("m2c/", ["m2c"; "M2C"]);
  ("kernels/", ["kernel"; "sh"; "SH"; "convolution_kernel"; "ConvolutionKernel"; "gaussian_convolution_kernel"; "GaussianConvolutionKernel"]);
  ("pupilstop/", ["pupilstop"; "Pupilstop"]); ("maskef/", ["maskef"]); ("ef/", ["ElectricField"]); ("intensity/", ["Intensity"]);
  ("lenslet/", ["Lenslet"]); ("pixels/", ["Pixels"]); ("slopes/", ["Slopes"]); ("arrays/", ["SpatioTempArray"]); ("vibrations/", ["vibrations"]);
  ("layers/", ["Layer"]); ("popt/", ["projection"]); ("data/", ["data"; "time_hist"; "TimeHistory"; "Source"; "LaserLaunchTelescope"])].
(* The file of a kind is in the directory of its kind. *)
Theorem C91_directories root kind name f : filename root kind name = Ok f <->
  exists d ks, In (d, ks) kept /\ In kind ks /\ f = fits_name (join (join root d) name).
Proof.
  assert (X : forall d, dget kind subdirs = Some d <-> exists ks, In (d, ks) kept /\ In kind ks).
  { intros d. split.
    - intros H. apply dget_In in H. cbn in H.
      repeat (destruct H as [H|H]; [injection H as <- <-; eexists; split; [cbn [kept In]; repeat (first [left; reflexivity|right])|cbn; tauto]|]). destruct H.
    - intros (ks & H & K). cbn in H. repeat (destruct H as [H|H]; [injection H as <- <-; cbn in K; repeat (destruct K as [<-|K]; [reflexivity|]); destruct K|]). destruct H. }
  unfold filename. split.
  - intros H. destruct (dget kind subdirs) as [d|]; [|discriminate]. injection H as <-. destruct (proj1 (X d) eq_refl) as (ks & D1 & D2). eauto.
  - intros (d & ks & H1 & H2 & ->). assert (D : dget kind subdirs = Some d) by (apply X; eauto). rewrite D. reflexivity.
Qed.
Print Assumptions C91_directories.

(* Before a file is written, its directory and all those above it are made, and no others. *)
Lemma rstrip_prefix s : exists b, s = rstrip s ++ b.
Proof.
  induction s as [|c s [b IH]]; [exists ""; reflexivity|]. cbn [rstrip]. destruct (rstrip s) as [|c' r].
  - destruct (Ascii.eqb c "/"%char); [exists (String c s); reflexivity|]. exists s. reflexivity.
  - exists b. cbn. now rewrite IH at 1.
Qed.
Lemma head_prefix s : exists b, s = head_of s ++ b.
Proof.
  induction s as [|c s [b IH]]; [exists ""; reflexivity|]. cbn [head_of]. destruct (head_of s) as [|c' r].
  - destruct (Ascii.eqb c "/"%char); [exists s; reflexivity|]. exists (String c s). reflexivity.
  - exists b. cbn. now rewrite IH at 1.
Qed.
Lemma dirname_prefix s : exists b, s = dirname s ++ b.
Proof.
  unfold dirname. destruct (head_prefix s) as [b Hb]. destruct (String.eqb (rstrip (head_of s)) ""); [eauto|].
  destruct (rstrip_prefix (head_of s)) as [b' Hb']. exists (b' ++ b). rewrite <- app_assoc_s, <- Hb'. exact Hb.
Qed.
(* rstrip stops after a part that does not end with a slash *)
Lemma rstrip_after a b : a <> "" -> ends_slash a = false -> exists c, rstrip (a ++ b) = a ++ c /\ (exists e, b = c ++ e) .
Proof.
  revert b. induction a as [|x a IH]; intros b Ha He; [contradiction|]. destruct a as [|y a].
  - cbn [append rstrip]. cbn in He. destruct (rstrip_prefix b) as [e Eb]. destruct (rstrip b) as [|z r] eqn:R.
    + rewrite He. exists "". split; [reflexivity|exists b; reflexivity].
    + exists (String z r). split; [reflexivity|]. exists e. exact Eb.
  - destruct (IH b) as (c & E1 & E2); [discriminate|exact He|]. exists c. split; auto. change (String x (String y a) ++ b) with (String x (String y a ++ b)). cbn [rstrip]. rewrite E1. reflexivity.
Qed.
Lemma head_after a b : exists c, head_of (a ++ "/" ++ b) = a ++ "/" ++ c /\ (exists e, b = c ++ e).
Proof.
  induction a as [|x a (c & E1 & E2)].
  - destruct (head_prefix b) as [e Eb]. cbn [append head_of]. destruct (head_of b) as [|z r] eqn:R.
    + exists "". split; [reflexivity|exists b; reflexivity].
    + exists (String z r). split; [reflexivity|]. exists e. exact Eb.
  - exists c. split; auto. change (String x a ++ "/" ++ b) with (String x (a ++ "/" ++ b)). cbn [head_of]. rewrite E1. destruct a; reflexivity.
Qed.
Lemma dirname_after a b : a <> "" -> ends_slash a = false -> dirname (a ++ "/" ++ b) = a \/ exists c, dirname (a ++ "/" ++ b) = a ++ "/" ++ c.
Proof.
  intros Ha He. unfold dirname. destruct (head_after a b) as (c & -> & _). destruct (rstrip_after a ("/" ++ c) Ha He) as (f & -> & e & Ef).
  destruct (String.eqb_spec (a ++ f) "") as [Z|_]; [destruct a; [contradiction|discriminate]|].
  destruct f as [|y f]; [left; clear; induction a; cbn; congruence|]. cbn in Ef. injection Ef as <- Ef. right. exists f. reflexivity.
Qed.
Lemma head_slash s : head_of s = "" \/ ends_slash (head_of s) = true.
Proof.
  induction s as [|c s IH]; [now left|]. cbn [head_of]. destruct (head_of s) as [|x r].
  - destruct (Ascii.eqb_spec c "/"%char) as [->|]; [now right|now left].
  - right. destruct IH as [IH|IH]; [discriminate|]. exact IH.
Qed.
Lemma rstrip_slash s : ends_slash (rstrip s) = false.
Proof.
  induction s as [|c s IH]; [reflexivity|]. cbn [rstrip]. destruct (rstrip s) as [|x r].
  - destruct (Ascii.eqb c "/"%char) eqn:C; [reflexivity|exact C].
  - exact IH.
Qed.
Lemma length_s (a b : string) : String.length (a ++ b) = String.length a + String.length b.
Proof. induction a; cbn; auto. Qed.
Lemma above_all n : forall d a b, String.length d <= n -> d = a ++ "/" ++ b -> a <> "" -> ends_slash a = false -> In a (above n d).
Proof.
  induction n as [|n IH]; intros d a b Hl Ed Ha He.
  - subst d. rewrite length_s in Hl. cbn in Hl. lia.
  - cbn [above]. assert (Nz : dirname d <> "").
    { subst d. destruct (dirname_after a b Ha He) as [->|(c & ->)]; [exact Ha|]. destruct a; [contradiction|discriminate]. }
    destruct (String.eqb_spec (dirname d) "") as [|_]; [contradiction|]. cbn [orb].
    assert (Nd : dirname d <> d).
    { intros Q. unfold dirname in Q. destruct (head_after a b) as (c & Ec & _). rewrite <- Ed in Ec. rewrite Ec in Q.
      destruct (rstrip_after a ("/" ++ c) Ha He) as (f & Ef & _). rewrite Ef in Q.
      destruct (String.eqb_spec (a ++ f) "") as [Z|_]; [destruct a; [contradiction|discriminate]|]. rewrite <- Ef, <- Ec in Q.
      destruct (head_slash d) as [H|H]; [rewrite H in Ec; destruct a; discriminate|]. 
      destruct (head_prefix d) as [e Hd]. destruct (rstrip_prefix (head_of d)) as [e' Hd']. rewrite Q in Hd'.
      apply (f_equal String.length) in Hd. rewrite length_s in Hd. apply (f_equal String.length) in Hd' as L. rewrite length_s in L.
      assert (e' = "") by (destruct e'; [reflexivity|cbn in L; lia]). subst e'. rewrite app_nil_s in Hd'. rewrite Hd' in H, Q. pose proof (rstrip_slash d) as R. rewrite Q in R. congruence. }
    destruct (String.eqb_spec (dirname d) d) as [|_]; [contradiction|].
    rewrite Ed in *. destruct (dirname_after a b Ha He) as [->|(c & Ec)]; [now left|]. right. apply IH with (b := c); auto.
    destruct (dirname_prefix (a ++ "/" ++ b)) as [e Hd]. rewrite Hd in Hl at 1. rewrite length_s in Hl.
    assert (e <> "") by (intros ->; rewrite app_nil_s in Hd; congruence). destruct e; [contradiction|cbn [String.length] in Hl; lia].
Qed.
Lemma above_only n : forall d x, In x (above n d) -> x <> "" /\ exists b, d = x ++ b.
Proof.
  induction n as [|n IH]; intros d x H; [destruct H|]. cbn [above] in H. destruct (String.eqb_spec (dirname d) "") as [|Nz]; [destruct H|].
  destruct (String.eqb (dirname d) d); [destruct H|]. cbn [orb] in H. destruct H as [<-|H]; [split; [exact Nz|apply dirname_prefix]|].
  destruct (IH _ _ H) as (N & b & Eb). split; auto. destruct (dirname_prefix d) as [c Ec]. exists (b ++ c). rewrite <- app_assoc_s, <- Eb. exact Ec.
Qed.
Theorem C91_directories_made (A : arith) (w w' : world A) d : makedirs w d = Ok w' ->
  w_files w' = w_files w /\ (forall x, In x (w_dirs w) -> In x (w_dirs w')) /\
  (forall a b, d = a ++ b -> a <> "" -> ends_slash a = false -> (b = "" \/ starts_slash b = true) -> has_dir w' a = true) /\
  (forall x, In x (w_dirs w') -> In x (w_dirs w) \/ x <> "" /\ exists b, d = x ++ b).
Proof.
  unfold makedirs. destruct (String.eqb_spec d "") as [|Nd]; [discriminate|]. intros [= <-]. cbn [w_files w_dirs]. split; [reflexivity|]. split; [intros x H; apply in_or_app; now left|].
  set (d' := if String.eqb (rstrip d) "" then d else rstrip d).
  assert (Pd : d' <> "" /\ exists b, d = d' ++ b).
  { unfold d'. destruct (String.eqb_spec (rstrip d) ""); [split; [exact Nd|exists ""; symmetry; apply app_nil_s]|split; [auto|apply rstrip_prefix]]. }
  split.
  - intros a b Ed Ha He Hb. unfold has_dir. cbn [w_dirs]. apply orb_true_iff. right. apply existsb_exists. exists a. split; [|apply String.eqb_refl]. apply in_or_app. right.
    assert (Ra : exists c, d' = a ++ c /\ exists e, b = c ++ e).
    { destruct (rstrip_after a b Ha He) as (c & Ec & Ee). rewrite <- Ed in Ec. exists c. split; auto. unfold d'. rewrite Ec. destruct (String.eqb_spec (a ++ c) "") as [Z|]; [destruct a; [contradiction|discriminate]|reflexivity]. }
    destruct Ra as (c & Ec & e & Ee). destruct c as [|y c]; [left; rewrite Ec; apply app_nil_s|]. right.
    assert (y = "/"%char).
    { destruct Hb as [->|Hb]; [discriminate|]. rewrite Ee in Hb. cbn in Hb. destruct y as [[] [] [] [] [] [] [] []]; try discriminate. reflexivity. }
    subst y. apply above_all with (b := c); auto.
  - intros x H. apply in_app_or in H as [H|[<-|H]]; [now left|right; exact Pd|right]. destruct (above_only _ _ _ H) as (N & b & Eb). split; auto.
    destruct Pd as [_ [c Ec]]. exists (b ++ c). rewrite <- app_assoc_s, <- Eb. exact Ec.
Qed.
Print Assumptions C91_directories_made.
Example C91_directories_example : option_map w_dirs (match makedirs (mkW (A:=qc) [] ["/"]) "/cal/rec//x/" with Ok w => Some w | Err _ => None end) = Some ["/"; "/cal/rec//x"; "/cal/rec"; "/cal"; "/"].
Proof. reflexivity. Qed.

(* Frames of different sizes stop the calibration. *)
Theorem C91_sizes (A : arith) (s : sncal A) u v : sn_sum s = Some u -> length u <> length v -> sn_trigger s v = Err ValueError.
Proof. intros E N. unfold sn_trigger. rewrite E. destruct (Nat.eqb_spec (length u) (length v)); [contradiction|reflexivity]. Qed.
Print Assumptions C91_sizes.
