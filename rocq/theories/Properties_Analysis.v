(* C85: modal analysis and multiplication by a matrix *)
From Coq Require Import List ZArith Bool Arith Lia QArith Qcanon.
From Verif Require Import PyBase PyLemmas Arith ArithLemmas FilterSpec SumLemmas NpModel NpSegments FitsModel RebinModel CutModel CutSpec VecModel DmModel DmSpec DmProofs FieldModel FieldSpec FieldProofs ExtModel AnalysisModel AnalysisSpec AnalysisProofs
  Properties_Dm Properties_Filter Properties_Field.
Import ListNotations.
Local Open Scope ar_scope.

Section P.
Context {A : arith}.
Hypothesis HF : is_field A.
Variable nz : A -> bool.
Hypothesis Hnz : forall x, nz x = false -> x = 0.
Variable pinv : arr2 A -> arr2 A.
Variable unwrap : arr2 A -> arr2 A.
Variable std : vec A -> A.
Let HF' : field_theory (@zer A) one add mul sub opp dvd inv eq := HF.
Add Field fA19 : HF'.

Definition inside (mask : arr2 A) (i j : nat) : bool := nz (entry 0 mask i j).
(* an analysis in a mask of R x C pixels, whose pixels are [px], with the matrix P *)
Definition analyser (c : ma_cfg A) (R C : nat) (px : list (nat * nat)) (n : nat) (P : nat -> nat -> A) : Prop :=
  a_r (ma_mask A c) = R /\ a_c (ma_mask A c) = C /\ pixels_of (inside (ma_mask A c)) R C px /\ image (length px) n P (ma_inv A c).
(* phase of a field at the k-th pixel *)
Definition phase (e : efield A) (px : list (nat * nat)) (k : nat) : A := ph_at e (fst (nth k px (0, 0)%nat)) (snd (nth k px (0, 0)%nat)).
Definition outputs_of (n : nat) (st : ma_state A) : Prop := length (fst (mo_modes A st)) = n.

Lemma in_mask_ok c R C px n P e : analyser c R C px n P -> ma_wave A c = false -> sized e R C ->
  in_mask A nz unwrap c e = Ok (map (fun k => phase e px k) (seq 0 (length px))).
Proof.
  intros (Hr & Hc & Hp & HI) Hw [_ He]. unfold in_mask. rewrite Hw. cbn [bind]. rewrite <- (pixels_unique nz _ R C px Hr Hc Hp). destruct Hp as [Hp _]. destruct He as (Er & Ec & _).
  rewrite at_places_ok by (intros [i j] H; apply Hp in H as (H1 & H2 & _); cbn; lia). f_equal. rewrite (map_seq_nth px (0, 0)%nat) at 1. rewrite map_map. reflexivity.
Qed.
Lemma modes_at c R C px n P ph : analyser c R C px n P -> length ph = length px -> modes_of A c ph = Ok (map (coefficient (length px) (fun k => nth k ph 0) P) (seq 0 n)).
Proof. intros (_ & _ & _ & HI) Hl. now apply modes_ok. Qed.

(* After a trigger the output holds the coefficients of the phase inside the mask. *)
Theorem C85_modes c R C px n P e st t lst : analyser c R C px n P -> ma_wave A c = false -> sized e R C -> outputs_of n st ->
  ma_trigger A nz unwrap std c st t (Some e) lst =
  Ok (mkMAS A (map (coefficient (length px) (phase e px) P) (seq 0 n), t) (mo_list A st) (if ma_rms A c then (std (map (phase e px) (seq 0 (length px))), t) else mo_rms A st)).
Proof.
  intros Ha Hw He Hs. unfold ma_trigger, analyse. rewrite (in_mask_ok c R C px n P e Ha Hw He). cbn [bind]. rewrite (modes_at c R C px n P _ Ha) by (rewrite map_length, seq_length; reflexivity). cbn [bind fst snd].
  unfold outputs_of in Hs. rewrite assign_all_ok by (rewrite map_length, seq_length; congruence). cbn [bind]. rewrite assign_all_ok by reflexivity. cbn [bind]. f_equal. f_equal. f_equal.
  apply map_ext. intros j. unfold coefficient. apply sumn_ext. intros k Hk. now rewrite nth_map_seq.
Qed.

(* Wavefronts made of modes give back their coefficients. *)
Theorem C85_exact c R C px n F P e st t lst coeffs : analyser c R C px n P -> ma_wave A c = false -> sized e R C -> outputs_of n st -> inverts n (length px) F P ->
  (forall k, (k < length px)%nat -> phase e px k = blend n coeffs F k) ->
  exists st', ma_trigger A nz unwrap std c st t (Some e) lst = Ok st' /\ mo_modes A st' = (map coeffs (seq 0 n), t).
Proof.
  intros Ha Hw He Hs Hi Hp. rewrite (C85_modes c R C px n P e st t lst Ha Hw He Hs). eexists. split; [reflexivity|]. cbn [mo_modes]. f_equal. apply map_ext_in. intros j Hj. apply in_seq in Hj.
  rewrite <- (coefficient_blend HF n (length px) F P coeffs j Hi) by lia. unfold coefficient. apply sumn_ext. intros k Hk. now rewrite Hp.
Qed.

(* The coefficients are linear in the wavefront. *)
Theorem C85_linear c R C px n P e1 e2 e3 a b : analyser c R C px n P -> ma_wave A c = false -> sized e1 R C -> sized e2 R C -> sized e3 R C ->
  (forall k, (k < length px)%nat -> phase e3 px k = a * phase e1 px k + b * phase e2 px k) ->
  forall st t lst s1 s2, outputs_of n st -> ma_trigger A nz unwrap std c st t (Some e1) lst = Ok s1 -> ma_trigger A nz unwrap std c st t (Some e2) lst = Ok s2 ->
  exists s3, ma_trigger A nz unwrap std c st t (Some e3) lst = Ok s3 /\ fst (mo_modes A s3) = map2 (fun x y => a * x + b * y) (fst (mo_modes A s1)) (fst (mo_modes A s2)).
Proof.
  intros Ha Hw H1 H2 H3 Hp st t lst s1 s2 Hs T1 T2. rewrite (C85_modes c R C px n P) in T1, T2 |- * by assumption. injection T1 as <-. injection T2 as <-. eexists. split; [reflexivity|]. cbn [mo_modes fst].
  rewrite map2_map. apply map_ext. intros j. unfold coefficient. rewrite (sumn_ext _ _ (fun k => a * (phase e1 px k * P k j) + b * (phase e2 px k * P k j))) by (intros k Hk; rewrite Hp by exact Hk; ring).
  rewrite (sumn_add A HF), !(sumn_scale A HF). reflexivity.
Qed.

(* Nothing outside the mask matters, also when the phase is unwrapped. *)
Theorem C85_outside c e1 e2 R C st t lst : a_r (ma_mask A c) = R -> a_c (ma_mask A c) = C -> sized e1 R C -> sized e2 R C ->
  (forall i j, (i < R)%nat -> (j < C)%nat -> inside (ma_mask A c) i j = true -> ph_at e1 i j = ph_at e2 i j) ->
  ma_trigger A nz unwrap std c st t (Some e1) lst = ma_trigger A nz unwrap std c st t (Some e2) lst.
Proof.
  intros Hr Hc [_ H1] [_ H2] H. assert (E : in_mask A nz unwrap c e1 = in_mask A nz unwrap c e2).
  { unfold in_mask. pose proof H1 as (R1 & C1 & _). pose proof H2 as (R2 & C2 & _). destruct (ma_wave A c); cbn [bind].
    - f_equal. unfold inplace2. rewrite R1, C1, R2, C2, Hr, Hc. unfold fits1. rewrite !Nat.eqb_refl. cbn [orb andb bind]. f_equal. f_equal.
      apply (image_eq (A:=A) R C (fun i j => ent A (ef_ph A e1) i j * ent A (ma_mask A c) (src R i) (src C j))); [apply tab_image|].
      eapply image_ext; [apply tab_image|]. intros i j Hi Hj. cbn beta. assert (S : forall k x, (x < k)%nat -> src k x = x) by (intros; now apply src_id). rewrite !S by assumption.
      destruct (inside (ma_mask A c) i j) eqn:I; [f_equal; symmetry; exact (H i j Hi Hj I)|]. apply Hnz in I. unfold ent. unfold entry in I. rewrite I. ring.
    - assert (G : forall e, a_r (ef_ph A e) = R -> a_c (ef_ph A e) = C -> at_places A (ef_ph A e) (places A nz (ma_mask A c)) = Ok (map (fun p => ent A (ef_ph A e) (fst p) (snd p)) (places A nz (ma_mask A c)))).
      { intros e Er Ec. apply at_places_ok. intros [i j] Hp. apply in_places in Hp as (P1 & P2 & _). cbn. lia. }
      rewrite !G by assumption. f_equal. apply map_ext_in. intros [i j] Hp. apply in_places in Hp as (P1 & P2 & P3). rewrite Hr in P1. rewrite Hc in P2. exact (H i j P1 P2 P3). }
  unfold ma_trigger, analyse. now rewrite E.
Qed.

(* A mirror and an analysis with the same influence functions: the analysis of the surface gives
   the command, with the sign of the mirror. *)
Theorem C85_mirror g R C px n F sign dmc dst hist x c st cg cv (wave : bool) st2 t lst e :
  a_r (if_mask A g) = R -> a_c (if_mask A g) = C -> pixels_of (inside (if_mask A g)) R C px ->
  image n (length px) F (if_mat A g) -> image (length px) n (entry 0 (pinv (if_mat A g))) (pinv (if_mat A g)) -> inverts n (length px) F (entry 0 (pinv (if_mat A g))) ->
  dm_init (a_rows (if_mat A g)) (length px) None None None None sign = Ok (dmc, dst) -> (forall y, In y hist -> (Nat.min n (length y) <= length x)%nat) -> length x = n ->
  ma_init A pinv (Some g) None None 1 false false = Ok (c, st, cg, cv) -> outputs_of n st2 ->
  exists dst', dm_run dmc dst (hist ++ [x]) = Ok dst' /\ exists layer, dm_layer A nz (if_mask A g) dst' = Ok layer /\ 
    (ef_ph A e = layer -> ef_A A e = if_mask A g -> exists st3, ma_trigger A nz unwrap std c st2 t (Some e) lst = Ok st3 /\ mo_modes A st3 = (map (fun v => sign * v) x, t)).
Proof.
  intros Hr Hc Hp If Ip Hi Hd Hh Hx Hm Hs. pose proof If as (Fr & Fc & Fl & Fe).
  assert (Ln : length (a_rows (if_mat A g)) = n) by exact Fr.
  destruct (C51_last_command A (a_rows (if_mat A g)) (length px) None None sign dmc dst 0 n hist x HF Hd) as (dst' & D1 & D2 & D3); [reflexivity|cbn; unfold zlen; now rewrite Ln|lia|intros y Hy; rewrite Nat.sub_0_r; now apply Hh|].
  exists dst'. split; [exact D1|]. pose proof (pixels_unique nz _ R C px Hr Hc Hp) as Ep.
  destruct (put_get (tab A (a_r (if_mask A g)) (a_c (if_mask A g)) (fun _ _ => 0)) (places A nz (if_mask A g)) (ds_phase dst')) as (layer & L1 & L2 & L3 & L4).
  { apply places_nodup. }
  { intros [i j] Hq. pose proof (tab_image (A:=A) (a_r (if_mask A g)) (a_c (if_mask A g)) (fun _ _ => 0)) as (T1 & T2 & _). rewrite T1, T2. apply in_places in Hq. cbn. tauto. }
  { now rewrite <- Ep. }
  exists layer. split; [exact L1|]. intros E1 E2.
  unfold ma_init in Hm. cbn [fewer bind fst snd] in Hm. destruct (Z.ltb_spec (Z.of_nat (a_c (ii_mat A (mkII A (pinv (if_mat A g)) (if_mask A g))))) 0) as [Q|Q]; [lia|]. injection Hm as <- <- <- <-.
  unfold ma_trigger, analyse, in_mask. cbn [ma_wave ma_mask ma_inv bind]. rewrite E1, L4. cbn [bind]. unfold modes_of. cbn [ma_inv ii_mat].
  rewrite (modes_ok (length px) n (entry 0 (pinv (if_mat A g))) _ (ds_phase dst') Ip D2). cbn [bind fst snd]. unfold outputs_of in Hs.
  rewrite assign_all_ok by (rewrite map_length, seq_length; congruence). cbn [bind]. rewrite assign_all_ok by reflexivity. cbn [bind]. eexists. split; [reflexivity|]. cbn [mo_modes]. f_equal.
  transitivity (map (fun j => sign * nth j x 0) (seq 0 n)); [|rewrite <- (map_map (fun j => nth j x 0) (fun v => sign * v)); f_equal; symmetry; exact (map_seq_nth' x 0 n Hx)]. apply map_ext_in. intros j Hj. apply in_seq in Hj.
  rewrite <- (coefficient_blend HF n (length px) F (entry 0 (pinv (if_mat A g))) (fun i => sign * nth i x 0) j Hi) by lia. unfold coefficient. apply sumn_ext. intros k Hk. f_equal.
  rewrite D3 by exact Hk. rewrite Nat.sub_0_r. unfold blend. rewrite <- (sumn_scale A HF). apply sumn_ext. intros i Hi'. cbn [Nat.add]. rewrite (Fe i k Hi' Hk). ring.
Qed.

(* Without the single input nothing is analysed. *)
Theorem C85_single c st t lst : ma_trigger A nz unwrap std c st t None lst = Err AttributeError.
Proof. reflexivity. Qed.
(* Lists of another length are refused. *)
Theorem C85_lists c st lst : lst <> [] -> length lst <> ma_ninputs A c -> ma_setup A c st lst = Err ValueError.
Proof. intros H N. unfold ma_setup. destruct lst; [contradiction H; reflexivity|]. destruct (Nat.eqb_spec (ma_ninputs A c) (length (e :: lst))); [congruence|reflexivity]. Qed.

(* MVM: the output is the product by the matrix; vectors of another size are refused. *)
Theorem C85_product Rm n m (M : nat -> nat -> A) x st0 t : image n m M Rm -> mvm_init A (Some Rm) = Ok st0 -> mvm_setup A Rm x = Ok tt ->
  forall st, length (fst st) = n -> mvm_trigger A Rm st t x = Ok (map (fun i => sumn m (fun j => M i j * nth j x 0)) (seq 0 n), t).
Proof.
  intros (Ir & Ic & L & E) _ Hset st Hl. unfold mvm_setup in Hset. rewrite Ic in Hset. destruct (Nat.eqb_spec (length x) m) as [Hx|]; [|discriminate Hset]. unfold mvm_trigger, matvec.
  replace (forallb (fun r : vec A => Nat.eqb (length r) (length x)) (a_rows Rm)) with true by (symmetry; apply forallb_forall; intros r Hr; apply Nat.eqb_eq; rewrite Hx; now apply L). cbn [bind].
  unfold a_r in Ir. rewrite assign_all_ok by (rewrite mv_length; congruence). cbn [bind]. f_equal. f_equal. unfold mv. rewrite (map_seq_nth' (a_rows Rm) [] n Ir) at 1. rewrite map_map. apply map_ext_in. intros i Hi. apply in_seq in Hi.
  rewrite (dot_sumn A _ _ m); [|apply L; apply nth_In; lia|exact Hx]. apply sumn_ext. intros j Hj. f_equal. apply E; lia.
Qed.
Theorem C85_refused Rm x : length x <> a_c Rm -> mvm_setup A Rm x = Err ValueError.
Proof. intros H. unfold mvm_setup. destruct (Nat.eqb_spec (length x) (a_c Rm)); [contradiction|reflexivity]. Qed.

(* Before the first trigger the outputs are zero, of the number of modes, and have never been generated. *)
Theorem C85_start f v nmodes ninputs wave rms c st f' v' : ma_init A pinv f v nmodes ninputs wave rms = Ok (c, st, f', v') ->
  mo_modes A st = (map (fun _ => 0) (seq 0 (Z.to_nat (ma_nmodes A c))), (-1)%Z) /\ mo_rms A st = (0, (-1)%Z) /\
  length (mo_list A st) = ninputs /\ (forall x, In x (mo_list A st) -> x = (None, (-1)%Z)) /\ (0 <= ma_nmodes A c)%Z /\
  (forall k, nmodes = Some k -> ma_nmodes A c = k) /\ ma_ninputs A c = ninputs /\ ma_wave A c = wave.
Proof.
  unfold ma_init. intros H. inv_bind H. destruct (match nmodes with Some k => k | None => Z.of_nat (a_c (ii_mat A (fst (fst a)))) end <? 0)%Z eqn:N; [discriminate|]. injection H as <- <- <- <-. cbn.
  split; [|split; [reflexivity|split; [apply repeat_length|split; [intros x Hx; now apply repeat_spec in Hx|split; [now apply Z.ltb_ge|split; [intros k ->; reflexivity|split; reflexivity]]]]]].
  f_equal. unfold zeros. generalize (Z.to_nat (match nmodes with Some k => k | None => Z.of_nat (a_c (ii_mat A (fst (fst a)))) end)) as m. intros m.
  generalize 0%nat as s0. induction m as [|m IH]; intros s0; cbn; [reflexivity|]. f_equal. apply IH.
Qed.
End P.

Section Q.
Local Open Scope Qc_scope.
(* No other coefficients are closer to the wavefront, for a pseudo-inverse. *)
Theorem C85_least nz unwrap std c R C px n F P e st t lst st' coeffs : analyser (A:=qc) nz c R C px n P -> ma_wave qc c = false -> sized e R C -> outputs_of n st -> pseudo (A:=qc) n (length px) F P ->
  ma_trigger qc nz unwrap std c st t (Some e) lst = Ok st' ->
  misfit (length px) (phase e px) (blend (A:=qc) n (fun j => nth j (fst (mo_modes qc st')) 0) F) <= misfit (length px) (phase e px) (blend (A:=qc) n coeffs F).
Proof.
  intros Ha Hw He Hs Hp T. rewrite (C85_modes (A:=qc) nz unwrap std c R C px n P e st t lst Ha Hw He Hs) in T. injection T as <-. cbn [mo_modes fst].
  pose proof (least_squares n (length px) F P (phase e px) coeffs Hp) as L. eapply Qcle_trans; [|exact L]. unfold misfit.
  match goal with |- ?a <= ?b => replace a with b; [apply Qcle_refl|] end. apply sumn_ext. intros k Hk.
  assert (B : blend (A:=qc) n (coefficient (A:=qc) (length px) (phase e px) P) F k = blend (A:=qc) n (fun j => nth j (map (coefficient (A:=qc) (length px) (phase e px) P) (seq 0 n)) 0) F k).
  { unfold blend. apply sumn_ext. intros j Hj. now rewrite nth_map_seq. }
  now rewrite B.
Qed.

Definition qnz (x : Qc) : bool := negb (is0 x).
Definition no_unwrap (a : arr2 Qc) : arr2 Qc := a.
Definition no_std (v : list Qc) : Qc := 0.
Definition wave2 (a b : Z) : efield qc := mkEF qc (img [[1; 1]; [1; 0]]%Z) (img [[a; b]; [a + b; 7]]%Z) (qi 1) (qi 1).
(* two modes on three pixels, and an inverse *)
Definition two_modes : ifunc qc := mkIF qc (img [[1; 0; 1]; [0; 1; 1]]%Z) (img [[1; 1]; [1; 0]]%Z).
Definition an_inverse (m : arr2 Qc) : arr2 Qc := mkA2 2%nat [[qf 2 3; qf (-1) 3]; [qf (-1) 3; qf 2 3]; [qf 1 3; qf 1 3]].
Definition see_modes (r : res (ma_state qc)) : res (list Q * Z * list (option (list Q) * Z)) :=
  match r with Ok s => Ok (map this (fst (mo_modes qc s)), snd (mo_modes qc s), map (fun x => (option_map (map this) (fst x), snd x)) (mo_list qc s)) | Err e => Err e end.
Definition run_ma (r : res (ma_cfg qc * ma_state qc * option (ifunc qc) * option (ifuncinv qc))) (t : Z) e lst :=
  x <- r ;; s <- ma_setup qc (fst (fst (fst x))) (snd (fst (fst x))) lst ;; ma_trigger qc qnz no_unwrap no_std (fst (fst (fst x))) s t e lst.
Example C85_example : see_modes (run_ma (ma_init qc an_inverse (Some two_modes) None None 1 false false) 5 (Some (wave2 3 (-2))) []) = Ok ([3; (-2)]%Q, 5%Z, [(None, (-1)%Z)]).
Proof. vm_compute. reflexivity. Qed.
Example C85_inverse_example : inverts (A:=qc) 2 3 (entry 0 (if_mat qc two_modes)) (entry 0 (an_inverse (if_mat qc two_modes))) /\ pseudo (A:=qc) 2 3 (entry 0 (if_mat qc two_modes)) (entry 0 (an_inverse (if_mat qc two_modes))).
Proof.
  split; [|split].
  - intros i j Hi Hj. destruct i as [|[|i]]; [| |lia]; (destruct j as [|[|j]]; [| |lia]); apply Qc_is_canon; vm_compute; reflexivity.
  - intros i k Hi Hk. destruct i as [|[|i]]; [| |lia]; (destruct k as [|[|[|k]]]; [| | |lia]); apply Qc_is_canon; vm_compute; reflexivity.
  - intros k l Hk Hl. destruct k as [|[|[|k]]]; [| | |lia]; (destruct l as [|[|[|l]]]; [| | |lia]); apply Qc_is_canon; vm_compute; reflexivity.
Qed.

(* Claim: fields given as a list are analysed. *)
Theorem C85_list_refuted : exists c st st1 l, ma_init qc an_inverse (Some two_modes) None None 1 false false = Ok (c, st, Some two_modes, None) /\ l = [wave2 1 2] /\
  ma_setup qc c st l = Ok st1 /\ ma_trigger qc qnz no_unwrap no_std c st1 1 None l = Err AttributeError.
Proof. do 4 eexists. split; [reflexivity|]. split; [reflexivity|]. split; reflexivity. Qed.
(* Claim: with a single input and a list, the outputs of the list hold its modes. *)
Theorem C85_both_refuted : exists l, l = [wave2 1 2] /\
  see_modes (run_ma (ma_init qc an_inverse (Some two_modes) None None 1 false false) 5 (Some (wave2 3 (-2))) l) = Ok ([3; (-2)]%Q, 5%Z, [(Some [0; 0]%Q, (-1)%Z)]).
Proof. eexists. split; [reflexivity|]. vm_compute. reflexivity. Qed.
(* Claim: the analysis leaves the influence function given to it as it was. *)
Theorem C85_cut_refuted : exists f f' c st v, ma_init qc an_inverse (Some f) None (Some 1%Z) 1 false false = Ok (c, st, Some f', v) /\ a_r (if_mat qc f) = 2%nat /\ a_r (if_mat qc f') = 1%nat.
Proof. exists two_modes. do 4 eexists. split; [reflexivity|]. split; reflexivity. Qed.
(* Claim: an inverse influence function can be cut to fewer modes (here as many as pixels). *)
Theorem C85_pixels_refuted : exists v e, a_r (ii_mat qc v) = 2%nat /\ a_c (ii_mat qc v) = 3%nat /\ see_modes (run_ma (ma_init qc an_inverse None (Some v) (Some 2%Z) 1 false false) 5 (Some e) []) = Err ValueError /\
  forall n, n = 1%Z \/ n = 3%Z -> exists w, see_modes (run_ma (ma_init qc an_inverse None (Some v) (Some n) 1 false false) 5 (Some e) []) = Ok w.
Proof.
  exists (mkII qc (img [[1; 2; 3]; [4; 5; 6]]%Z) (img [[1; 1]]%Z)), (mkEF qc (img [[1; 1]]%Z) (img [[1; 2]]%Z) (qi 1) (qi 1)). split; [reflexivity|]. split; [reflexivity|]. split; [vm_compute; reflexivity|].
  intros n [->| ->]; eexists; vm_compute; reflexivity.
Qed.
(* Claim: given both influence functions and inverse, the number of modes is obeyed. *)
Theorem C85_priority_refuted : exists v, see_modes (run_ma (ma_init qc an_inverse (Some two_modes) (Some v) (Some 1%Z) 1 false false) 5 (Some (wave2 3 (-2))) []) = Err ValueError /\
  see_modes (run_ma (ma_init qc an_inverse None (Some v) (Some 1%Z) 1 false false) 5 (Some (wave2 3 (-2))) []) = Ok ([3]%Q, 5%Z, [(None, (-1)%Z)]).
Proof. exists (mkII qc (an_inverse (if_mat qc two_modes)) (if_mask qc two_modes)). split; vm_compute; reflexivity. Qed.
End Q.

Print Assumptions C85_modes.
Print Assumptions C85_exact.
Print Assumptions C85_linear.
Print Assumptions C85_outside.
Print Assumptions C85_mirror.
Print Assumptions C85_single.
Print Assumptions C85_lists.
Print Assumptions C85_product.
Print Assumptions C85_refused.
Print Assumptions C85_least.
Print Assumptions C85_list_refuted.
Print Assumptions C85_both_refuted.
Print Assumptions C85_cut_refuted.
Print Assumptions C85_pixels_refuted.
Print Assumptions C85_priority_refuted.
Print Assumptions C85_start.
