(* C75: subtraction of the reference and filtering of the slopes. *)
From Coq Require Import String List ZArith Bool PeanoNat Lia QArith Qcanon Field Field_theory Permutation.
From Verif Require Import PyBase PyLemmas Arith ArithLemmas SumLemmas FilterSpec NpModel NpSpec NpProofs NpSegments VecModel
  SlopesModel SlopesSpec SlopesProofs ExtModel SlopecModel SlopecSpec SlopecProofs PostSpec Properties_Slopes Properties_Filter Properties_Pyramid.
Import ListNotations.
Local Open Scope nat_scope.

(* A slope vector with n X slopes and n Y slopes, in either layout *)
Definition paired (A : arith) (s : slopes A) (n : nat) : Prop :=
  halves (2 * n) (sl_ix s) (sl_iy s) /\ length (sl_ix s) = n /\ length (sl_iy s) = n /\ length (sl_val s) = 2 * n.

(* Both layouts have n X slopes and n Y slopes *)
Lemma new_paired A (v : vec A) n inter : length v = 2 * n -> paired A (new_slopes A v inter) n.
Proof.
  intros L. assert (D : 2 * n / 2 = n) by (rewrite Nat.mul_comm; apply Nat.div_mul; lia). unfold paired. split; [|split; [|split]].
  - rewrite <- L. apply (C56_construction A). right. exists n. lia.
  - unfold new_slopes. cbn [sl_ix]. rewrite L, D. destruct inter; unfold inter_x; rewrite ?map_length, arange_length; lia.
  - unfold new_slopes. cbn [sl_iy]. rewrite L, D. destruct inter; unfold inter_y, inter_x; rewrite ?map_length, arange_length; rewrite ?D; lia.
  - exact L.
Qed.

Lemma paired_parts A (s : slopes A) n : paired A s n -> exists x y, xslopes A s = Ok x /\ yslopes A s = Ok y /\ length x = n /\ length y = n.
Proof.
  intros (H & Lx & Ly & Lv). destruct (covered_list (sl_val s) (2 * n) (sl_ix s) (sl_iy s) H ltac:(lia)) as (Rx & Ry & _).
  unfold xslopes, yslopes. destruct (sl_val s) as [|z r] eqn:E.
  - assert (n = 0) by (cbn in Lv; lia). subst n. destruct (sl_ix s); [|discriminate]. destruct (sl_iy s); [|discriminate]. exists [], []. auto.
  - rewrite (take_list_map _ _ z Rx), (take_list_map _ _ z Ry). do 2 eexists. split; [reflexivity|]. split; [reflexivity|]. split; rewrite map_length; assumption.
Qed.

(* The reference is subtracted from the X slopes and from the Y slopes, each from its own,
   whatever the layouts of the two vectors. *)
Theorem C75_reference A (s sn : slopes A) n x y rx ry : paired A s n -> paired A sn n ->
  xslopes A s = Ok x -> yslopes A s = Ok y -> xslopes A sn = Ok rx -> yslopes A sn = Ok ry ->
  exists s', post_trigger A (mkPost (Some sn) None None None) s = Ok s' /\ paired A s' n /\ sl_inter s' = sl_inter s /\
    xslopes A s' = Ok (map2 sub x rx) /\ yslopes A s' = Ok (map2 sub y ry).
Proof.
  intros P Q X Y RX RY. destruct (paired_parts A s n P) as (x' & y' & X' & Y' & Lx & Ly). destruct (paired_parts A sn n Q) as (rx' & ry' & RX' & RY' & Lrx & Lry).
  assert (x' = x /\ y' = y /\ rx' = rx /\ ry' = ry) as (-> & -> & -> & ->) by (repeat split; congruence).
  destruct P as (H & Px & Py & Pv).
  assert (Ldx : length (map2 sub x rx) = length (sl_ix s)) by (rewrite map2_length; lia).
  assert (Ldy : length (map2 sub y ry) = length (sl_iy s)) by (rewrite map2_length; lia).
  destruct (C56_write_read A s (2 * n) _ _ H ltac:(unfold s_size; lia) Ldx Ldy) as (s1 & s2 & E1 & E2 & X2 & Y2 & Sz & Y1 & _).
  exists s2. unfold post_trigger. cbn [po_sn po_rec po_int po_filt]. unfold sub_ref. rewrite X, RX. cbn [bind]. rewrite (iop_same A sub x rx) by lia. cbn [bind].
  rewrite E1. cbn [bind]. rewrite Y1, Y. cbn [bind]. rewrite RY. cbn [bind]. rewrite (iop_same A sub y ry) by lia. cbn [bind]. rewrite E2. cbn [bind].
  split; [reflexivity|].
  unfold set_xslopes in E1. inv_bind E1. unfold set_yslopes in E2. inv_bind E2. injection E1 as <-. injection E2 as <-.
  split; [|split; [reflexivity|split; [exact X2|exact Y2]]]. unfold paired. cbn [sl_ix sl_iy with_val]. split; [exact H|]. split; [exact Px|]. split; [exact Py|].
  unfold s_size in Sz. rewrite Sz. exact Pv.
Qed.

Section Filter.
Variable A : arith.
Hypothesis HF : is_field A.
Let HF' : field_theory (@zer A) one add mul sub opp dvd inv (@eq A) := HF.
Add Field fA14 : HF'.
Variables (n m : nat) (N R : mat A).
Hypotheses (SN : shape N n m) (SR : shape R n m) (Nz : 0 < n).

Lemma elem_in (M : mat A) i : shape M n m -> i < n -> length (nth i M []) = m.
Proof. intros [L H] Hi. apply H, nth_In. lia. Qed.
Lemma vm_ok (v : vec A) : length v = n -> vm A v R = Ok (map (amplitude n R (fun k => nth k v zer)) (seq 0 m)).
Proof.
  intros L. destruct SR as [LR HR]. unfold vm. rewrite L, LR, Nat.eqb_refl. f_equal.
  assert (Lh : length (hd [] R) = m). { destruct R as [|r rs]; [cbn in LR; lia|]. apply HR. now left. }
  rewrite Lh. apply map_ext_in. intros j Hj. apply in_seq in Hj. rewrite (dot_sumn A _ _ n) by (unfold col; rewrite ?map_length; lia).
  apply sumn_ext. intros k Hk. f_equal. unfold col, elem. rewrite (nth_indep (map (fun r => nth j r zer) R) zer ((fun r => nth j r zer) [])) by (rewrite map_length; lia).
  now rewrite (map_nth (fun r => nth j r zer)).
Qed.
Lemma mvr_ok (c : nat -> A) : mvr A N (map c (seq 0 m)) = Ok (map (of_modes m N c) (seq 0 n)).
Proof.
  destruct SN as [LN HN]. unfold mvr. replace (forallb _ N) with true.
  2:{ symmetry. apply forallb_forall. intros r Hr. rewrite map_length, seq_length. apply Nat.eqb_eq. now apply HN. }
  f_equal. unfold mv. rewrite (map_nth_seq _ N []), LN. apply map_ext_in. intros i Hi. apply in_seq in Hi.
  rewrite (dot_sumn A _ _ m); [|apply elem_in; auto; lia|now rewrite map_length, seq_length]. apply sumn_ext. intros j Hj. now rewrite nth_map_seq.
Qed.

(* the filtered vector *)
Definition filt (v : nat -> A) (i : nat) : A := sub (v i) (of_modes m N (amplitude n R v) i).
Lemma apply_ok s : length (sl_val s) = n ->
  post_trigger A (mkPost None None (Some N) (Some R)) s = Ok (with_val A s (map (filt (fun k => nth k (sl_val s) zer)) (seq 0 n))).
Proof.
  intros L. unfold post_trigger. cbn [po_sn po_rec po_int po_filt bind]. unfold apply_filter. rewrite (vm_ok (sl_val s) L). cbn [bind]. rewrite mvr_ok. cbn [bind].
  rewrite (iop_same A) by (rewrite map_length, seq_length; exact L). cbn [bind]. do 2 f_equal. etransitivity; [apply (f_equal (fun l => map2 sub l _)); exact (map_seq_nth' (sl_val s) zer n L)|].
  exact (map2_map sub (fun k => nth k (sl_val s) zer) (of_modes m N (amplitude n R (fun k => nth k (sl_val s) zer))) (seq 0 n)).
Qed.

(* The filter takes away the slopes of the modes that the reconstructor measures. *)
Theorem C75_filter s : length (sl_val s) = n ->
  exists s', post_trigger A (mkPost None None (Some N) (Some R)) s = Ok s' /\ sl_inter s' = sl_inter s /\ length (sl_val s') = n /\
    forall i, i < n -> nth i (sl_val s') zer =
      sub (nth i (sl_val s) zer) (of_modes m N (amplitude n R (fun k => nth k (sl_val s) zer)) i).
Proof.
  intros L. eexists. split; [now apply apply_ok|]. cbn [sl_inter sl_val with_val]. rewrite map_length, seq_length. split; [reflexivity|]. split; [reflexivity|].
  intros i Hi. now rewrite nth_map_seq.
Qed.

Lemma amplitude_ext u v j : (forall k, k < n -> u k = v k) -> amplitude n R u j = amplitude n R v j.
Proof. intros H. apply sumn_ext. intros k Hk. now rewrite H. Qed.
Lemma of_modes_ext c d i : (forall j, j < m -> c j = d j) -> of_modes m N c i = of_modes m N d i.
Proof. intros H. apply sumn_ext. intros k Hk. now rewrite H. Qed.
Lemma amplitude_comb a b u v j : amplitude n R (fun k => add (mul a (u k)) (mul b (v k))) j = add (mul a (amplitude n R u j)) (mul b (amplitude n R v j)).
Proof.
  unfold amplitude. rewrite <- !(sumn_scale A HF), <- (sumn_add A HF). apply sumn_ext. intros k _. ring.
Qed.
Lemma of_modes_comb a b c d i : of_modes m N (fun j => add (mul a (c j)) (mul b (d j))) i = add (mul a (of_modes m N c i)) (mul b (of_modes m N d i)).
Proof.
  unfold of_modes. rewrite <- !(sumn_scale A HF), <- (sumn_add A HF). apply sumn_ext. intros k _. ring.
Qed.

(* It is linear. *)
Theorem C75_filter_linear a b s1 s2 s3 : length (sl_val s1) = n -> length (sl_val s2) = n -> length (sl_val s3) = n ->
  (forall i, i < n -> nth i (sl_val s3) zer = add (mul a (nth i (sl_val s1) zer)) (mul b (nth i (sl_val s2) zer))) ->
  exists t1 t2 t3, post_trigger A (mkPost None None (Some N) (Some R)) s1 = Ok t1 /\ post_trigger A (mkPost None None (Some N) (Some R)) s2 = Ok t2 /\
    post_trigger A (mkPost None None (Some N) (Some R)) s3 = Ok t3 /\
    forall i, i < n -> nth i (sl_val t3) zer = add (mul a (nth i (sl_val t1) zer)) (mul b (nth i (sl_val t2) zer)).
Proof.
  intros L1 L2 L3 E. do 3 eexists. split; [now apply apply_ok|]. split; [now apply apply_ok|]. split; [now apply apply_ok|].
  intros i Hi. cbn [sl_val with_val]. rewrite !nth_map_seq by exact Hi. unfold filt. rewrite (E i Hi).
  rewrite (of_modes_ext _ (fun j => add (mul a (amplitude n R (fun k => nth k (sl_val s1) zer) j)) (mul b (amplitude n R (fun k => nth k (sl_val s2) zer) j)))).
  - rewrite of_modes_comb. ring.
  - intros j _. rewrite <- amplitude_comb. apply amplitude_ext. exact E.
Qed.

Section Inverse.
Hypothesis I : measures n m N R.
Lemma amplitude_modes c j : j < m -> amplitude n R (of_modes m N c) j = c j.
Proof.
  intros Hj. unfold amplitude, of_modes.
  transitivity (sumn m (fun l => mul (sumn n (fun k => mul (elem R k j) (elem N k l))) (c l))).
  - transitivity (sumn n (fun k => sumn m (fun l => mul (mul (elem R k j) (elem N k l)) (c l)))).
    + apply sumn_ext. intros k _. rewrite <- (sumn_scale_r A HF). apply sumn_ext. intros l _. ring.
    + rewrite (sumn_swap A HF). apply sumn_ext. intros l _. rewrite <- (sumn_scale_r A HF). reflexivity.
  - rewrite (sumn_single A HF m j _ Hj).
    + rewrite (I j j Hj Hj), Nat.eqb_refl. ring.
    + intros l Hl Nl. rewrite (I j l Hj Hl). destruct (Nat.eqb_spec j l) as [Q|Q]; [congruence|]. ring.
Qed.
Lemma filt_amplitude v j : j < m -> amplitude n R (filt v) j = zer.
Proof.
  intros Hj. transitivity (add (mul one (amplitude n R v j)) (mul (opp one) (amplitude n R (of_modes m N (amplitude n R v)) j))).
  - rewrite <- amplitude_comb. apply amplitude_ext. intros k _. unfold filt. ring.
  - rewrite amplitude_modes by exact Hj. ring.
Qed.

(* If the reconstructor measures the modes of the interaction matrix, the filtered slopes
   contain none of the modes; filtering them again does nothing. *)
Theorem C75_filter_removes s : length (sl_val s) = n ->
  exists s', post_trigger A (mkPost None None (Some N) (Some R)) s = Ok s' /\
    (forall j, j < m -> amplitude n R (fun k => nth k (sl_val s') zer) j = zer) /\
    exists s'', post_trigger A (mkPost None None (Some N) (Some R)) s' = Ok s'' /\ sl_val s'' = sl_val s'.
Proof.
  intros L. eexists. split; [now apply apply_ok|]. set (s' := with_val A s _).
  assert (Am : forall j, j < m -> amplitude n R (fun k => nth k (sl_val s') zer) j = zer).
  { intros j Hj. rewrite <- (filt_amplitude (fun k => nth k (sl_val s) zer) j Hj). apply amplitude_ext. intros k Hk. unfold s'. cbn [sl_val with_val]. now rewrite nth_map_seq. }
  split; [exact Am|]. assert (L' : length (sl_val s') = n) by (unfold s'; cbn [sl_val with_val]; now rewrite map_length, seq_length).
  eexists. split; [now apply apply_ok|]. cbn [sl_val with_val]. etransitivity; [|symmetry; exact (map_seq_nth' (sl_val s') zer n L')]. apply map_ext_in. intros i Hi. apply in_seq in Hi.
  unfold filt. rewrite (of_modes_ext _ (fun _ => zer)) by exact Am. unfold of_modes. rewrite (sumn_zero A HF); [ring|]. intros. ring.
Qed.

(* Slopes made of the modes are removed entirely; slopes without any of them do not change. *)
Theorem C75_filter_modes s c : length (sl_val s) = n -> (forall i, i < n -> nth i (sl_val s) zer = of_modes m N c i) ->
  exists s', post_trigger A (mkPost None None (Some N) (Some R)) s = Ok s' /\ sl_val s' = repeat zer n.
Proof.
  intros L E. eexists. split; [now apply apply_ok|]. cbn [sl_val with_val]. rewrite repeat_map_seq. apply map_ext_in. intros i Hi. apply in_seq in Hi.
  unfold filt. rewrite (E i ltac:(lia)). rewrite (of_modes_ext (amplitude n R (fun k => nth k (sl_val s) zer)) c); [ring|].
  intros j Hj. rewrite <- (amplitude_modes c j Hj). now apply amplitude_ext.
Qed.
End Inverse.
Theorem C75_filter_keeps s : length (sl_val s) = n -> (forall j, j < m -> amplitude n R (fun k => nth k (sl_val s) zer) j = zer) ->
  exists s', post_trigger A (mkPost None None (Some N) (Some R)) s = Ok s' /\ sl_val s' = sl_val s.
Proof.
  intros L E. eexists. split; [now apply apply_ok|]. cbn [sl_val with_val]. etransitivity; [|symmetry; exact (map_seq_nth' (sl_val s) zer n L)]. apply map_ext_in. intros i Hi. apply in_seq in Hi.
  unfold filt. rewrite (of_modes_ext _ (fun _ => zer)) by exact E. unfold of_modes. rewrite (sumn_zero A HF); [ring|]. intros. ring.
Qed.
End Filter.

(* The matrices of the filter are accepted as a pair or one by one, but not in both ways,
   and not one without the other. *)
Theorem C75_construction A sn rec fint frec pair :
  (exists p, post_init A sn rec fint frec pair = Ok p) <->
  match pair with Some _ => fint = None /\ frec = None | None => (fint = None <-> frec = None) end.
Proof.
  unfold post_init. destruct pair as [[i r]|], fint as [a|], frec as [b|]; split; try (intros [p E]; discriminate);
  try (intros H; eexists; reflexivity); intros H; try (split; congruence); try (destruct H as [H1 H2]; try discriminate);
  try (now destruct (H1 eq_refl)); try (now destruct (H2 eq_refl)); try (specialize (H2 eq_refl); discriminate); try (specialize (H1 eq_refl); discriminate).
Qed.

(* A pyramid sensor with a reference gives, after any history, the slopes without it minus
   the reference, and the same counts. *)
Theorem C75_pyramid ind npix (roof : bool) norm thr inter hist pix sn rx ry : four_pupils ind npix ->
  (forall f, In f hist -> length f = npix) -> length pix = npix -> paired extar sn (length ind) ->
  xslopes extar sn = Ok rx -> yslopes extar sn = Ok ry ->
  exists o o' x y, pyr_session roof ind no_post false norm thr false inter (hist ++ [pix]) = Ok o /\
    pyr_session roof ind (mkPost (Some sn) None None None) false norm thr false inter (hist ++ [pix]) = Ok o' /\
    xslopes extar (so_slopes o) = Ok x /\ yslopes extar (so_slopes o) = Ok y /\
    xslopes extar (so_slopes o') = Ok (map2 esub x rx) /\ yslopes extar (so_slopes o') = Ok (map2 esub y ry) /\
    so_flux o' = so_flux o /\ so_total o' = so_total o /\ so_mean o' = so_mean o /\ sl_inter (so_slopes o') = inter.
Proof.
  intros G F L Psn RX RY. destruct (session_last ind npix G roof norm thr inter hist pix F L) as (o & E & X & Y & Fl & T & Me & Il & _).
  set (p := mkPost (Some sn) None None None). destruct (pyr_init_total ind npix G roof p norm thr false inter) as (c & o0 & Ei & Ili).
  assert (Pc : py_post c = p) by (rewrite (proj2 (pyr_init_ok ind npix G _ _ _ _ _ _ _ _ _ Ei)); reflexivity).
  assert (K0 := proj1 (pyr_init_ok ind npix G _ _ _ _ _ _ _ _ _ Ei)). cbv iota in K0.
  (* a trigger *)
  assert (Step : forall o1 f, out_ok o1 (length ind) (length ind) -> length f = npix -> exists o2 o3, pyr_code c o1 f = Ok o2 /\ pyr_trigger c o1 f = Ok o3 /\
     out_ok o3 (length ind) (length ind) /\
     xslopes extar (so_slopes o3) = Ok (map2 esub (map (fun i => normalised (pyr_inv ind norm false f thr []) (sig_x roof ind f thr i)) (seq 0 (length ind))) rx) /\
     yslopes extar (so_slopes o3) = Ok (map2 esub (map (fun i => normalised (pyr_inv ind norm false f thr []) (sig_y roof ind f thr i)) (seq 0 (length ind))) ry) /\
     so_flux o3 = map (light4 ind f thr) (seq 0 (length ind)) /\ so_total o3 = total_light ind f thr /\
     so_mean o3 = ediv (Fin (total_light ind f thr)) (Fin (qnat (length ind))) /\ sl_inter (so_slopes o3) = sl_inter (so_slopes o1)).
  { intros o1 f K1 Lf. destruct (pyr_code_ok ind npix G roof p norm thr inter c o1 o0 f Ei Lf K1) as (o2 & E2 & (Kh & Kx & Ky & Kv & Kf) & X2 & Y2 & F2 & T2 & M2 & I2).
    destruct (C75_reference extar (so_slopes o2) sn (length ind) _ _ rx ry (conj Kh (conj Kx (conj Ky Kv))) Psn X2 Y2 RX RY) as (s' & Es & (Ph & Px & Py & Pv) & Is & Xs & Ys).
    exists o2, (mkOut s' (so_flux o2) (so_total o2) (so_mean o2)). split; [exact E2|]. split.
    { unfold pyr_trigger. rewrite E2. cbn [bind]. unfold finish. rewrite Pc. unfold p. rewrite Es. reflexivity. }
    cbn [so_slopes so_flux so_total so_mean]. split; [exact (conj Ph (conj Px (conj Py (conj Pv Kf))))|]. repeat (split; [assumption|]). congruence. }
  assert (Run : forall h o1, out_ok o1 (length ind) (length ind) -> (forall f, In f h -> length f = npix) ->
     exists o2, pyr_run c o1 h = Ok o2 /\ out_ok o2 (length ind) (length ind) /\ sl_inter (so_slopes o2) = sl_inter (so_slopes o1)).
  { induction h as [|f h IH]; intros o1 K1 Fh; [exists o1; exact (conj eq_refl (conj K1 eq_refl))|].
    destruct (Step o1 f K1 (Fh f (or_introl eq_refl))) as (o2 & o3 & _ & E3 & K3 & _ & _ & _ & _ & _ & I3).
    destruct (IH o3 K3 (fun g Hg => Fh g (or_intror Hg))) as (o4 & E4 & K4 & I4). exists o4. unfold pyr_run in *. cbn [fold_res]. rewrite E3. cbn [bind].
    split; [exact E4|]. split; [exact K4|congruence]. }
  destruct (Run hist o0 K0 F) as (o1 & E1 & K1 & I1). destruct (Step o1 pix K1 L) as (o2 & o3 & _ & E3 & K3 & X3 & Y3 & F3 & T3 & M3 & I3).
  exists o, o3. do 2 eexists. split; [exact E|]. split.
  { unfold pyr_session. rewrite Ei. cbn [bind fst snd]. unfold pyr_run in *. rewrite fold_res_app, E1. cbn [bind fold_res]. now rewrite E3. }
  split; [exact X|]. split; [exact Y|]. split; [exact X3|]. split; [exact Y3|]. repeat split; congruence.
Qed.

(* two slopes per part; one mode, measured by the mean of the X slopes *)
Definition N1 : mat qc := [[qi 1]; [qi 1]; [qi 0]; [qi 0]].
Definition R1 : mat qc := [[qf 1 2]; [qf 1 2]; [qi 0]; [qi 0]].
Lemma N1_R1 : measures 4 1 N1 R1.
Proof. intros j l Hj Hl. assert (j = 0) by lia. assert (l = 0) by lia. subst. apply Qc_is_canon. vm_compute. reflexivity. Qed.
Example C75_example :
  (s <- post_trigger qc (mkPost (Some (new_slopes qc (map qi [1; 2; 3; 4]%Z) true)) None None None) (new_slopes qc (map qi [9; 9; 9; 9]%Z) false) ;;
   Ok (map this (sl_val s))) = Ok [8; 6; 7; 5]%Q /\
  (s <- post_trigger qc (mkPost None None (Some N1) (Some R1)) (new_slopes qc (map qi [5; 1; 7; 8]%Z) false) ;; Ok (map this (sl_val s))) = Ok [2; -2; 7; 8]%Q /\
  (s <- post_trigger qc (mkPost None None (Some N1) (Some R1)) (new_slopes qc (map qi [3; 3; 0; 0]%Z) false) ;; Ok (map this (sl_val s))) = Ok [0; 0; 0; 0]%Q.
Proof. vm_compute. repeat split. Qed.

(* Claim: a matrix applied to the slopes that does not give as many values as there are slopes
   is rejected.  A matrix with one column is accepted, and all slopes become equal. *)
Theorem C75_one_column_refuted : exists R s s', shape R 4 1 /\ length (sl_val s) = 4 /\
  post_trigger qc (mkPost None (Some R) None None) s = Ok s' /\ map this (sl_val s') = [3; 3; 3; 3]%Q /\
  post_trigger qc (mkPost None (Some (map (fun r => r ++ r) R)) None None) s = Err ValueError.
Proof.
  exists R1, (new_slopes qc (map qi [5; 1; 7; 8]%Z) false). eexists. split; [split; [reflexivity|intros r H; repeat (destruct H as [<-|H]; [reflexivity|]); contradiction]|].
  split; [reflexivity|]. split; [reflexivity|]. split; vm_compute; reflexivity.
Qed.

(* Claim: like the subtraction of the reference, filtering gives the same X and Y slopes in
   both layouts. *)
Theorem C75_layout_refuted : exists s t s' t', xslopes qc s = xslopes qc t /\ yslopes qc s = yslopes qc t /\
  post_trigger qc (mkPost None None (Some N1) (Some R1)) s = Ok s' /\ post_trigger qc (mkPost None None (Some N1) (Some R1)) t = Ok t' /\
  xslopes qc s' <> xslopes qc t'.
Proof.
  exists (new_slopes qc (map qi [5; 1; 7; 8]%Z) false), (new_slopes qc (map qi [5; 7; 1; 8]%Z) true). do 2 eexists.
  split; [vm_compute; reflexivity|]. split; [vm_compute; reflexivity|]. split; [reflexivity|]. split; [reflexivity|]. vm_compute. discriminate.
Qed.

Print Assumptions C75_reference.
Print Assumptions C75_filter.
Print Assumptions C75_filter_linear.
Print Assumptions C75_filter_removes.
Print Assumptions C75_filter_modes.
Print Assumptions C75_filter_keeps.
Print Assumptions C75_construction.
Print Assumptions C75_pyramid.
Print Assumptions C75_one_column_refuted.
Print Assumptions C75_layout_refuted.
