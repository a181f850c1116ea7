(* Proofs about the slope computers. *)
From Coq Require Import String List ZArith Bool PeanoNat Lia QArith Qcanon Lqa Permutation Field Field_theory.
From Verif Require Import PyBase PyLemmas Arith ArithLemmas SumLemmas FilterSpec NpModel NpSpec NpProofs NpSegments VecModel
  SlopesModel SlopesSpec SlopesProofs RebinProofs CutProofs OpticalModel ExtModel QcTac SlopecModel SlopecSpec Properties_Slopes.
Import ListNotations.
Local Open Scope nat_scope.

Lemma above_pos thr x : above thr x = positive_part (x - thr)%Qc.
Proof.
  unfold above, positive_part. cbv zeta. destruct (qlt (x - thr) 0) eqn:E; destruct (Qclt_le_dec 0 (x - thr)) as [H|H]; auto.
  - exfalso. qc_prep. lra.
  - apply Qcle_antisym; [exact H|]. qclra.
Qed.
Lemma pos_ge x : (0 <= positive_part x)%Qc.
Proof. unfold positive_part. destruct (Qclt_le_dec 0 x); [apply Qclt_le_weak; assumption|apply Qcle_refl]. Qed.
Lemma light_ge ind pix thr k i : (0 <= light ind pix thr k i)%Qc.
Proof. apply pos_ge. Qed.
Lemma qn_qnat n : qn n = qnat n. Proof. reflexivity. Qed.
Lemma qnat_pos n : 0 < n -> (0 < qnat n)%Qc.
Proof. intros H. unfold Qclt, qnat. rewrite !this_q. change 0%Q with (inject_Z 0) at 1. rewrite <- Zlt_Qlt. lia. Qed.
Lemma qnat_ge n : (0 <= qnat n)%Qc.
Proof. unfold Qcle, qnat. rewrite !this_q. change 0%Q with (inject_Z 0) at 1. rewrite <- Zle_Qle. lia. Qed.

Lemma qsum_ge n f : (forall i, i < n -> (0 <= f i)%Qc) -> (0 <= qsum n f)%Qc.
Proof.
  unfold qsum. intros H. induction n as [|n IH]; [apply Qcle_refl|]. cbn [sumn].
  assert (P := H n ltac:(lia)). assert (Q := IH ltac:(intros; apply H; lia)). change (@add qc) with Qcplus. qclra.
Qed.
Lemma qsum_le n f g : (forall i, i < n -> (f i <= g i)%Qc) -> (qsum n f <= qsum n g)%Qc.
Proof.
  unfold qsum. intros H. induction n as [|n IH]; [apply Qcle_refl|]. cbn [sumn].
  assert (P := H n ltac:(lia)). assert (Q := IH ltac:(intros; apply H; lia)). change (@add qc) with Qcplus. qclra.
Qed.
Lemma qsum_term n f i : (forall i, i < n -> (0 <= f i)%Qc) -> i < n -> (f i <= qsum n f)%Qc.
Proof.
  unfold qsum. intros H L. induction n as [|n IH]; [lia|]. cbn [sumn]. change (@add qc) with Qcplus. destruct (Nat.eq_dec i n) as [->|N].
  - assert (Q := qsum_ge n f ltac:(intros; apply H; lia)). unfold qsum in Q. qclra.
  - assert (P := H n ltac:(lia)). assert (Q := IH ltac:(intros; apply H; lia) ltac:(lia)). qclra.
Qed.

Lemma qsum_list n (f : nat -> Qc) : vsum (A:=qc) (map f (seq 0 n)) = qsum n f.
Proof. exact (vsum_map_seq (A:=qc) f n). Qed.

(* the columns of the index array *)
Lemma pup_col_ok ind npix k : four_pupils ind npix -> k < 4 -> pup_col ind k = Ok (map (fun r => nth k r 0%Z) ind).
Proof.
  intros G L. unfold pup_col. apply map_res_pure. intros r Hr. destruct (G r Hr) as [E _].
  destruct (nth_error r k) eqn:Q; [now rewrite (nth_error_nth _ _ _ Q)|]. apply nth_error_None in Q. lia.
Qed.
Lemma valid_all ind npix k : four_pupils ind npix -> k < 4 -> valid_idx (map (fun r => nth k r 0%Z) ind) = map (fun r => nth k r 0%Z) ind.
Proof.
  intros G L. unfold valid_idx. induction ind as [|r ind IH]; [reflexivity|]. cbn [map filter].
  destruct (G r (or_introl eq_refl)) as [E R]. assert (P := R (nth k r 0%Z) ltac:(apply nth_In; lia)).
  replace (0 <=? nth k r 0)%Z with true by (symmetry; apply Z.leb_le; lia). f_equal. apply IH. intros r' H'. apply G. now right.
Qed.
Lemma map_nth_seq {V W} (f : V -> W) (l : list V) d : map f l = map (fun i => f (nth i l d)) (seq 0 (length l)).
Proof. rewrite (map_seq_nth l d) at 1. now rewrite map_map. Qed.
Lemma take_list_map {V} (l : list V) is d : in_range (zlen l) is -> take_list l is = Ok (map (fun i => nth (Z.to_nat i) l d) is).
Proof.
  intros H. apply take_list_at; [exact H|]. split; [apply map_length|]. intros k p E.
  assert (P := H p (nth_error_In _ _ E)). unfold zlen in P. split; [exact P|].
  rewrite (map_nth_error _ _ _ E). symmetry. apply nth_error_nth'. lia.
Qed.

Lemma pup_light ind pix thr k : four_pupils ind (length pix) -> k < 4 ->
  take_list (map (above thr) pix) (map (fun r => nth k r 0%Z) ind) = Ok (map (light ind pix thr k) (seq 0 (length ind))).
Proof.
  intros G L. assert (R : in_range (zlen (map (above thr) pix)) (map (fun r => nth k r 0%Z) ind)).
  { intros i Hi. apply in_map_iff in Hi as (r & <- & Hr). destruct (G r Hr) as [E P]. unfold zlen. rewrite map_length.
    apply P. apply nth_In. lia. }
  rewrite (take_list_map _ _ (above thr 0%Qc)) by exact R. f_equal. rewrite map_map, (map_nth_seq _ ind []).
  apply map_ext_in. intros i Hi. apply in_seq in Hi. unfold light. rewrite map_nth. apply above_pos.
Qed.

Lemma bcast_tab (f : Qc -> Qc -> Qc) (u v : nat -> Qc) n :
  bcast (A:=qc) f (map u (seq 0 n)) (map v (seq 0 n)) = Ok (map (fun i => f (u i) (v i)) (seq 0 n)).
Proof. unfold bcast. rewrite !map_length, Nat.eqb_refl. f_equal. apply map2_map. Qed.

(* an output object whose slope vector has n X and n Y slopes, for n sub-apertures and nf
   fluxes *)
Definition out_ok (o : sl_out) (n nf : nat) : Prop :=
  halves (2 * n) (sl_ix (so_slopes o)) (sl_iy (so_slopes o)) /\ length (sl_ix (so_slopes o)) = n /\
  length (sl_iy (so_slopes o)) = n /\ length (sl_val (so_slopes o)) = 2 * n /\ length (so_flux o) = nf.

Lemma new_out_ok n nf inter : out_ok (mkOut (new_slopes_len extar (n * 2) inter) (repeat 0%Qc nf) 0%Qc (Fin 0%Qc)) n nf.
Proof.
  unfold out_ok. cbn [so_slopes so_flux]. unfold new_slopes_len.
  assert (L : length (@zeros extar (n * 2)) = 2 * n) by (unfold zeros; rewrite repeat_length; lia).
  assert (D : 2 * n / 2 = n) by (rewrite Nat.mul_comm; apply Nat.div_mul; lia).
  split; [|split; [|split; [|split]]].
  - rewrite <- L. apply (C56_construction extar). right. exists n. lia.
  - unfold new_slopes. cbn [sl_ix]. rewrite L, D. destruct inter; unfold inter_x; rewrite ?map_length, arange_length; lia.
  - unfold new_slopes. cbn [sl_iy]. rewrite L, D. destruct inter; unfold inter_y, inter_x; rewrite ?map_length, arange_length; rewrite ?D; lia.
  - exact L.
  - apply repeat_length.
Qed.

(* writing both parts *)
Lemma write_both (s : slopes extar) n vx vy : halves (2 * n) (sl_ix s) (sl_iy s) -> length (sl_ix s) = n -> length (sl_iy s) = n ->
  length (sl_val s) = 2 * n -> length vx = n -> length vy = n ->
  exists s1 s2, set_xslopes extar s vx = Ok s1 /\ set_yslopes extar s1 vy = Ok s2 /\ xslopes extar s2 = Ok vx /\ yslopes extar s2 = Ok vy /\
    sl_ix s2 = sl_ix s /\ sl_iy s2 = sl_iy s /\ length (sl_val s2) = 2 * n /\ sl_inter s2 = sl_inter s.
Proof.
  intros H Lx Ly Lv Vx Vy.
  destruct (C56_write_read extar s (2 * n) vx vy H ltac:(unfold s_size; lia) ltac:(congruence) ltac:(congruence)) as (s1 & s2 & E1 & E2 & X & Y & S & _).
  exists s1, s2. split; [exact E1|]. split; [exact E2|]. split; [exact X|]. split; [exact Y|].
  unfold set_xslopes in E1. inv_bind E1. unfold set_yslopes in E2. inv_bind E2. injection E1 as <-. injection E2 as <-.
  cbn [sl_ix sl_iy with_val sl_inter]. repeat split. unfold s_size in S. rewrite S. exact Lv.
Qed.

Lemma finish_none o : finish (mkPost None None None None) o = Ok o.
Proof. destruct o. reflexivity. Qed.

(* the value written for a signal [x] when the normalisation is [inv] *)
Definition normalised (inv : ext) (x : Qc) : ext :=
  emul (emul (Fin x) (ediv (Fin 1%Qc) inv)) (if eltb (Fin 0%Qc) inv then Fin 1%Qc else inv).
Definition normalised_l (inv : ext) (x : Qc) : ext :=
  emul (emul (ediv (Fin 1%Qc) inv) (Fin x)) (if eltb (Fin 0%Qc) inv then Fin 1%Qc else inv).

Definition sig_x (roof : bool) := if roof then roof_x else pyr_x.
Definition sig_y (roof : bool) := if roof then roof_y else pyr_y.

Section Pyramid.
Variables (ind : list (list Z)) (npix : nat).
Hypothesis G : four_pupils ind npix.
Notation n := (length ind).

Lemma pyr_init_ok roof p shlike norm thr sfi inter c o : pyr_init roof ind p shlike norm thr sfi inter = Ok (c, o) ->
  out_ok o (if sfi then 2 * n else n) n /\
  c = mkPyr n shlike norm thr sfi roof (map (fun r => nth 0 r 0%Z) ind) (map (fun r => nth 1 r 0%Z) ind)
        (map (fun r => nth 2 r 0%Z) ind) (map (fun r => nth 3 r 0%Z) ind)
        (map (fun r => nth 0 r 0%Z) ind ++ map (fun r => nth 1 r 0%Z) ind ++ map (fun r => nth 2 r 0%Z) ind ++ map (fun r => nth 3 r 0%Z) ind) p.
Proof.
  unfold pyr_init. rewrite !(pup_col_ok ind npix) by (auto; lia). cbn [bind].
  destruct (shlike && sfi); [discriminate|]. match goal with |- context [if ?b then _ else _] => destruct b end; [discriminate|].
  intros E. injection E as <- <-. split.
  - replace (length (map _ ind) * (if sfi then 4 else 2)) with ((if sfi then 2 * n else n) * 2) by (rewrite map_length; destruct sfi; lia).
    apply new_out_ok.
  - unfold valid_idx. rewrite !filter_app. fold (valid_idx (map (fun r => nth 0 r 0%Z) ind)) (valid_idx (map (fun r => nth 1 r 0%Z) ind))
      (valid_idx (map (fun r => nth 2 r 0%Z) ind)) (valid_idx (map (fun r => nth 3 r 0%Z) ind)).
    now rewrite !(valid_all ind npix) by (auto; lia).
Qed.

Lemma signals_tab roof pix thr : signals roof (map (light ind pix thr 0) (seq 0 n)) (map (light ind pix thr 1) (seq 0 n))
    (map (light ind pix thr 2) (seq 0 n)) (map (light ind pix thr 3) (seq 0 n)) =
  Ok (map (sig_x roof ind pix thr) (seq 0 n), map (sig_y roof ind pix thr) (seq 0 n)).
Proof. unfold signals. destruct roof; repeat (rewrite bcast_tab; cbn [bind]); reflexivity. Qed.

(* the normalisation of a frame *)
Definition pyr_inv (norm : option Qc) (shlike : bool) (pix : list Qc) thr (allidx : list Z) : ext :=
  match norm with
  | Some k => Fin k
  | None => if shlike then Fin (qsum (4 * n) (fun j => positive_part (nth (Z.to_nat (nth j allidx 0%Z)) pix 0%Qc - thr)%Qc))
            else ediv (Fin (total_light ind pix thr)) (Fin (qnat n))
  end.

Lemma pyr_code_ok roof p norm thr inter c o o0 pix : pyr_init roof ind p false norm thr false inter = Ok (c, o0) ->
  length pix = npix -> out_ok o n n ->
  exists o', pyr_code c o pix = Ok o' /\ out_ok o' n n /\
    xslopes extar (so_slopes o') = Ok (map (fun i => normalised (pyr_inv norm false pix thr []) (sig_x roof ind pix thr i)) (seq 0 n)) /\
    yslopes extar (so_slopes o') = Ok (map (fun i => normalised (pyr_inv norm false pix thr []) (sig_y roof ind pix thr i)) (seq 0 n)) /\
    so_flux o' = map (light4 ind pix thr) (seq 0 n) /\ so_total o' = total_light ind pix thr /\
    so_mean o' = ediv (Fin (total_light ind pix thr)) (Fin (qnat n)) /\ sl_inter (so_slopes o') = sl_inter (so_slopes o).
Proof.
  intros I L O. destruct (pyr_init_ok _ _ _ _ _ _ _ _ _ I) as [_ ->]. subst npix. unfold pyr_code. cbn [py_i0 py_i1 py_i2 py_i3 py_all py_thr py_sfi py_norm py_shlike py_roof py_n].
  rewrite !(pup_light ind pix thr) by (auto; lia). cbn [bind]. repeat (rewrite bcast_tab; cbn [bind]).
  destruct O as (Oh & Ox & Oy & Ov & Of).
  rewrite assign_all_ok by (rewrite map_length, seq_length; auto). cbn [bind].
  rewrite signals_tab. cbn [bind].
  set (inv := pyr_inv norm false pix thr []).
  assert (T : vsum (A:=qc) (map (light4 ind pix thr) (seq 0 n)) = total_light ind pix thr) by apply qsum_list.
  match goal with |- context [vsum ?v] => change v with (map (light4 ind pix thr) (seq 0 n)) end. rewrite !T.
  assert (E : (match norm with Some k => Ok (Fin k) | None => if false then q <- take_list (map (above thr) pix) (map (fun r => nth 0 r 0%Z) ind ++ map (fun r => nth 1 r 0%Z) ind ++ map (fun r => nth 2 r 0%Z) ind ++ map (fun r => nth 3 r 0%Z) ind) ;; Ok (Fin (vsum (A:=qc) q)) else Ok (ediv (Fin (total_light ind pix thr)) (Fin (qn n))) end) = Ok inv).
  { unfold inv, pyr_inv. destruct norm; reflexivity. }
  rewrite E. cbn [bind fst snd]. rewrite !map_map.
  destruct (write_both (so_slopes o) n (map (fun i => normalised inv (sig_x roof ind pix thr i)) (seq 0 n))
              (map (fun i => normalised inv (sig_y roof ind pix thr i)) (seq 0 n)) Oh Ox Oy Ov
              ltac:(rewrite map_length, seq_length; reflexivity) ltac:(rewrite map_length, seq_length; reflexivity))
    as (s1 & s2 & E1 & E2 & X & Y & Ix & Iy & Lv & Il).
  unfold normalised in E1, E2. rewrite E1. cbn [bind]. rewrite E2. cbn [bind]. eexists. split; [reflexivity|].
  cbn [so_slopes so_flux so_total so_mean]. split.
  { unfold out_ok. cbn [so_slopes so_flux]. rewrite Ix, Iy, map_length, seq_length. auto. }
  split; [exact X|]. split; [exact Y|]. repeat split; auto.
Qed.

Lemma pyr_sfi_ok roof p norm thr inter c o o0 pix : pyr_init roof ind p false norm thr true inter = Ok (c, o0) ->
  length pix = npix -> out_ok o (2 * n) n ->
  let inv := ediv (Fin (total_light ind pix thr)) (Fin (qnat (4 * n))) in
  exists o', pyr_code c o pix = Ok o' /\ out_ok o' (2 * n) n /\
    xslopes extar (so_slopes o') = Ok (map (fun i => normalised_l inv (light ind pix thr 0 i)) (seq 0 n) ++ map (fun i => normalised_l inv (light ind pix thr 1 i)) (seq 0 n)) /\
    yslopes extar (so_slopes o') = Ok (map (fun i => normalised_l inv (light ind pix thr 2 i)) (seq 0 n) ++ map (fun i => normalised_l inv (light ind pix thr 3 i)) (seq 0 n)) /\
    so_flux o' = map (light4 ind pix thr) (seq 0 n) /\ so_total o' = total_light ind pix thr /\
    so_mean o' = ediv (Fin (total_light ind pix thr)) (Fin (qnat n)) /\ sl_inter (so_slopes o') = sl_inter (so_slopes o).
Proof.
  intros I L O inv. destruct (pyr_init_ok _ _ _ _ _ _ _ _ _ I) as [_ ->]. subst npix. unfold pyr_code. cbn [py_i0 py_i1 py_i2 py_i3 py_all py_thr py_sfi py_norm py_shlike py_roof py_n].
  rewrite !(pup_light ind pix thr) by (auto; lia). cbn [bind]. repeat (rewrite bcast_tab; cbn [bind]).
  destruct O as (Oh & Ox & Oy & Ov & Of).
  rewrite assign_all_ok by (rewrite map_length, seq_length; auto). cbn [bind].
  assert (T : vsum (A:=qc) (map (light4 ind pix thr) (seq 0 n)) = total_light ind pix thr) by apply qsum_list.
  match goal with |- context [vsum ?v] => change v with (map (light4 ind pix thr) (seq 0 n)) end. rewrite !T.
  change (qn (4 * n)) with (qnat (4 * n)). fold inv. rewrite !map_app, !map_map.
  destruct (write_both (so_slopes o) (2 * n)
              (map (fun i => normalised_l inv (light ind pix thr 0 i)) (seq 0 n) ++ map (fun i => normalised_l inv (light ind pix thr 1 i)) (seq 0 n))
              (map (fun i => normalised_l inv (light ind pix thr 2 i)) (seq 0 n) ++ map (fun i => normalised_l inv (light ind pix thr 3 i)) (seq 0 n)) Oh Ox Oy Ov
              ltac:(rewrite app_length, !map_length, seq_length; lia) ltac:(rewrite app_length, !map_length, seq_length; lia))
    as (s1 & s2 & E1 & E2 & X & Y & Ix & Iy & Lv & Il).
  unfold normalised_l in E1, E2. rewrite E1. cbn [bind]. rewrite E2. cbn [bind]. eexists. split; [reflexivity|].
  cbn [so_slopes so_flux so_total so_mean]. split.
  { unfold out_ok. cbn [so_slopes so_flux]. rewrite Ix, Iy, map_length, seq_length. auto. }
  split; [exact X|]. split; [exact Y|]. repeat split; auto.
Qed.

(* any history of frames leaves an output object of the right size *)
Lemma pyr_run_ok roof norm thr sfi inter c o frames : pyr_init roof ind (mkPost None None None None) false norm thr sfi inter = Ok (c, o) ->
  (forall f, In f frames -> length f = npix) -> exists o', pyr_run c o frames = Ok o' /\ out_ok o' (if sfi then 2 * n else n) n /\
    sl_inter (so_slopes o') = sl_inter (so_slopes o).
Proof.
  intros I. assert (K := proj1 (pyr_init_ok _ _ _ _ _ _ _ _ _ I)).
  assert (Pc : py_post c = mkPost None None None None) by (rewrite (proj2 (pyr_init_ok _ _ _ _ _ _ _ _ _ I)); reflexivity).
  assert (H : forall o1, out_ok o1 (if sfi then 2 * n else n) n -> (forall f, In f frames -> length f = npix) ->
     exists o', pyr_run c o1 frames = Ok o' /\ out_ok o' (if sfi then 2 * n else n) n /\ sl_inter (so_slopes o') = sl_inter (so_slopes o1)).
  { induction frames as [|f fr IH]; intros o1 K1 F; [exists o1; exact (conj eq_refl (conj K1 eq_refl))|]. change (pyr_run c o1 (f :: fr)) with (o2 <- (o1' <- pyr_code c o1 f ;; finish (py_post c) o1') ;; pyr_run c o2 fr).
    rewrite Pc. destruct sfi.
    - destruct (pyr_sfi_ok _ _ _ _ _ _ o1 _ f I (F f (or_introl eq_refl)) K1) as (o2 & E2 & K2 & _ & _ & _ & _ & _ & Il). rewrite E2. cbn [bind].
      rewrite finish_none. cbn [bind]. destruct (IH o2 K2 (fun g Hg => F g (or_intror Hg))) as (o' & E & K' & Il'). exists o'. rewrite <- Il. auto.
    - destruct (pyr_code_ok _ _ _ _ _ _ o1 _ f I (F f (or_introl eq_refl)) K1) as (o2 & E2 & K2 & _ & _ & _ & _ & _ & Il). rewrite E2. cbn [bind].
      rewrite finish_none. cbn [bind]. destruct (IH o2 K2 (fun g Hg => F g (or_intror Hg))) as (o' & E & K' & Il'). exists o'. rewrite <- Il. auto. }
  intros F. exact (H o K F).
Qed.
End Pyramid.

Section PyramidRuns.
Variables (ind : list (list Z)) (npix : nat).
Hypothesis G : four_pupils ind npix.
Notation n := (length ind).
Notation none := (mkPost None None None None).

Lemma pyr_init_total roof p norm thr sfi inter : exists c o, pyr_init roof ind p false norm thr sfi inter = Ok (c, o) /\ sl_inter (so_slopes o) = inter.
Proof. unfold pyr_init. rewrite !(pup_col_ok ind npix) by (auto; lia). cbn [bind andb]. do 2 eexists. split; reflexivity. Qed.

Lemma fold_res_app {S X} (f : S -> X -> res S) s a b : fold_res f s (a ++ b) = (s' <- fold_res f s a ;; fold_res f s' b).
Proof. revert s. induction a as [|x a IH]; intros s; [reflexivity|]. cbn [app fold_res]. destruct (f s x); [apply IH|reflexivity]. Qed.

Lemma session_last roof norm thr inter hist pix : (forall f, In f hist -> length f = npix) -> length pix = npix ->
  let inv := pyr_inv ind norm false pix thr [] in
  exists o, pyr_session roof ind none false norm thr false inter (hist ++ [pix]) = Ok o /\
    xslopes extar (so_slopes o) = Ok (map (fun i => normalised inv (sig_x roof ind pix thr i)) (seq 0 n)) /\
    yslopes extar (so_slopes o) = Ok (map (fun i => normalised inv (sig_y roof ind pix thr i)) (seq 0 n)) /\
    so_flux o = map (light4 ind pix thr) (seq 0 n) /\ so_total o = total_light ind pix thr /\
    so_mean o = ediv (Fin (total_light ind pix thr)) (Fin (qnat n)) /\ sl_inter (so_slopes o) = inter /\ out_ok o n n.
Proof.
  intros F L inv. destruct (pyr_init_total roof none norm thr false inter) as (c & o0 & E & Il). unfold pyr_session. rewrite E. cbn [bind fst snd].
  destruct (pyr_run_ok ind npix G roof norm thr false inter c o0 hist E F) as (o1 & E1 & K1 & Il1). cbv iota in K1.
  unfold pyr_run in *. rewrite fold_res_app, E1. cbn [bind fold_res].
  destruct (pyr_code_ok ind npix G roof none norm thr inter c o1 o0 pix E L K1) as (o2 & E2 & K2 & X & Y & Fl & T & M & Il2).
  unfold pyr_trigger. rewrite E2. cbn [bind].
  replace (py_post c) with (none : post extar) by (rewrite (proj2 (pyr_init_ok ind npix G _ _ _ _ _ _ _ _ _ E)); reflexivity).
  rewrite finish_none. exists o2. split; [reflexivity|]. repeat (split; [assumption|]). split; [congruence|assumption].
Qed.

Lemma session_last_sfi roof norm thr inter hist pix : (forall f, In f hist -> length f = npix) -> length pix = npix ->
  let inv := ediv (Fin (total_light ind pix thr)) (Fin (qnat (4 * n))) in
  let val k := map (fun i => normalised_l inv (light ind pix thr k i)) (seq 0 n) in
  exists o, pyr_session roof ind none false norm thr true inter (hist ++ [pix]) = Ok o /\
    xslopes extar (so_slopes o) = Ok (val 0 ++ val 1) /\ yslopes extar (so_slopes o) = Ok (val 2 ++ val 3) /\
    so_flux o = map (light4 ind pix thr) (seq 0 n) /\ so_total o = total_light ind pix thr /\
    so_mean o = ediv (Fin (total_light ind pix thr)) (Fin (qnat n)) /\ sl_inter (so_slopes o) = inter.
Proof.
  intros F L inv val. destruct (pyr_init_total roof none norm thr true inter) as (c & o0 & E & Il). unfold pyr_session. rewrite E. cbn [bind fst snd].
  destruct (pyr_run_ok ind npix G roof norm thr true inter c o0 hist E F) as (o1 & E1 & K1 & Il1). cbv iota in K1.
  unfold pyr_run in *. rewrite fold_res_app, E1. cbn [bind fold_res].
  destruct (pyr_sfi_ok ind npix G roof none norm thr inter c o1 o0 pix E L K1) as (o2 & E2 & K2 & X & Y & Fl & T & M & Il2).
  unfold pyr_trigger. rewrite E2. cbn [bind].
  replace (py_post c) with (none : post extar) by (rewrite (proj2 (pyr_init_ok ind npix G _ _ _ _ _ _ _ _ _ E)); reflexivity).
  rewrite finish_none. exists o2. split; [reflexivity|]. repeat (split; [assumption|]). congruence.
Qed.
End PyramidRuns.

Lemma Qc_pos_neq (x : Qc) : (0 < x)%Qc -> x <> 0%Qc.
Proof. intros H ->. exact (Qclt_not_eq _ _ H eq_refl). Qed.

Lemma normalised_pos k x : (0 < k)%Qc -> normalised (Fin k) x = Fin (x / k)%Qc.
Proof.
  intros H. unfold normalised. cbn [ediv eltb]. rewrite (proj2 (is0_false k)) by (apply Qc_pos_neq; exact H).
  replace (qlt 0 k) with true by (symmetry; now apply qlt_true). cbn [emul]. f_equal. field. now apply Qc_pos_neq.
Qed.
Lemma normalised_l_pos k x : (0 < k)%Qc -> normalised_l (Fin k) x = Fin (x / k)%Qc.
Proof.
  intros H. unfold normalised_l. cbn [ediv eltb]. rewrite (proj2 (is0_false k)) by (apply Qc_pos_neq; exact H).
  replace (qlt 0 k) with true by (symmetry; now apply qlt_true). cbn [emul]. f_equal. field. now apply Qc_pos_neq.
Qed.
Lemma normalised_neg k x : (k < 0)%Qc -> normalised (Fin k) x = Fin x.
Proof.
  intros H. assert (N : k <> 0%Qc) by (intros ->; exact (Qclt_not_eq _ _ H eq_refl)). unfold normalised. cbn [ediv eltb].
  rewrite (proj2 (is0_false k)) by exact N. replace (qlt 0 k) with false by (symmetry; apply qlt_false; apply Qlt_le_weak; exact H).
  cbn [emul]. f_equal. field. exact N.
Qed.
Lemma normalised_zero x : normalised (Fin 0%Qc) x = NaN.
Proof. unfold normalised. cbn. destruct (is0 x) eqn:E; reflexivity. Qed.
Lemma normalised_l_zero x : normalised_l (Fin 0%Qc) x = NaN.
Proof. unfold normalised_l. cbn. destruct (is0 x) eqn:E; reflexivity. Qed.
Lemma qdiv_pos a b : (0 < a)%Qc -> (0 < b)%Qc -> (0 < a / b)%Qc.
Proof.
  intros Ha Hb. unfold Qclt. rewrite this_div. change (this 0%Qc) with 0%Q. unfold Qclt in *. change (this 0%Qc) with 0%Q in *.
  apply Qlt_shift_div_l; [exact Hb|]. lra.
Qed.
Lemma ediv_pos a b : (0 < b)%Qc -> ediv (Fin a) (Fin b) = Fin (a / b)%Qc.
Proof. intros H. cbn [ediv]. now rewrite (proj2 (is0_false b)) by (apply Qc_pos_neq; exact H). Qed.
