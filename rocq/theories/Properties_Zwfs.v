(* C78: signals of the Zernike and of the curvature sensor. *)
From Coq Require Import String List ZArith Bool PeanoNat Lia QArith Qcanon Lqa Field.
From Verif Require Import PyBase PyLemmas Arith ArithLemmas SumLemmas FilterSpec NpModel NpSpec NpProofs NpSegments VecModel
  OpticalModel SlopesModel SlopesSpec SlopesProofs ExtModel QcTac SlopecModel SlopecSpec SlopecProofs Properties_Filter Properties_Pyramid.
Import ListNotations.
Local Open Scope nat_scope.

(* Pixel positions inside a frame of npix pixels *)
Definition inside (idx : list Z) (npix : nat) : Prop := forall i, In i idx -> (0 <= i < Z.of_nat npix)%Z.
Definition at_pixel (idx : list Z) (pix : list Qc) (i : nat) : Qc := nth (Z.to_nat (nth i idx 0%Z)) pix 0%Qc.

Lemma inside_valid idx npix : inside idx npix -> valid_idx idx = idx.
Proof.
  unfold valid_idx. induction idx as [|i r IH]; intros H; [reflexivity|]. cbn [filter]. replace (0 <=? i)%Z with true.
  - f_equal. apply IH. intros j Hj. apply H. now right.
  - symmetry. apply Z.leb_le. apply (H i). now left.
Qed.
Lemma take_pixels idx pix : inside idx (length pix) -> take_list pix idx = Ok (map (at_pixel idx pix) (seq 0 (length idx))).
Proof.
  intros H. rewrite (take_list_map pix idx 0%Qc) by (intros i Hi; unfold zlen; now apply H). f_equal. exact (map_nth_seq (fun i => nth (Z.to_nat i) pix 0%Qc) idx 0%Z).
Qed.

(* ------------------------------------------------------------------------ Zernike sensor *)
(* The signal of each pixel of the pupil is its value above the threshold over the mean of
   them. *)
Theorem C78_zernike idx thr o pix : inside idx (length pix) -> length (so_flux o) = length idx ->
  let v i := (at_pixel idx pix i - thr)%Qc in
  let n := length idx in let total := qsum n v in
  exists o', zwfs_code idx thr o pix = Ok o' /\ so_flux o' = map v (seq 0 n) /\ so_total o' = total /\
    (0 < n -> so_mean o' = Fin (total / qnat n)%Qc) /\
    (total <> 0%Qc -> sl_val (so_slopes o') = map (fun i => Fin (v i / (total / qnat n))%Qc) (seq 0 n) /\
                     (qsum n (fun i => v i / (total / qnat n)) / qnat n = 1)%Qc).
Proof.
  intros H L v n total. unfold zwfs_code. rewrite (inside_valid idx (length pix) H).
  assert (Lp : length (map (fun x => (x - thr)%Qc) pix) = length pix) by apply map_length.
  rewrite (take_pixels idx) by (rewrite Lp; exact H). cbn [bind].
  replace (map (at_pixel idx (map (fun x => (x - thr)%Qc) pix)) (seq 0 (length idx))) with (map v (seq 0 n)).
  2:{ apply map_ext_in. intros i Hi. apply in_seq in Hi. unfold v, at_pixel. set (k := Z.to_nat _).
      assert (Hk : k < length pix). { assert (B := H (nth i idx 0%Z) ltac:(apply nth_In; lia)). unfold k. lia. }
      rewrite (nth_indep (map (fun x => (x - thr)%Qc) pix) 0%Qc ((fun x => (x - thr)%Qc) 0%Qc)) by (rewrite Lp; exact Hk). now rewrite (map_nth (fun x => (x - thr)%Qc)). }
  rewrite assign_all_ok by (rewrite map_length, seq_length; symmetry; exact L). cbn [bind]. rewrite qsum_list. fold total.
  eexists. split; [reflexivity|]. cbn [so_slopes so_flux so_total so_mean sl_val with_val]. split; [reflexivity|]. split; [reflexivity|]. split.
  - intros N. apply ediv_pos. now apply qnat_pos.
  - intros T. assert (N : 0 < n). { unfold n. destruct idx; [|cbn; lia]. exfalso. apply T. reflexivity. }
    assert (Nq := qnat_pos n N). assert (Nn := Qc_pos_neq _ Nq). change (qn (length idx)) with (qnat n). rewrite ediv_pos by exact Nq.
    assert (M0 : (total / qnat n)%Qc <> 0%Qc).
    { intros Z. apply T. replace total with (total / qnat n * qnat n)%Qc by (field; exact Nn). rewrite Z. ring. }
    split.
    + rewrite map_map. apply map_ext. intros i. unfold ediv. now rewrite (proj2 (is0_false _) M0).
    + replace (qsum n (fun i => (v i / (total / qnat n))%Qc)) with (total * (/ (total / qnat n)))%Qc.
      * field. split; assumption.
      * symmetry. exact (sumn_scale_r qc qc_field n _ v).
Qed.

(* The signal does not depend on the brightness, if the threshold is in proportion. *)
Theorem C78_zernike_scale idx thr o pix g : inside idx (length pix) -> length (so_flux o) = length idx -> (g <> 0)%Qc ->
  qsum (length idx) (fun i => at_pixel idx pix i - thr)%Qc <> 0%Qc ->
  exists o1 o2, zwfs_code idx thr o pix = Ok o1 /\ zwfs_code idx (g * thr)%Qc o (map (fun x => g * x)%Qc pix) = Ok o2 /\
    sl_val (so_slopes o2) = sl_val (so_slopes o1).
Proof.
  intros H L G T. destruct (C78_zernike idx thr o pix H L) as (o1 & E1 & _ & _ & _ & S1).
  assert (Lg : length (map (fun x => (g * x)%Qc) pix) = length pix) by apply map_length.
  destruct (C78_zernike idx (g * thr)%Qc o (map (fun x => g * x)%Qc pix) ltac:(rewrite Lg; exact H) L) as (o2 & E2 & _ & _ & _ & S2).
  exists o1, o2. split; [exact E1|]. split; [exact E2|]. cbn zeta in *.
  assert (P : forall i, (at_pixel idx (map (fun x => g * x)%Qc pix) i - g * thr = g * (at_pixel idx pix i - thr))%Qc).
  { intros i. unfold at_pixel. set (k := Z.to_nat _). replace (nth k (map (fun x => (g * x)%Qc) pix) 0%Qc) with (g * nth k pix 0)%Qc; [ring|].
    replace 0%Qc with (g * 0)%Qc at 2 by ring. now rewrite (map_nth (fun x => (g * x)%Qc)). }
  assert (Tg : qsum (length idx) (fun i => at_pixel idx (map (fun x => g * x)%Qc pix) i - g * thr)%Qc = (g * qsum (length idx) (fun i => at_pixel idx pix i - thr))%Qc).
  { unfold qsum. etransitivity; [|exact (sumn_scale qc qc_field (length idx) g (fun i => (at_pixel idx pix i - thr)%Qc))]. apply (sumn_ext (A:=qc)). intros i _. apply P. }
  rewrite Tg in S2. set (tot := qsum (length idx) (fun i => (at_pixel idx pix i - thr)%Qc)) in *.
  assert (Gt : (g * tot <> 0)%Qc). { intros Z. apply T. replace tot with (g * tot / g)%Qc by (field; exact G). rewrite Z. unfold Qcdiv. ring. }
  rewrite (proj1 (S1 T)), (proj1 (S2 Gt)). apply map_ext. intros i. f_equal. rewrite P. field.
  assert (N : 0 < length idx). { destruct idx; [|cbn; lia]. exfalso. apply T. reflexivity. }
  repeat split; auto. now apply Qc_pos_neq, qnat_pos.
Qed.

(* ---------------------------------------------------------------------- curvature sensor *)
(* The signal of each pixel is the difference of the two images over their sum; a sum below
   1e-9 is replaced by 1. *)
Definition pair_sum (a b : Qc) : Qc := if Qclt_le_dec (a + b) (Q2Qc (1 # 1000000000)) then 1%Qc else (a + b)%Qc.
Theorem C78_curvature idx o p1 p2 : inside idx (length p1) -> inside idx (length p2) -> length (so_flux o) = length idx ->
  length (sl_val (so_slopes o)) = length idx ->
  let n := length idx in let s i := pair_sum (at_pixel idx p1 i) (at_pixel idx p2 i) in
  exists o', cur_code idx o p1 p2 = Ok o' /\ so_flux o' = map s (seq 0 n) /\ so_total o' = qsum n s /\
    (0 < n -> so_mean o' = Fin (qsum n s / qnat n)%Qc) /\
    sl_val (so_slopes o') = map (fun i => Fin ((at_pixel idx p1 i - at_pixel idx p2 i) / s i)%Qc) (seq 0 n).
Proof.
  intros H1 H2 L Lv n s. unfold cur_code. rewrite (inside_valid idx (length p1) H1), (take_pixels idx p1 H1). cbn [bind]. rewrite (take_pixels idx p2 H2). cbn [bind].
  rewrite (bcast_tab (add (a:=qc))). cbn [bind]. rewrite map_map. rewrite (bcast_tab (sub (a:=qc))). cbn [bind].
  assert (Es : map (fun x => if qlt (add (a:=qc) (at_pixel idx p1 x) (at_pixel idx p2 x)) nano then 1%Qc else add (a:=qc) (at_pixel idx p1 x) (at_pixel idx p2 x)) (seq 0 (length idx)) = map s (seq 0 n)).
  { apply map_ext. intros i. unfold s, pair_sum, qlt. change (add (a:=qc) (at_pixel idx p1 i) (at_pixel idx p2 i)) with (at_pixel idx p1 i + at_pixel idx p2 i)%Qc.
    unfold nano. destruct (Qclt_le_dec _ _); reflexivity. }
  rewrite Es. rewrite (bcast_tab (dvd (a:=qc))). cbn [bind]. rewrite map_map. rewrite assign_all_ok by (rewrite map_length, seq_length; auto). cbn [bind].
  rewrite assign_all_ok by (rewrite map_length, seq_length; auto). cbn [bind]. rewrite qsum_list. eexists. split; [reflexivity|].
  cbn [so_slopes so_flux so_total so_mean sl_val with_val]. split; [reflexivity|]. split; [reflexivity|]. split; [|reflexivity].
  intros N. apply ediv_pos. now apply qnat_pos.
Qed.

(* Between -1 and 1 for images that are not negative; opposite if the images are exchanged;
   zero for equal images. *)
Lemma pair_sum_pos a b : (0 < pair_sum a b)%Qc.
Proof. unfold pair_sum. destruct (Qclt_le_dec _ _) as [Q|Q]; [reflexivity|]. eapply Qclt_le_trans; [|exact Q]. reflexivity. Qed.
Theorem C78_curvature_bounds idx o p1 p2 : inside idx (length p1) -> inside idx (length p2) -> length (so_flux o) = length idx ->
  length (sl_val (so_slopes o)) = length idx -> (forall x, In x p1 \/ In x p2 -> (0 <= x)%Qc) ->
  exists o' v, cur_code idx o p1 p2 = Ok o' /\ sl_val (so_slopes o') = map (fun i => Fin (v i)) (seq 0 (length idx)) /\
    forall i, i < length idx -> (absolute (v i) <= 1)%Qc /\ (at_pixel idx p1 i = at_pixel idx p2 i -> v i = 0%Qc).
Proof.
  intros H1 H2 L Lv P. destruct (C78_curvature idx o p1 p2 H1 H2 L Lv) as (o' & E & _ & _ & _ & S). exists o'. eexists. split; [exact E|]. split; [exact S|].
  intros i Hi. cbv beta. assert (Pi : (0 <= at_pixel idx p1 i)%Qc /\ (0 <= at_pixel idx p2 i)%Qc).
  { assert (I := nth_In idx 0%Z Hi). assert (B1 := H1 _ I). assert (B2 := H2 _ I). split; apply P; [left|right]; apply nth_In; lia. }
  set (a := at_pixel idx p1 i) in *. set (b := at_pixel idx p2 i) in *. destruct Pi as [Pa Pb]. assert (Q := pair_sum_pos a b). split.
  - rewrite abs_div by exact Q. apply Qcle_trans with (pair_sum a b / pair_sum a b)%Qc.
    + apply div_le; [exact Q|]. unfold pair_sum in *. destruct (Qclt_le_dec (a + b) (Q2Qc (1 # 1000000000))) as [C|C].
      * assert (C1 : (a + b < 1)%Qc) by (eapply Qclt_trans; [exact C|reflexivity]). apply abs_le; qclra.
      * apply abs_le; qclra.
    + apply Qc_pos_neq in Q. replace (pair_sum a b / pair_sum a b)%Qc with 1%Qc by (field; exact Q). apply Qcle_refl.
  - intros ->. unfold Qcdiv. ring.
Qed.
Theorem C78_curvature_exchange idx o p1 p2 : inside idx (length p1) -> inside idx (length p2) -> length (so_flux o) = length idx ->
  length (sl_val (so_slopes o)) = length idx ->
  exists o1 o2 v, cur_code idx o p1 p2 = Ok o1 /\ cur_code idx o p2 p1 = Ok o2 /\
    sl_val (so_slopes o1) = map (fun i => Fin (v i)) (seq 0 (length idx)) /\ sl_val (so_slopes o2) = map (fun i => Fin (- v i)%Qc) (seq 0 (length idx)) /\
    so_flux o2 = so_flux o1.
Proof.
  intros H1 H2 L Lv. destruct (C78_curvature idx o p1 p2 H1 H2 L Lv) as (o1 & E1 & F1 & _ & _ & S1). destruct (C78_curvature idx o p2 p1 H2 H1 L Lv) as (o2 & E2 & F2 & _ & _ & S2).
  assert (Sy : forall a b, pair_sum a b = pair_sum b a) by (intros a b; unfold pair_sum; now rewrite (Qcplus_comm a b)).
  exists o1, o2. eexists. split; [exact E1|]. split; [exact E2|]. split; [exact S1|]. split.
  - rewrite S2. apply map_ext. intros i. f_equal. rewrite Sy. unfold Qcdiv. ring.
  - rewrite F1, F2. apply map_ext. intros i. apply Sy.
Qed.

Definition out3 : sl_out := mkOut (new_slopes_len extar 3 false) (repeat 0%Qc 3) 0%Qc (Fin 0%Qc).
Example C78_example :
  see_out (zwfs_code [0; 2; 3]%Z 1%Qc out3 (map qi [3; 9; 5; 1; 9]%Z)) = Ok ([F 1; F 2; F 0], [2; 4; 0]%Q, 6%Q, F 2) /\
  see_out (cur_code [0; 2; 3]%Z out3 (map qi [3; 9; 5; 0]%Z) (map qi [1; 7; 5; 0]%Z)) = Ok ([F (1 # 2); F 0; F 0], [4; 10; 1]%Q, 15%Q, F 5).
Proof. vm_compute. repeat split. Qed.

(* Claim: the Zernike signals of a frame without light are numbers. *)
Theorem C78_zernike_dark_refuted : exists o', zwfs_code [0; 2; 3]%Z 0%Qc out3 (map qi [0; 0; 0; 0]%Z) = Ok o' /\ sl_val (so_slopes o') = [NaN; NaN; NaN].
Proof. eexists. split; vm_compute; reflexivity. Qed.
(* Claim: the counts of the curvature sensor are those of the two images.  Pixels without
   light count as one. *)
Theorem C78_counts_refuted : exists o', cur_code [0; 2; 3]%Z out3 (map qi [0; 0; 0; 0]%Z) (map qi [0; 0; 0; 0]%Z) = Ok o' /\ this (so_total o') = 3%Q.
Proof. eexists. split; vm_compute; reflexivity. Qed.

Print Assumptions C78_zernike.
Print Assumptions C78_zernike_scale.
Print Assumptions C78_curvature.
Print Assumptions C78_curvature_bounds.
Print Assumptions C78_curvature_exchange.
Print Assumptions C78_zernike_dark_refuted.
Print Assumptions C78_counts_refuted.
