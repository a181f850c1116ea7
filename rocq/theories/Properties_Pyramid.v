(* C73: slopes of the pyramid and of the double roof. *)
From Coq Require Import String List ZArith Bool PeanoNat Lia QArith Qcanon Lqa Field.
From Verif Require Import PyBase PyLemmas Arith ArithLemmas SumLemmas FilterSpec NpModel NpSpec NpProofs NpSegments VecModel
  SlopesModel SlopesSpec SlopesProofs RebinProofs OpticalModel ExtModel QcTac SlopecModel SlopecSpec SlopecProofs Properties_Filter.
Import ListNotations.
Local Open Scope nat_scope.

Notation no_post := (mkPost None None None None).

Section P.
Variables (ind : list (list Z)) (npix : nat).
Hypothesis G : four_pupils ind npix.
Notation n := (length ind).

Lemma some_subaps pix thr : (0 < total_light ind pix thr)%Qc -> 0 < n.
Proof. intros T. destruct ind; [|cbn; lia]. exfalso. exact (Qclt_not_eq _ _ T eq_refl). Qed.

(* After any history, the slopes are those of the last frame: the signal of each
   sub-aperture over the mean light of a sub-aperture. *)
Theorem C73_slopes (roof : bool) thr inter hist pix : (forall f, In f hist -> length f = npix) -> length pix = npix ->
  (0 < total_light ind pix thr)%Qc ->
  let mean := (total_light ind pix thr / qnat n)%Qc in
  let sx := if roof then roof_x ind pix thr else pyr_x ind pix thr in
  let sy := if roof then roof_y ind pix thr else pyr_y ind pix thr in
  exists o, pyr_session roof ind no_post false None thr false inter (hist ++ [pix]) = Ok o /\
    xslopes extar (so_slopes o) = Ok (map (fun i => Fin (sx i / mean)%Qc) (seq 0 n)) /\
    yslopes extar (so_slopes o) = Ok (map (fun i => Fin (sy i / mean)%Qc) (seq 0 n)).
Proof.
  intros F L T mean sx sy. destruct (session_last ind npix G roof None thr inter hist pix F L) as (o & E & X & Y & _).
  exists o. split; [exact E|]. assert (N := some_subaps pix thr T). unfold pyr_inv in X, Y. rewrite ediv_pos in X, Y by (now apply qnat_pos).
  assert (P : (0 < mean)%Qc) by (apply qdiv_pos; [exact T|now apply qnat_pos]). rewrite X, Y. split; f_equal; apply map_ext; intros i.
  - rewrite normalised_pos by exact P. unfold sig_x, sx. now destruct roof.
  - rewrite normalised_pos by exact P. unfold sig_y, sy. now destruct roof.
Qed.

(* The counts: the light of each sub-aperture, their sum and their mean. *)
Theorem C73_counts (roof : bool) norm thr sfi inter hist pix : (forall f, In f hist -> length f = npix) -> length pix = npix -> 0 < n ->
  exists o, pyr_session roof ind no_post false norm thr sfi inter (hist ++ [pix]) = Ok o /\
    so_flux o = map (light4 ind pix thr) (seq 0 n) /\ so_total o = total_light ind pix thr /\
    so_mean o = Fin (total_light ind pix thr / qnat n)%Qc /\ sl_inter (so_slopes o) = inter.
Proof.
  intros F L N. destruct sfi.
  - destruct (session_last_sfi ind npix G roof norm thr inter hist pix F L) as (o & E & _ & _ & Fl & T & M & I).
    exists o. rewrite ediv_pos in M by (now apply qnat_pos). auto.
  - destruct (session_last ind npix G roof norm thr inter hist pix F L) as (o & E & _ & _ & Fl & T & M & I & _).
    exists o. rewrite ediv_pos in M by (now apply qnat_pos). auto.
Qed.

(* A positive normalisation factor replaces the mean light. *)
Theorem C73_fixed_norm (roof : bool) k thr inter hist pix : (forall f, In f hist -> length f = npix) -> length pix = npix -> (0 < k)%Qc ->
  let sx := if roof then roof_x ind pix thr else pyr_x ind pix thr in
  let sy := if roof then roof_y ind pix thr else pyr_y ind pix thr in
  exists o, pyr_session roof ind no_post false (Some k) thr false inter (hist ++ [pix]) = Ok o /\
    xslopes extar (so_slopes o) = Ok (map (fun i => Fin (sx i / k)%Qc) (seq 0 n)) /\
    yslopes extar (so_slopes o) = Ok (map (fun i => Fin (sy i / k)%Qc) (seq 0 n)).
Proof.
  intros F L T sx sy. destruct (session_last ind npix G roof (Some k) thr inter hist pix F L) as (o & E & X & Y & _).
  exists o. split; [exact E|]. unfold pyr_inv in X, Y. rewrite X, Y. split; f_equal; apply map_ext; intros i.
  - rewrite normalised_pos by exact T. unfold sig_x, sx. now destruct roof.
  - rewrite normalised_pos by exact T. unfold sig_y, sy. now destruct roof.
Qed.

(* Slopes from the intensities: the light of every pixel over the mean light of a pixel.
   They are not negative and their mean is one. *)
Theorem C73_intensity (roof : bool) norm thr inter hist pix : (forall f, In f hist -> length f = npix) -> length pix = npix ->
  (0 < total_light ind pix thr)%Qc ->
  let v k i := (light ind pix thr k i / (total_light ind pix thr / qnat (4 * n)))%Qc in
  exists o, pyr_session roof ind no_post false norm thr true inter (hist ++ [pix]) = Ok o /\
    xslopes extar (so_slopes o) = Ok (map (fun i => Fin (v 0 i)) (seq 0 n) ++ map (fun i => Fin (v 1 i)) (seq 0 n)) /\
    yslopes extar (so_slopes o) = Ok (map (fun i => Fin (v 2 i)) (seq 0 n) ++ map (fun i => Fin (v 3 i)) (seq 0 n)) /\
    (forall k i, (0 <= v k i)%Qc) /\
    (qsum n (fun i => v 0%nat i + v 1%nat i + v 2%nat i + v 3%nat i) / qnat (4 * n) = 1)%Qc.
Proof.
  intros F L T v. destruct (session_last_sfi ind npix G roof norm thr inter hist pix F L) as (o & E & X & Y & _).
  exists o. split; [exact E|]. assert (N := some_subaps pix thr T). assert (N4 : (0 < qnat (4 * n))%Qc) by (apply qnat_pos; lia).
  rewrite ediv_pos in X, Y by exact N4. assert (P : (0 < total_light ind pix thr / qnat (4 * n))%Qc) by (apply qdiv_pos; assumption).
  split; [|split; [|split]].
  - rewrite X. do 2 f_equal; apply map_ext; intros i; now apply normalised_l_pos.
  - rewrite Y. do 2 f_equal; apply map_ext; intros i; now apply normalised_l_pos.
  - intros k i. unfold v. unfold Qcle. rewrite this_div. assert (Q := light_ge ind pix thr k i). unfold Qcle in Q. unfold Qclt in P.
    change (this 0%Qc) with 0%Q in *. apply Qle_shift_div_l; [exact P|]. lra.
  - set (m := (total_light ind pix thr / qnat (4 * n))%Qc) in *.
    replace (qsum n (fun i => v 0%nat i + v 1%nat i + v 2%nat i + v 3%nat i)%Qc) with (total_light ind pix thr * (/ m))%Qc.
    + unfold m. field. split; [|]; apply Qc_pos_neq; assumption.
    + symmetry. unfold total_light, qsum. etransitivity; [|exact (sumn_scale_r qc qc_field n (/ m)%Qc (light4 ind pix thr))].
      apply (sumn_ext (A:=qc)). intros i _. unfold v, light4. fold m. qceq. field. now apply Qc_pos_neq.
Qed.

(* Bounds: the slopes of a sub-aperture are at most its share of the light times the number
   of sub-apertures; the mean of their absolute values is at most one. *)
Lemma abs_le (x b : Qc) : (x <= b)%Qc -> (- b <= x)%Qc -> (absolute x <= b)%Qc.
Proof. intros H1 H2. unfold absolute. destruct (Qclt_le_dec x 0); [|exact H1]. qclra. Qed.
Lemma abs_div x m : (0 < m)%Qc -> absolute (x / m)%Qc = (absolute x / m)%Qc.
Proof.
  intros H. unfold absolute. assert (E : forall y, (this (y / m)%Qc * this m == this y)%Q).
  { intros y. rewrite this_div. field. apply Qc_pos_neq in H. now apply Qc_neq in H. }
  assert (Ex := E x). unfold Qclt in H. change (this 0%Qc) with 0%Q in H.
  destruct (Qclt_le_dec (x / m) 0) as [A|A]; destruct (Qclt_le_dec x 0) as [B|B]; auto.
  - apply Qc_pos_neq in H. field. exact H.
  - exfalso. unfold Qclt, Qcle in *. change (this 0%Qc) with 0%Q in *. nra.
  - exfalso. unfold Qclt, Qcle in *. change (this 0%Qc) with 0%Q in *. nra.
Qed.
Lemma sig_bound (roof : bool) pix thr i : (absolute (sig_x roof ind pix thr i) <= light4 ind pix thr i)%Qc /\
  (absolute (sig_y roof ind pix thr i) <= light4 ind pix thr i)%Qc.
Proof.
  assert (L0 := light_ge ind pix thr 0 i). assert (L1 := light_ge ind pix thr 1 i). assert (L2 := light_ge ind pix thr 2 i).
  assert (L3 := light_ge ind pix thr 3 i). unfold sig_x, sig_y. destruct roof; unfold roof_x, roof_y, pyr_x, pyr_y, light4;
  split; apply abs_le; qclra.
Qed.
Lemma div_le a b m : (0 < m)%Qc -> (a <= b)%Qc -> (a / m <= b / m)%Qc.
Proof.
  intros H L. unfold Qcle. rewrite !this_div. unfold Qdiv. apply Qmult_le_compat_r; [exact L|]. apply Qinv_le_0_compat.
  apply Qlt_le_weak. exact H.
Qed.

Theorem C73_bounds (roof : bool) thr inter hist pix : (forall f, In f hist -> length f = npix) -> length pix = npix ->
  (0 < total_light ind pix thr)%Qc ->
  exists o x y, pyr_session roof ind no_post false None thr false inter (hist ++ [pix]) = Ok o /\
    xslopes extar (so_slopes o) = Ok (map (fun i => Fin (x i)) (seq 0 n)) /\
    yslopes extar (so_slopes o) = Ok (map (fun i => Fin (y i)) (seq 0 n)) /\
    (forall i, i < n -> (absolute (x i) <= qnat n)%Qc /\ (absolute (y i) <= qnat n)%Qc) /\
    (qsum n (fun i => absolute (x i)) / qnat n <= 1)%Qc /\ (qsum n (fun i => absolute (y i)) / qnat n <= 1)%Qc.
Proof.
  intros F L T. destruct (C73_slopes roof thr inter hist pix F L T) as (o & E & X & Y).
  do 3 eexists. split; [exact E|]. split; [exact X|]. split; [exact Y|].
  assert (N := qnat_pos n (some_subaps pix thr T)). set (m := (total_light ind pix thr / qnat n)%Qc) in *.
  assert (P : (0 < m)%Qc) by (now apply qdiv_pos).
  assert (Tm : (total_light ind pix thr / m = qnat n)%Qc) by (unfold m; field; split; apply Qc_pos_neq; assumption).
  assert (T1 : (qnat n / qnat n = 1)%Qc) by (field; now apply Qc_pos_neq).
  assert (Hx : forall (s : nat -> Qc), (forall i, (absolute (s i) <= light4 ind pix thr i)%Qc) ->
     (forall i, i < n -> (absolute (s i / m) <= qnat n)%Qc) /\ (qsum n (fun i => absolute (s i / m)) / qnat n <= 1)%Qc).
  { intros s Hs. assert (A : forall i, (absolute (s i / m) <= light4 ind pix thr i / m)%Qc).
    { intros i. rewrite abs_div by exact P. apply div_le; auto. }
    split.
    - intros i Hi. eapply Qcle_trans; [apply A|]. rewrite <- Tm. apply div_le; [exact P|]. apply (qsum_term n (light4 ind pix thr)); [|exact Hi].
      intros j _. unfold light4. assert (L0 := light_ge ind pix thr 0 j). assert (L1 := light_ge ind pix thr 1 j). assert (L2 := light_ge ind pix thr 2 j).
      assert (L3 := light_ge ind pix thr 3 j). qclra.
    - rewrite <- T1. apply div_le; [exact N|]. eapply Qcle_trans; [apply (qsum_le n _ (fun i => light4 ind pix thr i * / m)%Qc); intros i _; apply A|].
      replace (qsum n (fun i => light4 ind pix thr i * / m)%Qc) with (total_light ind pix thr * / m)%Qc.
      + change (total_light ind pix thr * / m)%Qc with (total_light ind pix thr / m)%Qc. rewrite Tm. apply Qcle_refl.
      + symmetry. exact (sumn_scale_r qc qc_field n (/ m)%Qc (light4 ind pix thr)). }
  destruct (Hx (if roof then roof_x ind pix thr else pyr_x ind pix thr)) as [A1 B1].
  { intros i. assert (Q := proj1 (sig_bound roof pix thr i)). unfold sig_x in Q. now destruct roof. }
  destruct (Hx (if roof then roof_y ind pix thr else pyr_y ind pix thr)) as [A2 B2].
  { intros i. assert (Q := proj2 (sig_bound roof pix thr i)). unfold sig_y in Q. now destruct roof. }
  split; [intros i Hi; split; auto|]. split; assumption.
Qed.

(* Equal light in the four pupils: zero slopes. *)
Theorem C73_flat (roof : bool) thr inter hist pix : (forall f, In f hist -> length f = npix) -> length pix = npix ->
  (0 < total_light ind pix thr)%Qc ->
  (forall i k, i < n -> k < 4 -> light ind pix thr k i = light ind pix thr 0 i) ->
  exists o, pyr_session roof ind no_post false None thr false inter (hist ++ [pix]) = Ok o /\
    xslopes extar (so_slopes o) = Ok (repeat (Fin 0%Qc) n) /\ yslopes extar (so_slopes o) = Ok (repeat (Fin 0%Qc) n).
Proof.
  intros F L T Eq. destruct (C73_slopes roof thr inter hist pix F L T) as (o & E & X & Y).
  exists o. split; [exact E|]. assert (N := qnat_pos n (some_subaps pix thr T)).
  assert (P : (0 < total_light ind pix thr / qnat n)%Qc) by (now apply qdiv_pos). apply Qc_pos_neq in P.
  assert (Z : forall a : Qc, a = 0%Qc -> (a / (total_light ind pix thr / qnat n))%Qc = 0%Qc) by (intros a ->; field; split; [now apply Qc_pos_neq|now apply Qc_pos_neq]).
  rewrite X, Y, repeat_map_seq. split; f_equal; apply map_ext_in; intros i Hi; apply in_seq in Hi; f_equal; apply Z; destruct roof;
  unfold roof_x, roof_y, pyr_x, pyr_y; rewrite ?(Eq i 1), ?(Eq i 2), ?(Eq i 3) by lia; ring.
Qed.

(* A brighter frame with the threshold raised in proportion: the same slopes. *)
Lemma light_scale g pix thr k i : (0 < g)%Qc -> light ind (map (fun x => (g * x)%Qc) pix) (g * thr)%Qc k i = (g * light ind pix thr k i)%Qc.
Proof.
  intros H. unfold light. set (j := Z.to_nat _). replace (nth j (map (fun x => (g * x)%Qc) pix) 0%Qc) with (g * nth j pix 0)%Qc.
  2:{ replace 0%Qc with (g * 0)%Qc at 2 by ring. now rewrite map_nth. }
  set (x := nth j pix 0%Qc). unfold positive_part. replace (g * x - g * thr)%Qc with (g * (x - thr))%Qc by ring. set (y := (x - thr)%Qc).
  destruct (Qclt_le_dec 0 (g * y)) as [A|A]; destruct (Qclt_le_dec 0 y) as [B|B]; try reflexivity.
  - exfalso. unfold Qclt, Qcle in *. rewrite this_mul in A. change (this 0%Qc) with 0%Q in *. nra.
  - exfalso. unfold Qclt, Qcle in *. rewrite this_mul in A. change (this 0%Qc) with 0%Q in *. nra.
  - ring.
Qed.
Theorem C73_scale (roof : bool) thr inter hist hist' pix g : (forall f, In f hist -> length f = npix) -> (forall f, In f hist' -> length f = npix) ->
  length pix = npix -> (0 < g)%Qc -> (0 < total_light ind pix thr)%Qc ->
  exists o o', pyr_session roof ind no_post false None thr false inter (hist ++ [pix]) = Ok o /\
    pyr_session roof ind no_post false None (g * thr)%Qc false inter (hist' ++ [map (fun x => g * x)%Qc pix]) = Ok o' /\
    xslopes extar (so_slopes o') = xslopes extar (so_slopes o) /\ yslopes extar (so_slopes o') = yslopes extar (so_slopes o).
Proof.
  intros F F' L H T. assert (S : forall k i, light ind (map (fun x => (g * x)%Qc) pix) (g * thr)%Qc k i = (g * light ind pix thr k i)%Qc)
    by (intros; now apply light_scale).
  assert (T' : total_light ind (map (fun x => (g * x)%Qc) pix) (g * thr)%Qc = (g * total_light ind pix thr)%Qc).
  { unfold total_light, qsum. etransitivity; [|exact (sumn_scale qc qc_field n g (light4 ind pix thr))]. apply (sumn_ext (A:=qc)). intros i _.
    unfold light4. rewrite !S. qceq. ring. }
  assert (P : (0 < total_light ind (map (fun x => (g * x)%Qc) pix) (g * thr)%Qc)%Qc).
  { rewrite T'. unfold Qclt in *. rewrite this_mul. change (this 0%Qc) with 0%Q in *. nra. }
  destruct (C73_slopes roof thr inter hist pix F L T) as (o & E & X & Y).
  destruct (C73_slopes roof (g * thr)%Qc inter hist' (map (fun x => (g * x)%Qc) pix) F' ltac:(rewrite map_length; exact L) P) as (o' & E' & X' & Y').
  exists o, o'. split; [exact E|]. split; [exact E'|]. rewrite X, X', Y, Y', T'.
  assert (N := qnat_pos n (some_subaps pix thr T)). apply Qc_pos_neq in N. assert (H' := Qc_pos_neq _ H). assert (Tn := Qc_pos_neq _ T).
  assert (Q : forall a : Qc, (g * a / (g * total_light ind pix thr / qnat n) = a / (total_light ind pix thr / qnat n))%Qc) by (intros a; field; auto).
  split; f_equal; apply map_ext; intros i; f_equal; destruct roof; unfold roof_x, roof_y, pyr_x, pyr_y; rewrite !S; rewrite <- Q; f_equal; ring.
Qed.

(* A frame without light: not a number. *)
Theorem C73_dark (roof : bool) thr inter hist pix : (forall f, In f hist -> length f = npix) -> length pix = npix -> 0 < n ->
  total_light ind pix thr = 0%Qc ->
  exists o, pyr_session roof ind no_post false None thr false inter (hist ++ [pix]) = Ok o /\
    xslopes extar (so_slopes o) = Ok (repeat NaN n) /\ yslopes extar (so_slopes o) = Ok (repeat NaN n).
Proof.
  intros F L N T. destruct (session_last ind npix G roof None thr inter hist pix F L) as (o & E & X & Y & _).
  exists o. split; [exact E|]. unfold pyr_inv in X, Y. rewrite ediv_pos in X, Y by (now apply qnat_pos). rewrite T in X, Y.
  assert (Z : (0 / qnat n)%Qc = 0%Qc) by (field; apply Qc_pos_neq; now apply qnat_pos).
  rewrite Z in X, Y. rewrite X, Y, repeat_map_seq. split; f_equal; apply map_ext; intros i; apply normalised_zero.
Qed.

(* A negative normalisation factor has no effect: the slopes are the bare signals. *)
Theorem C73_negative_norm (roof : bool) k thr inter hist pix : (forall f, In f hist -> length f = npix) -> length pix = npix -> (k < 0)%Qc ->
  let sx := if roof then roof_x ind pix thr else pyr_x ind pix thr in
  let sy := if roof then roof_y ind pix thr else pyr_y ind pix thr in
  exists o, pyr_session roof ind no_post false (Some k) thr false inter (hist ++ [pix]) = Ok o /\
    xslopes extar (so_slopes o) = Ok (map (fun i => Fin (sx i)) (seq 0 n)) /\
    yslopes extar (so_slopes o) = Ok (map (fun i => Fin (sy i)) (seq 0 n)).
Proof.
  intros F L T sx sy. destruct (session_last ind npix G roof (Some k) thr inter hist pix F L) as (o & E & X & Y & _).
  exists o. split; [exact E|]. unfold pyr_inv in X, Y. rewrite X, Y. split; f_equal; apply map_ext; intros i.
  - rewrite normalised_neg by exact T. unfold sig_x, sx. now destruct roof.
  - rewrite normalised_neg by exact T. unfold sig_y, sy. now destruct roof.
Qed.
End P.

(* The option shlike is rejected unless the normalisation factor is zero. *)
Theorem C73_shlike_rejected (roof : bool) ind p norm thr sfi inter frames : norm <> Some 0%Qc -> ind <> [] ->
  (forall r, In r ind -> r <> []) -> pyr_session roof ind p true norm thr sfi inter frames = Err ValueError.
Proof.
  intros H N R. unfold pyr_session, pyr_init. assert (E : pup_col ind 0 = Ok (map (fun r => nth 0 r 0%Z) ind)).
  { unfold pup_col. apply CutProofs.map_res_pure. intros r Hr. assert (Q := R r Hr). destruct r; [contradiction|reflexivity]. }
  rewrite E. cbn [bind]. destruct sfi; [reflexivity|]. cbn [andb].
  replace (negb match norm with Some k => is0 k | None => false end) with true; [reflexivity|].
  destruct norm as [k|]; [|reflexivity]. replace (is0 k) with false; [reflexivity|]. symmetry. apply is0_false. intros ->. now apply H.
Qed.

(* A slope as a fraction, for the examples *)
Inductive seen := F (q : Q) | PlusInf | MinusInf | NotNumber.
Definition see (e : ext) : seen := match e with Fin q => F (this q) | Inf false => PlusInf | Inf true => MinusInf | NaN => NotNumber end.
Definition see_out (r : res sl_out) : res (list seen * list Q * Q * seen) :=
  o <- r ;; Ok (map see (sl_val (so_slopes o)), map this (so_flux o), this (so_total o), see (so_mean o)).

Definition pup2 : list (list Z) := [[0; 1; 2; 3]; [4; 5; 6; 7]]%Z.
Definition pix2 : list Qc := map qi [3; 1; 1; 1; 2; 2; 4; 0]%Z.

Lemma pup2_ok : four_pupils pup2 8.
Proof. intros r [<-|[<-|[]]]; (split; [reflexivity|]); cbn; intros i H; repeat (destruct H as [<-|H]; [cbn; lia|]); contradiction. Qed.

Example C73_example :
  see_out (pyr_session false pup2 no_post false None 0%Qc false false [pix2]) =
    Ok ([F (2 # 7); F 0; F (-2 # 7); F (4 # 7)], [6; 8]%Q, 14%Q, F 7) /\
  see_out (pyr_session false pup2 no_post false None 1%Qc false true [map qi [9; 9; 9; 9; 9; 9; 9; 9]%Z; pix2]) =
    Ok ([F (4 # 7); F (-4 # 7); F (-2 # 7); F (6 # 7)], [2; 5]%Q, 7%Q, F (7 # 2)) /\
  see_out (pyr_session true pup2 no_post false (Some (qi 2)) 0%Qc false false [pix2]) =
    Ok ([F 1; F 0; F 0; F (-2)], [6; 8]%Q, 14%Q, F 7) /\
  see_out (pyr_session false pup2 no_post false None 0%Qc true false [pix2]) =
    Ok ([F (12 # 7); F (8 # 7); F (4 # 7); F (8 # 7); F (4 # 7); F (16 # 7); F (4 # 7); F 0], [6; 8]%Q, 14%Q, F 7).
Proof. vm_compute. repeat split. Qed.

(* Claim: a frame without light gives zero slopes. *)
Theorem C73_dark_refuted : exists ind pix o, four_pupils ind (length pix) /\ ind <> [] /\ (forall x, In x pix -> x = 0%Qc) /\
  pyr_session false ind no_post false None 0%Qc false false [pix] = Ok o /\ sl_val (so_slopes o) = [NaN; NaN; NaN; NaN].
Proof.
  exists pup2, (repeat 0%Qc 8). eexists. split; [exact pup2_ok|]. split; [discriminate|]. split; [intros x Hx; now apply repeat_spec in Hx|].
  split; vm_compute; reflexivity.
Qed.

(* Claim: the option shlike can be used.  Without a normalisation factor it is rejected, and
   with the factor zero, the only one accepted, no slope is a number. *)
Theorem C73_shlike_refuted : exists o,
  pyr_session false pup2 no_post true None 0%Qc false false [pix2] = Err ValueError /\
  pyr_session false pup2 no_post true (Some 0%Qc) 0%Qc false false [pix2] = Ok o /\ sl_val (so_slopes o) = [NaN; NaN; NaN; NaN].
Proof. eexists. repeat split; vm_compute; reflexivity. Qed.

(* Claim: slopes are proportional to the inverse of the normalisation factor. *)
Theorem C73_negative_norm_refuted : exists o1 o2,
  pyr_session false pup2 no_post false (Some (qi (-1))) 0%Qc false false [pix2] = Ok o1 /\
  pyr_session false pup2 no_post false (Some (qi (-2))) 0%Qc false false [pix2] = Ok o2 /\
  map see (sl_val (so_slopes o1)) = [F 2; F 0; F (-2); F 4] /\ map see (sl_val (so_slopes o2)) = [F 2; F 0; F (-2); F 4].
Proof. do 2 eexists. repeat split; vm_compute; reflexivity. Qed.

(* Claim: index arrays padded with -1, whose pupils have different numbers of pixels, are
   accepted. *)
Theorem C73_padding_refuted : exists ind, (forall r, In r ind -> length r = 4) /\
  (forall r i, In r ind -> In i r -> (-1 <= i < 8)%Z) /\
  pyr_session false ind no_post false None 0%Qc false false [pix2] = Err ValueError.
Proof.
  exists [[0; 1; 2; 3]; [4; 5; 6; 7]; [0; 1; 2; -1]]%Z. split; [|split].
  - intros r H; repeat (destruct H as [<-|H]; [reflexivity|]); contradiction.
  - intros r i H Hi; repeat (destruct H as [<-|H]; [repeat (destruct Hi as [<-|Hi]; [lia|]); contradiction|]); contradiction.
  - vm_compute. reflexivity.
Qed.

Print Assumptions C73_slopes.
Print Assumptions C73_counts.
Print Assumptions C73_fixed_norm.
Print Assumptions C73_intensity.
Print Assumptions C73_bounds.
Print Assumptions C73_flat.
Print Assumptions C73_scale.
Print Assumptions C73_dark.
Print Assumptions C73_negative_norm.
Print Assumptions C73_shlike_rejected.
Print Assumptions C73_dark_refuted.
Print Assumptions C73_shlike_refuted.
Print Assumptions C73_negative_norm_refuted.
Print Assumptions C73_padding_refuted.
