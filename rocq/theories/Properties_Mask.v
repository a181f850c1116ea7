(* C102: masks. *)
From Coq Require Import List Sorted ZArith Bool Arith QArith Qcanon Lqa Lia.
From Verif Require Import PyBase PyLemmas Arith OpticalModel NpModel SlopecModel InterpModel QcTac MaskModel MaskProofs.
Import ListNotations.
Local Open Scope Qc_scope.

(* the centre of the i-th of n pixels that divide the segment from -1 to 1 *)
Definition position (n i : nat) : Qc := - (1) + (qz (2 * Z.of_nat i + 1)) / qz (Z.of_nat n).
(* distances in the plane, squared *)
Definition dist2 (x y xc yc : Qc) : Qc := (x - xc) * (x - xc) + (y - yc) * (y - yc).
Definition pixel (m : bmatrix) (i j : nat) (b : bool) : Prop := exists row, nth_error m i = Some row /\ nth_error row j = Some b.

Lemma position_coord n i : (0 < n)%nat -> position n i = coord n i.
Proof.
  intros H. apply Qc_iff. unfold position, coord. rewrite this_add, this_opp, !this_div, !this_qz. pose proof (qz_pos n H). unfold Z.sub. rewrite !inject_Z_plus, inject_Z_opp. change (this 1) with 1%Q. field. lra.
Qed.
Lemma pixel_table h w f i j b : (i < h)%nat -> (j < w)%nat -> (pixel (table2 h w f) i j b <-> f i j = b).
Proof.
  intros Hi Hj. unfold pixel, table2. assert (E : nth_error (map (fun i => map (f i) (seq 0 w)) (seq 0 h)) i = Some (map (f i) (seq 0 w))).
  { erewrite map_nth_error; [reflexivity|]. rewrite (nth_error_nth' _ 0%nat) by (rewrite seq_length; exact Hi). now rewrite seq_nth. }
  rewrite E. assert (E2 : nth_error (map (f i) (seq 0 w)) j = Some (f i j)).
  { erewrite map_nth_error; [reflexivity|]. rewrite (nth_error_nth' _ 0%nat) by (rewrite seq_length; exact Hj). now rewrite seq_nth. }
  split; [intros [r [[= <-] X]]; rewrite E2 in X; congruence|]. intros <-. eauto.
Qed.

Lemma if_id (b : bool) : (if b then true else false) = b. Proof. now destruct b. Qed.
Ltac tab := repeat match goal with |- context [table ?n ?f] => change (table n f) with (table2 n n f) end.

(* a mask is made for two pixels or more, whatever the other arguments *)
Theorem C102_made : forall n o d xc yc square inverse centre, (exists m, make_mask n o d xc yc square inverse centre = Ok m) <-> (2 <= n)%nat.
Proof.
  intros n o d xc yc sq inv cp. split.
  - intros [m H]. destruct (Nat.le_gt_cases 2 n) as [L|L]; [exact L|]. rewrite make_mask_small in H by lia. discriminate.
  - intros H. destruct cp; [rewrite centre_on_pixel by exact H|]; rewrite make_mask_eq by exact H; eauto.
Qed.
Print Assumptions C102_made.
Theorem C102_refused : forall n o d xc yc square inverse centre e, make_mask n o d xc yc square inverse centre = Err e -> e = ValueError /\ (n <= 1)%nat.
Proof.
  intros n o d xc yc sq inv cp e H. destruct (Nat.le_gt_cases 2 n) as [L|L].
  - destruct cp; [rewrite centre_on_pixel in H by exact L|]; rewrite make_mask_eq in H by exact L; discriminate.
  - rewrite make_mask_small in H by lia. split; [congruence|lia].
Qed.
Print Assumptions C102_refused.

Lemma both (a b inv : bool) (P Q : Prop) : (a = true <-> P) -> (b = true <-> Q) -> (xorb inv (a && b) = negb inv <-> P /\ Q) /\ (xorb inv (a && b) = inv <-> ~ (P /\ Q)).
Proof. intros A B. destruct a, b, inv; cbn; intuition congruence. Qed.
(* a round mask: pixels whose centre is inside the circle and not inside the obstruction; inverted, the others *)
Theorem C102_round : forall n o d xc yc inverse m, make_mask n (Some o) (Some d) xc yc false inverse false = Ok m ->
  forall i j, (i < n)%nat -> (j < n)%nat ->
    (pixel m i j (negb inverse) <-> (dist2 (position n j) (position n i) xc yc < d * d /\ (d * o) * (d * o) <= dist2 (position n j) (position n i) xc yc)) /\
    (pixel m i j inverse <-> ~ (dist2 (position n j) (position n i) xc yc < d * d /\ (d * o) * (d * o) <= dist2 (position n j) (position n i) xc yc)).
Proof.
  intros n o d xc yc inv m H i j Hi Hj. assert (L : (2 <= n)%nat) by (destruct (Nat.le_gt_cases 2 n) as [L|L]; [exact L|]; rewrite make_mask_small in H by lia; discriminate).
  rewrite make_mask_eq in H by exact L. injection H as <-. tab. rewrite !(pixel_table n n) by assumption. rewrite !position_coord by lia.
  cbn [litf dia obs]. unfold lit_round, dist2. fold (sq (coord n j - xc)) (sq (coord n i - yc)) (sq d) (sq (d * o)).
  apply both; unfold Qclt, Qcle; [apply qlt_true|apply qge_true].
Qed.
Print Assumptions C102_round.
Theorem C102_square : forall n o d xc yc inverse m, make_mask n (Some o) (Some d) xc yc true inverse false = Ok m ->
  forall i j, (i < n)%nat -> (j < n)%nat ->
    let x := position n j - xc in let y := position n i - yc in
    (pixel m i j (negb inverse) <-> ((- d <= x /\ x <= d) /\ (- d <= y /\ y <= d)) /\ ((d * o <= x \/ d * o <= - x) \/ (d * o <= y \/ d * o <= - y))).
Proof.
  intros n o d xc yc inv m H i j Hi Hj x y. assert (L : (2 <= n)%nat) by (destruct (Nat.le_gt_cases 2 n) as [L|L]; [exact L|]; rewrite make_mask_small in H by lia; discriminate).
  rewrite make_mask_eq in H by exact L. injection H as <-. tab. rewrite (pixel_table n n) by assumption. unfold x, y. rewrite !position_coord by lia.
  cbn [litf dia obs]. unfold lit_square. clear x y. set (x := coord n j - xc). set (y := coord n i - yc).
  assert (T : negb (qlt d (qabs x)) && negb (qlt d (qabs y)) && (qge (qabs x) (d * o) || qge (qabs y) (d * o)) = true <-> ((- d <= x /\ x <= d) /\ (- d <= y /\ y <= d)) /\ ((d * o <= x \/ d * o <= - x) \/ (d * o <= y \/ d * o <= - y))).
  { rewrite !andb_true_iff, orb_true_iff, !qabs_le, !qge_true. unfold Qcle. rewrite !this_opp.
    assert (Q : forall u v, (this v <= this (qabs u))%Q <-> (this v <= this u)%Q \/ (this v <= - this u)%Q).
    { intros u v. unfold qabs. destruct (qlt u 0) eqn:E; [apply qlt_true in E|apply qlt_false in E]; change (this 0) with 0%Q in E; rewrite ?this_opp; split; intros W; [right; lra|destruct W; lra|left; lra|destruct W; lra]. }
    rewrite !Q. tauto. }
  rewrite <- T. destruct (negb (qlt d (qabs x)) && _ && _); clear; destruct inv; cbn; intuition congruence.
Qed.
Print Assumptions C102_square.
(* None stands for the whole frame and no obstruction *)
Theorem C102_defaults : forall n xc yc square inverse centre, make_mask n None None xc yc square inverse centre = make_mask n (Some 0) (Some 1) xc yc square inverse centre.
Proof. reflexivity. Qed.
Print Assumptions C102_defaults.

(* a centred mask looks the same from all eight sides *)
Theorem C102_symmetric : forall n o d square inverse m, make_mask n o d 0 0 square inverse false = Ok m ->
  forall i j b, (i < n)%nat -> (j < n)%nat -> (pixel m i j b -> pixel m j i b /\ pixel m (n - 1 - i) j b /\ pixel m i (n - 1 - j) b).
Proof.
  intros n o d s inv m H i j b Hi Hj. assert (L : (2 <= n)%nat) by (destruct (Nat.le_gt_cases 2 n) as [L|L]; [exact L|]; rewrite make_mask_small in H by lia; discriminate).
  rewrite make_mask_eq in H by exact L. injection H as <-. tab. rewrite !(pixel_table n n) by lia. rewrite !coord_mirror by assumption. intros <-.
  repeat split; f_equal; [apply lit_swap|rewrite lit_swap, lit_flip_x; apply lit_swap|apply lit_flip_x].
Qed.
Print Assumptions C102_symmetric.

(* a larger diameter keeps every pixel *)
Theorem C102_grows : forall n d d' xc yc square m m', 0 <= d -> d <= d' -> make_mask n None (Some d) xc yc square false false = Ok m -> make_mask n None (Some d') xc yc square false false = Ok m' ->
  forall i j, (i < n)%nat -> (j < n)%nat -> pixel m i j true -> pixel m' i j true.
Proof.
  intros n d d' xc yc s m m' P D H H' i j Hi Hj. assert (L : (2 <= n)%nat) by (destruct (Nat.le_gt_cases 2 n) as [L|L]; [exact L|]; rewrite make_mask_small in H by lia; discriminate).
  rewrite make_mask_eq in H, H' by exact L. injection H as <-. injection H' as <-. tab. rewrite !(pixel_table n n) by lia. cbv beta. unfold xorb. rewrite !if_id. unfold Qcle in P, D. change (this 0) with 0%Q in P.
  cbn [dia obs]. destruct s; cbn [litf]; unfold lit_square, lit_round.
  - rewrite !andb_true_iff, !qabs_le. intros [[A B] C]. repeat split; try lra. rewrite orb_true_iff, !qge_true. left. replace (d' * 0) with 0 by ring. change (this 0) with 0%Q. unfold qabs. destruct (qlt _ 0) eqn:E; [apply qlt_true in E|apply qlt_false in E]; change (this 0) with 0%Q in E; rewrite ?this_opp; lra.
  - rewrite !andb_true_iff, !qlt_true, !qge_true. intros [A B]. split; [pose proof (sq_mono d d' P D); lra|]. replace (sq (d' * 0)) with 0 by (unfold sq; ring). change (this 0) with 0%Q. rewrite this_add. pose proof (sq_nonneg (coord n j - xc)). pose proof (sq_nonneg (coord n i - yc)). lra.
Qed.
Print Assumptions C102_grows.

Lemma ok_inj {A} (a b : A) : Ok a = Ok b -> a = b. Proof. congruence. Qed.
Lemma three (p q r z1 z2 : bool) : z1 = true -> z2 = true -> r = negb q -> (p && r = true <-> p && z1 = true /\ q && z2 = false).
Proof. intros -> -> ->. destruct p, q; cbn; intuition congruence. Qed.
(* a round mask with an obstruction is the full one less the obstruction, exactly *)
Theorem C102_obstruction : forall n o d xc yc m full hole, 0 <= o -> 0 <= d ->
  make_mask n (Some o) (Some d) xc yc false false false = Ok m -> make_mask n None (Some d) xc yc false false false = Ok full -> make_mask n None (Some (d * o)) xc yc false false false = Ok hole ->
  forall i j, (i < n)%nat -> (j < n)%nat -> (pixel m i j true <-> pixel full i j true /\ pixel hole i j false).
Proof.
  intros n o d xc yc m full hole Po Pd H H1 H2 i j Hi Hj. assert (L : (2 <= n)%nat) by (destruct (Nat.le_gt_cases 2 n) as [L|L]; [exact L|]; rewrite make_mask_small in H by lia; discriminate).
  rewrite make_mask_eq in H, H1, H2 by exact L. apply ok_inj in H, H1, H2. subst m full hole. tab. rewrite !(pixel_table n n) by lia. cbv beta. unfold xorb. rewrite !if_id. cbn [litf dia obs]. unfold lit_round.
  set (s := sq (coord n j - xc) + sq (coord n i - yc)). assert (N : (0 <= this s)%Q) by (unfold s; rewrite this_add; pose proof (sq_nonneg (coord n j - xc)); pose proof (sq_nonneg (coord n i - yc)); lra).
  assert (Z : forall u, qge s (sq (u * 0)) = true) by (intros u; apply qge_true; replace (sq (u * 0)) with 0 by (unfold sq; ring); exact N). apply three; [apply Z|apply Z|reflexivity].
Qed.
Print Assumptions C102_obstruction.
(* a square one keeps the edge of its obstruction *)
Theorem C102_obstruction_square_refuted : exists n o d m hole i j, 0 <= o /\ 0 <= d /\ make_mask n (Some o) (Some d) 0 0 true false false = Ok m /\ make_mask n None (Some (d * o)) 0 0 true false false = Ok hole /\ pixel m i j true /\ pixel hole i j true.
Proof.
  exists 4%nat, (Q2Qc (1 # 4)), 1. eexists. eexists. exists 1%nat, 1%nat. split; [discriminate|]. split; [discriminate|]. split; [vm_compute; reflexivity|]. split; [vm_compute; reflexivity|].
  split; eexists; split; reflexivity.
Qed.
Print Assumptions C102_obstruction_square_refuted.

(* centeronpixel moves the centre to the first pixel, whatever the requested centre *)
Theorem C102_centre_on_pixel : forall n o d xc yc square inverse, make_mask n o d xc yc square inverse true = make_mask n o d (position n 0) (position n 0) square inverse false.
Proof.
  intros n o d xc yc s inv. destruct (Nat.le_gt_cases 2 n) as [L|L]; [rewrite position_coord by lia; now apply centre_on_pixel|]. now rewrite !make_mask_small by lia.
Qed.
Print Assumptions C102_centre_on_pixel.
(* so the pixel nearest to the requested centre need not be lit, although without the option it is *)
Theorem C102_centre_on_pixel_refuted : exists n d m m', make_mask n None (Some d) 0 0 false false true = Ok m /\ make_mask n None (Some d) 0 0 false false false = Ok m' /\ pixel m' 2 2 true /\ pixel m 2 2 false.
Proof.
  exists 5%nat, (Q2Qc (1 # 2)). eexists. eexists. split; [vm_compute; reflexivity|]. split; [vm_compute; reflexivity|]. split; eexists; split; reflexivity.
Qed.
Print Assumptions C102_centre_on_pixel_refuted.

(* the two libraries of masks draw the same disc on a square frame of any size *)
Theorem C102_same_disc : forall n, (2 <= n)%nat -> make_mask n None None 0 0 false false false = Ok (transmission_of (circular n n None None)).
Proof. exact same_disc. Qed.
Print Assumptions C102_same_disc.

(* CircularMask: masked outside, the rim belongs to the disc *)
Theorem C102_circular : forall h w r cy cx i j, (i < h)%nat -> (j < w)%nat ->
  (pixel (circular h w (Some r) (Some (cy, cx))) i j false <-> dist2 (qz (Z.of_nat j) + 1 / (1 + 1)) (qz (Z.of_nat i) + 1 / (1 + 1)) cx cy <= r * r) /\
  (pixel (transmission_of (circular h w (Some r) (Some (cy, cx)))) i j true <-> pixel (circular h w (Some r) (Some (cy, cx))) i j false) /\
  (pixel (transmission_of (circular h w (Some r) (Some (cy, cx)))) i j false <-> pixel (circular h w (Some r) (Some (cy, cx))) i j true).
Proof.
  intros h w r cy cx i j Hi Hj. unfold transmission_of. rewrite circular_eq, not_table2. rewrite !(pixel_table h w) by assumption. cbn [radius_of].
  pose proof (in_disc_true r (cy, cx) i j) as D. cbn [fst snd] in D. unfold Qcle, dist2. fold (centre_of i) (centre_of j). fold (sq (centre_of j - cx)) (sq (centre_of i - cy)) (sq r).
  rewrite <- D. destruct (in_disc r (cy, cx) i j); clear; cbn; intuition congruence.
Qed.
Print Assumptions C102_circular.
Theorem C102_circular_defaults : forall h w, circular h w None None = circular h w (Some (qz (Z.of_nat (Nat.min h w)) / qz 2)) (Some (qz (Z.of_nat h) / qz 2, qz (Z.of_nat w) / qz 2)).
Proof.
  intros h w. unfold circular, centre_default. cbn [radius_of].
  assert (E : forall n, 1 / (1 + 1) * qz (Z.of_nat n) = qz (Z.of_nat n) / qz 2) by (intros n; apply Qc_iff; rewrite this_mul, (this_div (qz (Z.of_nat n))), !this_qz; change (this (1 / (1 + 1))) with (1 # 2)%Q; change (inject_Z 2) with 2%Q; setoid_replace (1 # 2)%Q with (1 / 2)%Q by reflexivity; field).
  now rewrite !E.
Qed.
Print Assumptions C102_circular_defaults.

(* AnnularMask: needs a centre; the disc less the inner disc, rim included *)
Theorem C102_annular : forall h w r c inner, (annular h w r None inner = Err AttributeError) /\
  (annular h w r (Some c) 0 = Ok (circular h w r (Some c))) /\
  (inner <> 0 -> exists m, annular h w r (Some c) inner = Ok m /\ forall i j, (i < h)%nat -> (j < w)%nat ->
     (pixel m i j false <-> pixel (circular h w r (Some c)) i j false /\ pixel (circular h w (Some inner) (Some c)) i j true)).
Proof.
  intros h w r c inner. split; [reflexivity|]. split.
  - rewrite annular_eq, circular_eq. f_equal. unfold table2. apply map_ext. intros. apply map_ext. intros. destruct (Qc_eq_dec 0 0); [now rewrite andb_true_r|congruence].
  - intros N. rewrite annular_eq. eexists. split; [reflexivity|]. intros i j Hi Hj. rewrite !circular_eq. rewrite !(pixel_table h w) by assumption. cbn [radius_of]. destruct (Qc_eq_dec inner 0); [contradiction|].
    destruct (in_disc (radius_of h w r) c i j), (in_disc inner c i j); clear; cbn; intuition congruence.
Qed.
Print Assumptions C102_annular.

(* the flat indices of a mask: increasing, each pixel of the disc once *)
Theorem C102_indices : forall h w r c, StronglySorted lt (in_mask_indices (circular h w r c)) /\
  forall k, In k (in_mask_indices (circular h w r c)) <-> (k < h * w)%nat /\ pixel (circular h w r c) (k / w) (k mod w) false.
Proof.
  intros h w r c. unfold in_mask_indices. split; [apply flat_true_sorted|]. intros k. rewrite flat_true_spec. unfold transmission_of. rewrite circular_eq, not_table2, length_concat_table2.
  split; intros [L N]; (split; [exact L|]); assert (W : (w <> 0)%nat) by nia; assert (K : (k / w < h)%nat) by (apply Nat.div_lt_upper_bound; lia); pose proof (Nat.mod_upper_bound k w W) as M.
  - rewrite concat_table2 in N by exact L. apply pixel_table; try assumption. now apply negb_true_iff.
  - apply pixel_table in N; try assumption. rewrite concat_table2 by exact L. now rewrite N.
Qed.
Print Assumptions C102_indices.

Example C102_round_example : make_mask 4 None None 0 0 false false false = Ok [[false; true; true; false]; [true; true; true; true]; [true; true; true; true]; [false; true; true; false]].
Proof. vm_compute. reflexivity. Qed.
Example C102_annular_example : annular 3 4 None (Some (qz 3 / qz 2, qz 2)) (Q2Qc (3 # 4)) = Ok [[true; false; false; true]; [false; true; true; false]; [true; false; false; true]] /\
  in_mask_indices (circular 3 4 (Some (Q2Qc (3 # 4))) (Some (qz 3 / qz 2, qz 2))) = [5; 6]%nat.
Proof. split; vm_compute; reflexivity. Qed.
