(* More properties of extended sources: where the points of each sampling are, and which light they take. *)
From Coq Require Import String List ZArith Bool Arith Lia QArith Qcanon Lqa.
From Verif Require Import PyBase PyLemmas Arith OpticalModel SlopecSpec RebinModel InterpModel SlopecModel ExtModel RadialModel ScreenModel OptModel QcTac MmseProofs RadialProofs ExtSrcModel GeomProofs Properties_ExtSrc.
Import ListNotations.
Local Open Scope Qc_scope.
Local Strategy 100 [qround qlt Qcdiv Qcinv Qcmult Qcplus Q2Qc].

(* numbers of points are rounded to the nearest integer, halves to the even one *)
Theorem C124_nearest : forall x, (inject_Z (qround x) - (1 # 2) <= this x <= inject_Z (qround x) + (1 # 2))%Q /\
  ((this x == inject_Z (qround x) - (1 # 2) \/ this x == inject_Z (qround x) + (1 # 2))%Q -> Z.even (qround x) = true).
Proof.
  intros x. split; [apply qround_near|]. intros H.
  assert (T : exists z, (this x == inject_Z z + (1 # 2))%Q).
  { destruct H as [H|H]; [exists (qround x - 1)%Z|exists (qround x); exact H]. rewrite H. unfold Z.sub. rewrite inject_Z_plus. change (inject_Z (- (1))) with (- (1))%Q. ring. }
  destruct T as [z T]. rewrite (qround_tie z x T). destruct (Z.even z) eqn:Ez; [exact Ez|]. change (z + 1)%Z with (Z.succ z). rewrite Z.even_succ, <- Z.negb_even, Ez. reflexivity.
Qed.
Print Assumptions C124_nearest.

Section More.
Context (pi : Qc) (cosa sina : nat -> nat -> Qc) (gauss : Qc -> Qc -> Qc) (fwhm root3 asec2rad : Qc) (interp : image -> Qc -> Qc -> Qc).

(* ---------------------------------------------------------------- Gaussian on a grid *)
Definition cell (n : nat) (s : Qc) (i : nat) : Qc := (qn i - qn n / two + / two) * s.
Lemma qz_qn : forall n, (0 <= n)%Z -> qz n = qn (Z.to_nat n).
Proof. intros n H. unfold qn. rewrite Z2Nat.id by exact H. reflexivity. Qed.
Lemma cells_odd : forall n s (f : Qc -> Qc), (forall x, f (- x) = - f x) -> lsum (map f (map (cell n s) (seq 0 n))) = 0.
Proof.
  intros n s f Ho. rewrite map_map, lsum_seq. destruct n as [|m]; [reflexivity|]. apply twice_zero. rewrite (qs_rev m) at 1.
  rewrite (qs_ext (S m) _ (fun k => - (1) * f (cell (S m) s k))).
  - rewrite qs_scale. ring.
  - intros k Hk. replace (- (1) * f (cell (S m) s k)) with (- f (cell (S m) s k)) by ring. rewrite <- Ho. f_equal. unfold cell.
    assert (E : qn (m - k) = qn m - qn k) by (rewrite !InterpProofs.qn_nat; apply InterpProofs.qnat_sub; lia). rewrite E.
    assert (F : qn (S m) = qn m + 1) by (rewrite !InterpProofs.qn_nat; apply InterpProofs.qnat_S). rewrite F.
    assert (D : two = 1 + 1) by (apply Qc_is_canon; reflexivity). rewrite D. field. discriminate.
Qed.
Lemma largest_acc : forall l a, a <= fold_left (fun a b => if qlt a b then b else a) l a /\
  (forall x, In x l -> x <= fold_left (fun a b => if qlt a b then b else a) l a) /\
  (fold_left (fun a b => if qlt a b then b else a) l a = a \/ In (fold_left (fun a b => if qlt a b then b else a) l a) l).
Proof.
  induction l as [|x l IH]; intros a; cbn [fold_left]; [repeat split; [apply Qcle_refl|intros y []|now left]|].
  destruct (IH (if qlt a x then x else a)) as (L & U & D). destruct (qlt a x) eqn:Q.
  - apply qlt_true in Q. split; [apply (Qcle_trans _ x); [now apply Qclt_le_weak|exact L]|]. split; [intros y [<-|Hy]; [exact L|now apply U]|]. right. destruct D as [D|D]; [left; now rewrite D|now right].
  - apply qlt_false in Q. split; [exact L|]. split; [intros y [<-|Hy]; [now apply (Qcle_trans _ a)|now apply U]|]. destruct D as [D|D]; [now left|right; now right].
Qed.
(* the points are centres of cells of one step, as many on each side; each weighs the Gaussian at its distance; the points are
   exactly those whose weight is at least a tenth of the largest; and the weighted positions balance *)
Theorem C124_gauss_grid : (forall t r, 0 < gauss t r) -> forall size s l, gauss_grid gauss fwhm size s = Ok l ->
  exists n top, (0 < n)%nat /\ Z.of_nat n = (qround (two * (qz 3 * (size * fwhm) / s) / two) * 2)%Z /\
  let x := fun i => (qn i - qn n / two + / two) * s in
  let w := fun i j => gauss (size * fwhm) (x i * x i + x j * x j) in
  (forall i j, (i < n)%nat -> (j < n)%nat -> w i j <= top) /\ (exists i j, (i < n)%nat /\ (j < n)%nat /\ w i j = top) /\
  (forall q, In q l <-> exists i j, (i < n)%nat /\ (j < n)%nat /\ q = (x i, x j, w i j) /\ top <= qz 10 * w i j) /\
  lsum (map (fun q => fst (fst q) * snd q) l) = 0 /\ lsum (map (fun q => snd (fst q) * snd q) l) = 0.
Proof.
  intros G size s l H. unfold gauss_grid in H. cbv zeta in H. set (z := (qround _ * 2)%Z) in *. clearbody z. set (sg := size * fwhm) in *. destruct (Z.leb_spec z 0) as [|L]; [discriminate|].
  rewrite (qz_qn z) in H by lia. set (n := Z.to_nat z) in *. apply ok_inj in H. change (fun i : nat => (qn i - qn n / two + / two) * s) with (cell n s) in H.
  set (g := grid (map (cell n s) (seq 0 n))) in *. set (ws := map (fun p => (p, gauss sg (fst p * fst p + snd p * snd p))) g) in *. set (top := largest (map snd ws)) in *.
  assert (NP : (0 < n)%nat) by (unfold n; lia).
  assert (GI : forall p, In p g <-> exists i j, (i < n)%nat /\ (j < n)%nat /\ p = (cell n s i, cell n s j)).
  { intros p. unfold g, grid. rewrite in_flat_map. split.
    - intros (y & Hy & Hp). apply in_map_iff in Hy, Hp. destruct Hy as (j & <- & Hj), Hp as (x & <- & Hx). apply in_map_iff in Hx. destruct Hx as (i & <- & Hi). apply in_seq in Hi, Hj. exists i, j. repeat split; lia.
    - intros (i & j & Hi & Hj & ->). exists (cell n s j). split; [apply in_map, in_seq; lia|]. apply (in_map (fun x => (x, cell n s j))). apply in_map, in_seq. lia. }
  destruct (largest_acc (map snd ws) 0) as (_ & U & D). fold (largest (map snd ws)) in U, D. fold top in U, D.
  assert (UB : forall i j, (i < n)%nat -> (j < n)%nat -> gauss sg (cell n s i * cell n s i + cell n s j * cell n s j) <= top).
  { intros i j Hi Hj. apply U. unfold ws. rewrite map_map. apply in_map_iff. exists (cell n s i, cell n s j). split; [reflexivity|]. apply GI. now exists i, j. }
  exists n, top. split; [exact NP|]. split; [unfold n; lia|]. cbv zeta. change (forall i, (qn i - qn n / two + / two) * s = cell n s i) with (forall i, cell n s i = cell n s i).
  split; [exact UB|]. split; [|split; [|split]].
  - destruct D as [D|D].
    + exfalso. assert (B := UB 0%nat 0%nat NP NP). rewrite D in B. apply (Qcle_not_lt _ _ B). apply G.
    + unfold ws in D. rewrite map_map in D. apply in_map_iff in D. destruct D as (p & Ep & Hp). apply GI in Hp. destruct Hp as (i & j & Hi & Hj & ->). exists i, j. split; [exact Hi|]. split; [exact Hj|exact Ep].
  - intros q. rewrite <- H, filter_In. unfold ws. rewrite in_map_iff. split.
    + intros [(p & <- & Hp) F]. apply GI in Hp. destruct Hp as (i & j & Hi & Hj & ->). exists i, j. split; [exact Hi|]. split; [exact Hj|]. split; [reflexivity|].
      cbn [fst snd] in F. apply negb_true_iff, qlt_false in F. unfold cell in F. clear - F.
      set (w := gauss _ _) in *. clearbody w top. apply (Qcmult_le_compat_r _ _ (qz 10)) in F; [|discriminate]. replace (/ qz 10 * top * qz 10) with top in F by (field; discriminate). rewrite Qcmult_comm. exact F.
    + intros (i & j & Hi & Hj & -> & T). split; [exists (cell n s i, cell n s j); split; [reflexivity|]; apply GI; now exists i, j|].
      cbn [fst snd]. apply negb_true_iff, qlt_false. clear - T. set (w := gauss _ _) in *. clearbody w top. apply (Qcmult_le_compat_r _ _ (/ qz 10)) in T; [|discriminate].
      replace (qz 10 * w * / qz 10) with w in T by (field; discriminate). rewrite Qcmult_comm. exact T.
  - rewrite <- H, lsum_filter. unfold ws. rewrite map_map. unfold g. rewrite lsum_grid. apply in_lsum_zero. intros y. cbn [fst snd].
    apply (cells_odd n s (fun x => if negb (qlt (gauss sg (x * x + y * y)) (/ qz 10 * top)) then x * gauss sg (x * x + y * y) else 0)).
    intros x. replace (- x * - x) with (x * x) by ring. destruct (negb _); ring.
  - rewrite <- H, lsum_filter. unfold ws. rewrite map_map. unfold g. rewrite lsum_grid. cbn [fst snd].
    apply (cells_odd n s (fun y => lsum (map (fun x => if negb (qlt (gauss sg (x * x + y * y)) (/ qz 10 * top)) then y * gauss sg (x * x + y * y) else 0) (map (cell n s) (seq 0 n))))).
    intros y. match goal with |- _ = - ?t => replace (- t) with (- (1) * t) by ring end. rewrite <- lsum_scale. f_equal. apply map_ext. intros x. replace (- y * - y) with (y * y) by ring. destruct (negb _); ring.
Qed.

(* ---------------------------------------------------------------- light of an image *)
(* on a grid: the light is that of the image at the position of the point, in pixels from the centre, and the points are inside *)
Theorem C124_psf_grid : forall im scale s l, psf_grid interp im scale s = Ok l -> forall x y w, In (x, y, w) l ->
  let c := fun a => a / scale + qn (im_n im) / two in
  w = interp im (c y) (c x) /\ 0 <= c x /\ c x < qn (im_n im) - 1 /\ 0 <= c y /\ c y < qn (im_n im) - 1.
Proof.
  intros im scale s l H x y w Hi c. unfold psf_grid in H. cbv zeta in H. set (m := qround _) in *. clearbody m. set (k := if Z.even m then _ else _) in *. clearbody k. destruct (k <? 0)%Z; [discriminate|].
  apply ok_inj in H. rewrite <- H in Hi. clear H. apply in_flat_map in Hi. destruct Hi as (p & _ & Hi). fold (c (fst p)) in Hi. fold (c (snd p)) in Hi.
  destruct (_ && _) eqn:B in Hi; [|destruct Hi]. destruct Hi as [Hi|[]]. apply andb_true_iff in B. destruct B as [B1 B2]. apply andb_true_iff in B1, B2. destruct B1 as [B1 B3], B2 as [B2 B4].
  apply negb_true_iff, qlt_false in B1. apply negb_true_iff, qlt_false in B2. apply qlt_true in B3, B4. destruct p as [px py]. cbn [fst snd] in *. inversion Hi. subst px py w. repeat split; assumption.
Qed.
(* in rings: the same, where the position is moved to the nearest edge of the image *)
Theorem C124_psf_polar : forall im scale s l, scale <> 0 -> psf_polar cosa sina interp im scale s = Ok l -> forall x y w, In (x, y, w) l ->
  exists u v, w = interp im v u /\
  (let c := fun a => a / scale + qn (im_n im) / two in
   let nearest := fun (t p : Qc) => (0 <= t -> t <= qn (im_n im) - 1 -> p = t) /\ (t < 0 -> p = 0) /\ (qn (im_n im) - 1 < t -> 0 <= t -> p = qn (im_n im) - 1) in
   nearest (c x) u /\ nearest (c y) v).
Proof.
  intros im scale s l Hs H x y w Hi. unfold psf_polar in H. cbv zeta in H. set (m := qround _) in *. clearbody m. destruct (m <=? 0)%Z; [discriminate|]. apply ok_inj in H. rewrite <- H in Hi. clear H.
  apply in_map_iff in Hi. destruct Hi as (p & Ep & _). destruct p as [px py]. cbn [fst snd] in Ep. inversion Ep. subst x y w. clear Ep.
  exists (clip 0 (qn (im_n im) - 1) (px + qn (im_n im) / two)), (clip 0 (qn (im_n im) - 1) (py + qn (im_n im) / two)). split; [reflexivity|]. cbv zeta beta.
  replace (px * scale / scale) with px by (field; exact Hs). replace (py * scale / scale) with py by (field; exact Hs).
  assert (N : forall t, (0 <= t -> t <= qn (im_n im) - 1 -> clip 0 (qn (im_n im) - 1) t = t) /\ (t < 0 -> clip 0 (qn (im_n im) - 1) t = 0) /\ (qn (im_n im) - 1 < t -> 0 <= t -> clip 0 (qn (im_n im) - 1) t = qn (im_n im) - 1)).
  { intros t. unfold clip. split; [|split].
    - intros A B. replace (qlt t 0) with false by (symmetry; now apply qlt_false). now replace (qlt (qn (im_n im) - 1) t) with false by (symmetry; now apply qlt_false).
    - intros A. now replace (qlt t 0) with true by (symmetry; now apply qlt_true).
    - intros A B. replace (qlt t 0) with false by (symmetry; now apply qlt_false). now replace (qlt (qn (im_n im) - 1) t) with true by (symmetry; now apply qlt_true). }
  split; apply N.
Qed.

(* ---------------------------------------------------------------- rings *)
(* the points of a ring are at its radius, and the rings of a disc are inside it *)
Theorem C124_rings_inside : (forall k j, cosa k j * cosa k j + sina k j * sina k j = 1) -> forall c size s l, 0 <= size -> rings pi cosa sina c size s = Ok l ->
  forall x y, In (x, y) l -> x * x + y * y <= size / two * (size / two).
Proof.
  intros T c size s l Hs H x y Hi. unfold rings in H. cbv zeta in H. set (n := number_of_rings c (size / two)) in *. clearbody n. destruct (Z.eqb_spec n 0) as [|NZ]; [discriminate|]. apply ok_inj in H. rewrite <- H in Hi. clear H l.
  assert (HP : 0 <= size / two) by (change (size / two) with (size * / two); rewrite <- (Qcmult_0_l (/ two)); apply Qcmult_le_compat_r; [exact Hs|discriminate]).
  set (h := size / two) in *. clearbody h. apply in_app_iff in Hi. destruct Hi as [Hi|Hi].
  - destruct (1 <? n)%Z; [|destruct Hi]. destruct Hi as [Hi|[]]. inversion Hi. replace (0 * 0 + 0 * 0) with 0 by ring. apply sq_ge.
  - apply in_flat_map in Hi. destruct Hi as (r & Hr & Hi). apply in_map_iff in Hi. destruct Hi as (j & Ej & _). inversion Ej. subst x y. clear Ej.
    replace (r * cosa (ring_points pi s r) j * (r * cosa (ring_points pi s r) j) + r * sina (ring_points pi s r) j * (r * sina (ring_points pi s r) j)) with (r * r * (cosa (ring_points pi s r) j * cosa (ring_points pi s r) j + sina (ring_points pi s r) j * sina (ring_points pi s r) j)) by ring. rewrite T, Qcmult_1_r.
    unfold radii in Hr. cbv zeta in Hr. apply in_map_iff in Hr. destruct Hr as (i & Er & Hi). apply in_seq in Hi. rewrite (qz_qn n) in Er by lia. set (k := Z.to_nat n) in *.
    assert (KP : 0 < qn k) by (apply qn_pos; lia). assert (KN := pos_neq _ KP).
    assert (IK : qn i + 1 <= qn k) by (rewrite !InterpProofs.qn_nat, <- InterpProofs.qnat_S; apply InterpProofs.qnat_le; lia).
    assert (I0 : 0 <= qn i) by (change 0 with (qn 0); rewrite !InterpProofs.qn_nat; apply InterpProofs.qnat_le; lia).
    assert (R : r * qn k = h * (/ two + qn i)) by (rewrite <- Er; field; split; [exact two_nz|exact KN]).
    assert (W : / two + / two = 1) by (apply Qc_is_canon; reflexivity).
    assert (W0 : 0 < / two) by reflexivity.
    set (t := / two) in *. clearbody t.
    assert (R0 : 0 <= r). { apply Qcnot_lt_le. intros N. assert (A : r * qn k < 0) by (rewrite <- (Qcmult_0_l (qn k)); apply Qcmult_lt_compat_r; assumption). rewrite R in A. assert (B : 0 <= h * (t + qn i)) by (rewrite <- (Qcmult_0_l (t + qn i)); apply Qcmult_le_compat_r; [exact HP|qclra]). qclra. }
    assert (RH : r <= h). { apply Qcnot_lt_le. intros N. assert (A : h * qn k < r * qn k) by (apply Qcmult_lt_compat_r; assumption). rewrite R in A. assert (B : (t + qn i) * h <= qn k * h) by (apply Qcmult_le_compat_r; [qclra|exact HP]). rewrite (Qcmult_comm _ h), (Qcmult_comm _ h) in B. qclra. }
    apply (Qcle_trans _ (h * r)); [now apply Qcmult_le_compat_r|]. rewrite Qcmult_comm. now apply Qcmult_le_compat_r.
Qed.
End More.
Print Assumptions C124_gauss_grid.
Print Assumptions C124_psf_grid.
Print Assumptions C124_psf_polar.
Print Assumptions C124_rings_inside.

Definition ex_show (r : res (list (Qc * Qc * Qc))) : option (list (Q * Q * Q)) := match r with Ok l => Some (map (fun q => let '(a, b, c) := q in (this a, this b, this c)) l) | Err _ => None end.
Example C124_gauss_grid_example : ex_show (gauss_grid (fun _ r => / (1 + r)) (/ qz 3) 1 1) = Some [(-1#2, -1#2, 2#3); (1#2, -1#2, 2#3); (-1#2, 1#2, 2#3); (1#2, 1#2, 2#3)]%Q.
Proof. vm_compute. reflexivity. Qed.
Example C124_psf_polar_example : ex_show (psf_polar (fun _ _ => 1) (fun _ _ => 0) (fun _ y x => qz 10 * y + x) (mkImage 2 (fun _ _ => 1)) 1 1) = Some [(0, 0, 11); (2#3, 0, 11); (2#3, 0, 11); (2#3, 0, 11); (2#3, 0, 11); (2#3, 0, 11); (2#3, 0, 11)]%Q.
Proof. vm_compute. reflexivity. Qed.
