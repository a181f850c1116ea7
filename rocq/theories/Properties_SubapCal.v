(* Properties of the calibration of the sub-apertures of a Shack-Hartmann sensor (C118). *)
From Coq Require Import String List ZArith Bool Arith QArith Qcanon Lia Lqa Sorting.Sorted.
From Verif Require Import PyBase PyLemmas OpticalModel ExtModel QcTac CalFileModel SubapCalModel SubapCalSpec SubapCalProofs.
Import ListNotations.
Local Open Scope nat_scope.

Definition uniform : image := fun _ _ => 1%Qc.
Definition ramp : image := fun r c => Q2Qc (Z.of_nat (r * r + c) # 1).
Definition half : Qc := Q2Qc (1 # 2).
Definition places (r : res subapdata) : res (list (list Z) * list nat) := d <- r ;; Ok (s_idxs d, s_map d).

(* An image of n * s rows (and as many columns or more) is cut in n x n tiles of s pixels.  The tiles kept are those
   brighter than the threshold times the brightest; they are reported in the order of the columns of tiles, with their
   place in the grid and the numbers of all their pixels. *)
Theorem C118_tiles (n s cols : nat) (th t : Qc) (img : image) : n <> 0 -> s <> 0 -> n * s <= cols ->
  is_top n (fun i j => flux img (tile (n * s) cols s j i)) t ->
  exists sel, StronglySorted before sel /\
    (forall i j, In (i, j) sel <-> i < n /\ j < n /\ (th * t < flux img (tile (n * s) cols s j i))%Qc) /\
    (sel = [] -> detect n (n * s) cols th img = Err ValueError) /\
    (sel <> [] -> detect n (n * s) cols th img =
      Ok (mkSub (map (fun ij => map (number cols) (tile (n * s) cols s (snd ij) (fst ij))) sel) (map (fun ij => snd ij * n + fst ij) sel) n th)).
Proof.
  intros N S C T.
  assert (Q : forall i j, i < n -> j < n -> square n (n * s) cols i j = tile (n * s) cols s j i) by (intros; now apply square_tile).
  destruct (detect_full n (n * s) cols th img (fun i j => tile (n * s) cols s j i) t N Q) as (sel & A & B & E); [| exact T |].
  - intros i j I J. unfold tile. rewrite (filter_prod (fun r => r / s =? j) (fun r => r / s =? i)), filter_div, (filter_cols s i n cols) by assumption.
    rewrite list_prod_length, !seq_length, Nat2Z.inj_mul.
    destruct (exact_limits n (n * s) N s 0 eq_refl) as (-> & _). reflexivity.
  - exists sel. split; [exact A|]. split; [exact B|]. split; [intros ->; exact E | destruct sel; [contradiction | intros _; exact E]].
Qed.
Print Assumptions C118_tiles.
Example C118_tiles_example :
  places (detect 2 4 4 half ramp) = Ok ([[8; 9; 12; 13]; [10; 11; 14; 15]]%Z, [2; 3]) /\
  map (flux ramp) [tile 4 4 2 0 0; tile 4 4 2 0 1; tile 4 4 2 1 0; tile 4 4 2 1 1] = map (fun z => Q2Qc (z # 1)) [4; 12; 28; 36]%Z.
Proof. split; vm_compute; reflexivity. Qed.
(* every pixel is in one tile *)
Theorem C118_partition (n s cols r c : nat) : n <> 0 -> s <> 0 -> n * s <= cols -> r < n * s -> c < n * s ->
  exists i j, i < n /\ j < n /\ In (r, c) (tile (n * s) cols s j i) /\
    forall i' j', In (r, c) (tile (n * s) cols s j' i') -> i' = i /\ j' = j.
Proof.
  intros N S C Hr Hc. exists (c / s), (r / s).
  assert (D : forall x, x < n * s -> x / s < n) by (intros; apply Nat.div_lt_upper_bound; lia).
  repeat split; [now apply D | now apply D | | |].
  - unfold tile. rewrite filter_In, in_prod_iff, !in_seq. cbn [fst snd]. rewrite !Nat.eqb_refl. repeat split; lia.
  - unfold tile in H. rewrite filter_In in H. destruct H as (_ & H). apply andb_prop in H. destruct H as (_ & H). apply Nat.eqb_eq in H. now symmetry.
  - unfold tile in H. rewrite filter_In in H. destruct H as (_ & H). apply andb_prop in H. destruct H as (H & _). apply Nat.eqb_eq in H. now symmetry.
Qed.
Print Assumptions C118_partition.
Example C118_partition_example : tile 6 6 3 1 0 = [(3, 0); (3, 1); (3, 2); (4, 0); (4, 1); (4, 2); (5, 0); (5, 1); (5, 2)].
Proof. reflexivity. Qed.
(* a bright image and a threshold under 1: the brightest tile is always there *)
Theorem C118_brightest (n s cols : nat) (th : Qc) (img : image) (i j : nat) : n <> 0 -> s <> 0 -> n * s <= cols -> i < n -> j < n ->
  (forall i' j', i' < n -> j' < n -> (flux img (tile (n * s) cols s j' i') <= flux img (tile (n * s) cols s j i))%Qc) ->
  (0 < flux img (tile (n * s) cols s j i))%Qc ->
  ((th < 1)%Qc -> exists d, detect n (n * s) cols th img = Ok d /\ In (j * n + i) (s_map d)) /\
  ((1 <= th)%Qc -> detect n (n * s) cols th img = Err ValueError).
Proof.
  intros N S C I J M P.
  destruct (C118_tiles n s cols th (flux img (tile (n * s) cols s j i)) img N S C) as (sel & _ & B & E0 & E1).
  { split; [exists i, j; auto | exact M]. }
  set (t := flux img (tile (n * s) cols s j i)) in *. split.
  - intros L. assert (K : In (i, j) sel).
    { apply B. repeat split; auto. fold t. rewrite <- (Qcmult_1_l t) at 2. now apply Qcmult_lt_compat_r. }
    eexists. split; [apply E1; intros ->; contradiction|]. cbn [s_map]. apply in_map_iff. exists (i, j). auto.
  - intros L. apply E0. destruct sel as [|(a, b) r]; [reflexivity|]. exfalso.
    destruct (proj1 (B a b) (or_introl eq_refl)) as (A & Bn & K). pose proof (M a b A Bn) as U.
    apply (Qclt_not_le _ _ K). eapply Qcle_trans; [exact U|]. rewrite <- (Qcmult_1_l t) at 1. apply Qcmult_le_compat_r; [exact L | now apply Qclt_le_weak].
Qed.
Print Assumptions C118_brightest.
Example C118_brightest_example :
  places (detect 2 4 4 (Q2Qc (9 # 10)) ramp) = Ok ([[10; 11; 14; 15]]%Z, [3]) /\ detect 2 4 4 1%Qc ramp = Err ValueError.
Proof. split; vm_compute; reflexivity. Qed.

(* When the size of the sub-apertures is even, they are full squares, next to their place, and the result is complete. *)
Theorem C118_even (n rows cols : nat) (th : Qc) (img : image) : n <> 0 -> rows <= cols -> Z.even (rnd (Z.of_nat rows) (Z.of_nat n)) = true ->
  exists m pos, (- Z.of_nat n <= 2 * (Z.of_nat n * Z.of_nat m - Z.of_nat rows) <= Z.of_nat n)%Z /\
    (forall k, k < n -> pos k + m <= rows /\
      (- Z.of_nat n <= 2 * Z.of_nat n * Z.of_nat (pos k) + Z.of_nat m * Z.of_nat n - Z.of_nat rows * (2 * Z.of_nat k + 1) <= Z.of_nat n)%Z) /\
    forall t, is_top n (fun i j => flux img (box (pos j) (pos i) m)) t ->
    exists sel, StronglySorted before sel /\
      (forall i j, In (i, j) sel <-> i < n /\ j < n /\ (th * t < flux img (box (pos j) (pos i) m))%Qc) /\
      detect n rows cols th img = match sel with [] => Err ValueError | _ =>
        Ok (mkSub (map (fun ij => map (number cols) (box (pos (snd ij)) (pos (fst ij)) m)) sel) (map (fun ij => snd ij * n + fst ij) sel) n th) end.
Proof.
  intros N C Ev. exists (Z.to_nat (np_sub n rows)), (fun k => Z.to_nat (first n rows k)).
  pose proof (np_sub_pos n rows N) as Pm. pose proof (np_sub_near n rows N) as Nm.
  assert (W : forall k, last n rows k = (first n rows k + np_sub n rows)%Z).
  { intros k. destruct (width n rows N k) as [W | (O & _)]; [exact W|]. unfold np_sub in O. rewrite <- Z.negb_even, Ev in O. discriminate. }
  split; [lia|]. split.
  - intros k K. pose proof (first_pos n rows N k) as F. pose proof (last_max n rows N k K) as L. specialize (W k). split; [lia|].
    unfold first in *. pose proof (rnd_near (Z.of_nat rows * (2 * Z.of_nat k + 1) - np_sub n rows * Z.of_nat n) (2 * Z.of_nat n) ltac:(lia)) as R.
    rewrite !Z2Nat.id by assumption. set (f := rnd _ (2 * Z.of_nat n)) in *. lia.
  - intros t T. apply detect_full; [exact N | | | exact T].
    + intros i j I J. unfold square, box.
      pose proof (first_pos n rows N i) as Fi. pose proof (last_max n rows N i I) as Li. pose proof (first_pos n rows N j) as Fj. pose proof (last_max n rows N j J) as Lj.
      rewrite !span_in by (try assumption; try (apply first_last; exact N); lia). rewrite !W. f_equal; f_equal; lia.
    + intros i j _ _. unfold box. rewrite list_prod_length, !seq_length, Nat2Z.inj_mul, Z2Nat.id by exact Pm. reflexivity.
Qed.
Print Assumptions C118_even.
Example C118_even_example :
  places (detect 3 11 11 (Q2Qc (95 # 100)) ramp) = Ok ([[81; 82; 83; 84; 92; 93; 94; 95; 103; 104; 105; 106; 114; 115; 116; 117];
    [84; 85; 86; 87; 95; 96; 97; 98; 106; 107; 108; 109; 117; 118; 119; 120]]%Z, [7; 8]).
Proof. vm_compute. reflexivity. Qed.
(* With an odd size this is false: for 3 lenslets on 10 pixels the limits of the middle one, 3.5 and 6.5, are both rounded
   to the even number, which leaves 2 pixels instead of 3, and the calibration of a uniform image fails. *)
Theorem C118_odd_refuted : exists n rows img th, n * n < rows /\ (0 < th)%Qc /\ (th < 1)%Qc /\ (forall r c, (0 < img r c)%Qc) /\
  detect n rows rows th img = Err ValueError.
Proof. exists 3, 10, uniform, half. split; [lia|]. repeat split. Qed.
Print Assumptions C118_odd_refuted.

(* In all cases what is stored is made of full squares of pixels of the image, at distinct places of the grid. *)
Theorem C118_squares (n rows cols : nat) (th : Qc) (img : image) (d : subapdata) : detect n rows cols th img = Ok d ->
  exists m, (- Z.of_nat n <= 2 * (Z.of_nat n * Z.of_nat m - Z.of_nat rows) <= Z.of_nat n)%Z /\
    length (s_idxs d) = length (s_map d) /\ s_map d <> [] /\ NoDup (s_map d) /\ (forall z, In z (s_map d) -> z < n * n) /\
    forall l, In l (s_idxs d) -> exists a b, a + m <= rows /\ b + m <= cols /\ is_square cols l a b m.
Proof.
  intros H. destruct (detect_ok _ _ _ _ _ _ H) as (v & N & S & E & ->). exists (Z.to_nat (np_sub n rows)). cbn [s_idxs s_map].
  pose proof (np_sub_pos n rows N) as Pm. pose proof (np_sub_near n rows N) as Nm.
  split; [lia|]. split; [now rewrite map_length, (map_res_length _ _ _ E)|].
  split; [intros X; apply S; now apply map_eq_nil in X|]. split; [|split].
  - pose proof (selected_NoDup n rows cols th img) as D. assert (B : forall i j, In (i, j) (selected n rows cols th img) -> i < n) by (intros i j I; apply selected_in in I; tauto).
    induction (selected n rows cols th img) as [|(i, j) l IH] in B, D |- *; cbn [map]; constructor; inversion_clear D as [|? ? D1 D2].
    + intros I. apply in_map_iff in I. destruct I as ((i', j') & X & I). apply code_inj in X; [| apply (B i' j'); now right | apply (B i j); now left].
      destruct X as (-> & ->). contradiction.
    + apply IH; [exact D2|]. intros i' j' I. apply (B i' j'). now right.
  - intros z I. apply in_map_iff in I. destruct I as ((i, j) & <- & I). apply selected_in in I. unfold code. cbn [fst snd]. nia.
  - intros l I. destruct (map_res_in _ _ _ E l I) as ((i, j) & J & A). apply selected_in in J. destruct J as (J1 & J2 & _). cbn [fst snd] in A.
    destruct (assign_square n rows cols i j l N J1 J2 A) as (-> & L1 & L2).
    pose proof (first_pos n rows N i) as Fi. pose proof (first_pos n rows N j) as Fj. pose proof (first_last n rows N i) as Gi. pose proof (first_last n rows N j) as Gj.
    destruct (Z.eq_dec (np_sub n rows) 0) as [Z0|Z0].
    { exists 0, 0. rewrite Z0 in *. cbn in L1. destruct (span rows (first n rows j) (last n rows j)) eqn:X; [|discriminate].
      cbn. repeat split; try lia. unfold is_square, square. rewrite X. reflexivity. }
    destruct L2 as [L2|]; [|contradiction].
    destruct (span_seq rows (first n rows j) (last n rows j)) as (a & Ea). destruct (span_seq cols (first n rows i) (last n rows i)) as (b & Eb).
    rewrite L1 in Ea. rewrite L2 in Eb. set (m := Z.to_nat (np_sub n rows)) in *. assert (M : 0 < m) by lia. exists a, b. repeat split.
    + assert (X : In (a + m - 1) (span rows (first n rows j) (last n rows j))) by (rewrite Ea; apply in_seq; lia). apply span_bound in X; lia.
    + assert (X : In (b + m - 1) (span cols (first n rows i) (last n rows i))) by (rewrite Eb; apply in_seq; lia). apply span_bound in X; lia.
    + unfold is_square, square. rewrite Ea, Eb. reflexivity.
Qed.
Print Assumptions C118_squares.
Example C118_squares_example : places (detect 2 3 3 half ramp) = Ok ([[3; 4; 6; 7]; [4; 5; 7; 8]]%Z, [2; 3]) /\
  is_square 3 [4; 5; 7; 8]%Z 1 1 2.
Proof. split; vm_compute; reflexivity. Qed.
(* no pixel is in two sub-apertures, if there are enough pixels for all *)
Theorem C118_disjoint (n rows cols : nat) (th : Qc) (img : image) (d : subapdata) : rows <= cols ->
  (rnd (Z.of_nat rows) (Z.of_nat n) * Z.of_nat n <= Z.of_nat rows)%Z ->
  detect n rows cols th img = Ok d -> forall k k' l l' z, nth_error (s_idxs d) k = Some l -> nth_error (s_idxs d) k' = Some l' -> In z l -> In z l' -> k = k'.
Proof.
  intros C F H k k' l l' z K K' I I'. destruct (detect_ok _ _ _ _ _ _ H) as (v & N & S & E & ->). cbn [s_idxs] in *.
  destruct (map_res_nth _ _ _ E k l K) as ((i, j) & P & A). destruct (map_res_nth _ _ _ E k' l' K') as ((i', j') & P' & A').
  pose proof (nth_error_In _ _ P) as Q. pose proof (nth_error_In _ _ P') as Q'. apply selected_in in Q, Q'. destruct Q as (Q1 & Q2 & _), Q' as (Q1' & Q2' & _).
  cbn [fst snd] in A, A'. apply (assign_square n rows cols i j l N Q1 Q2) in A. apply (assign_square n rows cols i' j' l' N Q1' Q2') in A'.
  destruct A as (-> & _), A' as (-> & _). apply in_map_iff in I, I'. destruct I as ((r, c) & <- & I), I' as ((r', c') & X & I').
  unfold square in I, I'. apply in_prod_iff in I, I'. destruct I as (Ir & Ic), I' as (Ir' & Ic').
  assert (SB : forall len x y, In y (span len (first n rows x) (last n rows x)) -> y < len /\ (first n rows x <= Z.of_nat y < last n rows x)%Z).
  { intros. apply span_bound; [apply first_pos; exact N | pose proof (first_pos n rows N x); pose proof (first_last n rows N x); lia | assumption]. }
  apply SB in Ir, Ic, Ir', Ic'. unfold ravel in X. cbn [fst snd] in X.
  assert (r' = r /\ c' = c) as (-> & ->) by (assert (r' = r) by nia; subst; split; lia).
  assert (U : forall x y w, (first n rows x <= w < last n rows x)%Z -> (first n rows y <= w < last n rows y)%Z -> x = y).
  { intros x y w A B. destruct (Nat.lt_trichotomy x y) as [L|[L|L]]; [| exact L |]; pose proof (last_first n rows N _ _ F L); lia. }
  assert (j = j') by (apply (U _ _ (Z.of_nat r)); tauto). assert (i = i') by (apply (U _ _ (Z.of_nat c)); tauto). subst.
  pose proof (selected_NoDup n rows cols th img) as D. apply (proj1 (NoDup_nth_error _) D); [apply nth_error_Some; congruence | congruence].
Qed.
Print Assumptions C118_disjoint.
Example C118_disjoint_example : places (detect 3 7 7 (Q2Qc (9 # 10)) ramp) = Ok ([[37; 38; 44; 45]; [40; 41; 47; 48]]%Z, [7; 8]).
Proof. vm_compute. reflexivity. Qed.
(* with 5 lenslets on 8 pixels, of 2 pixels each, there are not enough of them *)
Theorem C118_overlap_refuted : exists n rows img th d l l' z, n < rows /\ detect n rows rows th img = Ok d /\
  nth_error (s_idxs d) 0 = Some l /\ nth_error (s_idxs d) 1 = Some l' /\ In z l /\ In z l'.
Proof. exists 5, 8, uniform, half. do 3 eexists. exists 8%Z. split; [lia|]. split; [vm_compute; reflexivity|]. split; [reflexivity|]. split; [reflexivity|]. cbn. tauto. Qed.
Print Assumptions C118_overlap_refuted.
(* the mask of the sub-apertures: rows and columns of the grid *)
Theorem C118_mask (n rows cols : nat) (th : Qc) (img : image) (d : subapdata) (a b : nat) : detect n rows cols th img = Ok d -> a < n -> b < n ->
  (nth b (nth a (single_mask d) []) false = true <-> In (a * n + b) (s_map d)).
Proof.
  intros H A B. destruct (detect_ok _ _ _ _ _ _ H) as (v & N & S & E & ->). unfold single_mask. cbn [s_n s_map].
  assert (G : forall X (f : nat -> X) k x dflt, k < x -> nth k (map f (seq 0 x)) dflt = f k).
  { intros X f k x dflt K. rewrite (nth_indep _ dflt (f 0)) by (now rewrite map_length, seq_length). rewrite map_nth, seq_nth by exact K. reflexivity. }
  rewrite (G _ _ a n) by exact A. rewrite (G _ _ b n) by exact B. rewrite existsb_exists. split.
  - intros (x & X & Y). apply Nat.eqb_eq in Y. now rewrite Y.
  - intros X. exists (a * n + b). split; [exact X | apply Nat.eqb_refl].
Qed.
Print Assumptions C118_mask.
Example C118_mask_example : (d <- detect 2 4 4 half ramp ;; Ok (single_mask d)) = Ok [[false; false]; [true; true]].
Proof. vm_compute. reflexivity. Qed.
(* the unit of the intensities does not matter *)
Theorem C118_scale (n rows cols : nat) (th k : Qc) (img : image) : (0 < k)%Qc ->
  detect n rows cols th (fun r c => k * img r c)%Qc = detect n rows cols th img.
Proof.
  intros K. assert (S : selected n rows cols th (fun r c => (k * img r c)%Qc) = selected n rows cols th img).
  { destruct (Nat.eq_dec n 0) as [->|N]; [reflexivity|].
    assert (P : forall ij, spot n rows cols (fun r c => (k * img r c)%Qc) ij = (k * spot n rows cols img ij)%Qc).
    { intros ij. unfold spot. induction (square n rows cols (fst ij) (snd ij)) as [|p l IH]; cbn [map qsum]; [ring | rewrite IH; ring]. }
    assert (M : qmax (map (spot n rows cols (fun r c => (k * img r c)%Qc)) (lenslets n)) = (k * qmax (map (spot n rows cols img) (lenslets n)))%Qc).
    { destruct (qmax_max (map (spot n rows cols img) (lenslets n))) as (M & U); [intros X; apply (lenslets_not_nil n N); now apply map_eq_nil in X|].
      destruct (qmax_max (map (spot n rows cols (fun r c => (k * img r c)%Qc)) (lenslets n))) as (M' & U'); [intros X; apply (lenslets_not_nil n N); now apply map_eq_nil in X|].
      apply in_map_iff in M, M'. destruct M as (x & M & X), M' as (x' & M' & X'). apply Qcle_antisym.
      - rewrite <- M', P, (Qcmult_comm k), (Qcmult_comm k). apply Qcmult_le_compat_r; [apply U; now apply in_map | now apply Qclt_le_weak].
      - rewrite <- M, <- P. apply U'. apply in_map_iff. exists x. auto. }
    unfold selected. cbv zeta. apply filter_ext. intros ij. rewrite P, M.
    apply eq_true_iff_eq. rewrite !qlt_true. set (x := spot n rows cols img ij). set (t := qmax (map (spot n rows cols img) (lenslets n))).
    replace (th * (k * t))%Qc with (k * (th * t))%Qc by ring. set (u := (th * t)%Qc). rewrite !this_mul. unfold Qclt in K. cbn in K. split; intros Y; [nra|]. nra. }
  unfold detect. rewrite S. reflexivity.
Qed.
Print Assumptions C118_scale.
Example C118_scale_example : places (detect 2 4 4 half (fun r c => (Q2Qc (7 # 3) * ramp r c)%Qc)) = Ok ([[8; 9; 12; 13]; [10; 11; 14; 15]]%Z, [2; 3]).
Proof. vm_compute. reflexivity. Qed.
(* errors: no lenslets; nothing else than a ValueError *)
Theorem C118_errors (n rows cols : nat) (th : Qc) (img : image) (e : exn) : detect n rows cols th img = Err e ->
  (n = 0 /\ e = ZeroDivisionError) \/ (n <> 0 /\ e = ValueError).
Proof.
  unfold detect. destruct (Nat.eqb_spec n 0) as [E|E]; [intros [= <-]; now left | right; split; [exact E|]].
  destruct (selected n rows cols th img) as [|p l]; [now injection H|]. revert H.
  assert (G : forall l e, map_res (fun ij => assign (np_sub n rows) (map (ravel cols) (square n rows cols (fst ij) (snd ij)))) l = Err e -> e = ValueError).
  { clear. induction l as [|p l IH]; cbn [map_res]; [discriminate|]. intros e. unfold assign at 1.
    destruct (Z.of_nat _ =? _)%Z; [|destruct (map (ravel cols) _) as [|z [|]]; [now intros [= <-] | | now intros [= <-]]];
    cbn [bind]; destruct (map_res _ l) eqn:X; cbn [bind]; try discriminate; intros [= <-]; now apply IH. }
  destruct (map_res _ (p :: l)) eqn:X; cbn [bind]; [discriminate|]. intros [= <-]. now apply (G _ _ X).
Qed.
Print Assumptions C118_errors.
Example C118_errors_example : detect 0 4 4 half ramp = Err ZeroDivisionError /\ detect 2 4 4 half (fun _ _ => 0%Qc) = Err ValueError.
Proof. split; vm_compute; reflexivity. Qed.
(* the name of the file *)
Theorem C118_name (template output : option string) :
  match calibrator_name template output with
  | Ok s => (output = Some s /\ s <> "auto"%string) \/ (template = Some s /\ (output = None \/ output = Some "auto"%string))
  | Err e => e = ValueError /\ template = None /\ (output = None \/ output = Some "auto"%string)
  end.
Proof. unfold calibrator_name. destruct template, output as [o|]; cbn; try (destruct (String.eqb_spec o "auto"); subst); auto. Qed.
Print Assumptions C118_name.
Example C118_name_example : calibrator_name (Some "t"%string) (Some "auto"%string) = Ok "t"%string /\ calibrator_name (Some "t"%string) (Some "o"%string) = Ok "o"%string /\
  calibrator_name None (Some "auto"%string) = Err ValueError /\ file_name "o"%string = "o.fits"%string.
Proof. repeat split. Qed.
Theorem C118_inputs {X} (a b : option X) : (exists x, choose a b = Ok x) <-> (a = None <-> b <> None).
Proof.
  destruct a as [x|], b as [y|]; cbn; split.
  1: intros (? & ?); discriminate.
  2, 4: intros _; split; [discriminate + (intros _; discriminate) | intros K; try (now contradiction K); reflexivity].
  all: intros; try (eexists; reflexivity).
  - exfalso. destruct H as (_ & H). discriminate H. discriminate.
  - destruct H. discriminate.
  - exfalso. destruct H as (H & _). now apply H.
Qed.
Print Assumptions C118_inputs.
Theorem C118_inputs_error {X} (a b : option X) e : choose a b = Err e -> e = ValueError.
Proof. destruct a, b; cbn; congruence. Qed.
Print Assumptions C118_inputs_error.
Example C118_inputs_example : choose (Some 1) None = Ok 1 /\ choose None (Some 2) = Ok 2 /\ choose (Some 1) (Some 2) = Err ValueError.
Proof. repeat split. Qed.
