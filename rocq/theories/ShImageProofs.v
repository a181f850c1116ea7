(* Proofs about the image of a Shack-Hartmann sensor. *)
From Coq Require Import Reals List ZArith Bool Arith Lra Lia.
From Verif Require Import PyBase PyLemmas Fourier PsfModel PsfSpec PsfProofs ShImageModel ShImageSpec.
Import ListNotations.
Local Open Scope R_scope.

Lemma key_eqb_spec a b : key_eqb a b = true <-> a = b.
Proof.
  destruct a as [[[d p] n] m], b as [[[d' p'] n'] m']. unfold key_eqb. rewrite !andb_true_iff, Z.eqb_eq, eqb_true_iff, !Nat.eqb_eq. split; [intros [[[-> ->] ->] ->]; reflexivity|intros E; injection E; auto].
Qed.
Lemma upd_same {X} (f : key -> X) k v : upd f k v k = v. Proof. unfold upd. now rewrite (proj2 (key_eqb_spec k k) eq_refl). Qed.
Lemma upd_other {X} (f : key -> X) k v k' : k' <> k -> upd f k v k' = f k'.
Proof. intros N. unfold upd. destruct (key_eqb k' k) eqn:E; [apply key_eqb_spec in E; contradiction|reflexivity]. Qed.

(* ------------------------------------------------------------------------- one spot *)
Lemma spot_ext F n v v' X Y : (forall a b, (a < n)%nat -> (b < n)%nat -> v a b = v' a b) -> spot F n v X Y = spot F n v' X Y.
Proof. intros E. unfold spot. f_equal. apply csum2_ext. intros. now rewrite E. Qed.
Lemma spot_phase F n v v' t X Y : (forall a b, (a < n)%nat -> (b < n)%nat -> v' a b = cmul (cis t) (v a b)) -> spot F n v' X Y = spot F n v X Y.
Proof.
  intros E. unfold spot. rewrite (csum2_ext _ _ _ (fun a b => cmul (cis t) (cmul (v a b) (cis (- (2 * PI * (INR a * (IZR X + / 2) + INR b * (IZR Y + / 2)) / INR F)))))).
  - rewrite csum2_mul_l, abs2_mul, abs2_cis. ring.
  - intros. rewrite E by assumption. cring.
Qed.
Lemma cis_period a b z : a = b + 2 * PI * IZR z -> cis a = cis b.
Proof. intros ->. rewrite cis_add, cis_2PI_Z. cring. Qed.
Lemma spot_period F n v X Y p q : (0 < F)%nat -> spot F n v (X + Z.of_nat F * p) (Y + Z.of_nat F * q) = spot F n v X Y.
Proof.
  intros H. unfold spot. f_equal. apply csum2_ext. intros a b _ _. f_equal. apply cis_period with (- (Z.of_nat a * p + Z.of_nat b * q))%Z.
  rewrite !plus_IZR, !mult_IZR, <- !INR_IZR_INZ, opp_IZR, plus_IZR, !mult_IZR, <- !INR_IZR_INZ. field. apply not_0_INR. lia.
Qed.
(* the transform of the padded array, centred *)
Lemma spot_dft x v pad k l : sane x -> (forall a b, (a < x_fft x)%nat -> (b < x_fft x)%nat -> pad a b = corner (x_sub x) (x_sub x) (fun a b => cmul (v a b) (half_tilt x a b)) a b) ->
  fftshift (x_fft x) (x_fft x) (fun k l => abs2 (dft2 (x_fft x) (x_fft x) pad k l)) k l =
  spot (x_fft x) (x_sub x) v (Z.of_nat k - Z.of_nat (x_fft x / 2)) (Z.of_nat l - Z.of_nat (x_fft x / 2)).
Proof.
  intros S P. assert (F0 : (0 < x_fft x)%nat) by (destruct (sane_sub x S); lia). unfold fftshift. rewrite (dft2_ext _ _ _ _ _ _ P). rewrite dft2_corner by apply S.
  destruct (shift_index (x_fft x) k F0) as [p Ep]. destruct (shift_index (x_fft x) l F0) as [q Eq]. rewrite <- (spot_period _ _ _ _ _ p q F0). rewrite <- Ep, <- Eq.
  set (K := ((k + (x_fft x - x_fft x / 2)) mod x_fft x)%nat). set (L := ((l + (x_fft x - x_fft x / 2)) mod x_fft x)%nat).
  set (o := (- Z.of_nat (x_sub x) / 2)%Z). unfold spot.
  rewrite (csum2_ext _ _ _ (fun a b => cmul (cis (- (2 * PI * IZR (o + o) / (2 * INR (x_fft x))))) (cmul (v a b) (cis (- (2 * PI * (INR a * (IZR (Z.of_nat K) + / 2) + INR b * (IZR (Z.of_nat L) + / 2)) / INR (x_fft x))))))).
  { rewrite csum2_mul_l, abs2_mul, abs2_cis. ring. }
  intros a b _ _. unfold half_tilt, root. fold o. cbv zeta.
  set (A := cis (- (2 * PI * IZR (Z.of_nat b + o + (Z.of_nat a + o)) / (2 * INR (x_fft x))))). set (B := cis (2 * PI * IZR (- (Z.of_nat a * Z.of_nat K)) / INR (x_fft x))). set (D := cis (2 * PI * IZR (- (Z.of_nat b * Z.of_nat L)) / INR (x_fft x))).
  set (U := cis (- (2 * PI * IZR (o + o) / (2 * INR (x_fft x))))). set (V := cis (- (2 * PI * (INR a * (IZR (Z.of_nat K) + / 2) + INR b * (IZR (Z.of_nat L) + / 2)) / INR (x_fft x)))).
  assert (E : cmul A (cmul B D) = cmul U V).
  { unfold A, B, D, U, V. rewrite <- !cis_add. f_equal. rewrite !opp_IZR, !plus_IZR, !mult_IZR, <- !INR_IZR_INZ. field. apply not_0_INR. lia. }
  transitivity (cmul (v a b) (cmul A (cmul B D))); [cring|]. rewrite E. cring.
Qed.
(* all the light of a subaperture is in its spot *)
Lemma spot_total F n v (o p : Z) : (0 < F)%nat -> (n <= F)%nat -> rsum2 F F (fun k l => spot F n v (Z.of_nat k - o) (Z.of_nat l - p)) = INR F * INR F * lit n v.
Proof.
  intros H N.
  assert (E : forall k l, spot F n v (Z.of_nat k - o) (Z.of_nat l - p) = abs2 (dft2 F F (corner n n (fun a b => cmul (v a b) (cis (- (2 * PI * (INR a * (/ 2 - IZR o) + INR b * (/ 2 - IZR p)) / INR F))))) k l)).
  { intros k l. rewrite dft2_corner by exact N. unfold spot. f_equal. apply csum2_ext. intros a b _ _. unfold root.
    set (A := cis (- (2 * PI * (INR a * (/ 2 - IZR o) + INR b * (/ 2 - IZR p)) / INR F))). set (B := cis (2 * PI * IZR (- (Z.of_nat a * Z.of_nat k)) / INR F)). set (D := cis (2 * PI * IZR (- (Z.of_nat b * Z.of_nat l)) / INR F)).
    transitivity (cmul (v a b) (cmul A (cmul B D))); [f_equal; unfold A, B, D; rewrite <- !cis_add; f_equal|cring]. rewrite !minus_IZR, !opp_IZR, !mult_IZR, <- !INR_IZR_INZ. field. apply not_0_INR. lia. }
  rewrite (rsum2_ext _ _ _ (fun k l => abs2 (dft2 F F (corner n n (fun a b => cmul (v a b) (cis (- (2 * PI * (INR a * (/ 2 - IZR o) + INR b * (/ 2 - IZR p)) / INR F))))) k l))) by (intros; apply E).
  rewrite parseval2 by exact H. f_equal. rewrite abs2_corner by exact N. unfold lit. apply rsum2_ext. intros. rewrite abs2_mul, abs2_cis. ring.
Qed.
(* a field of constant phase *)
Lemma spot_real F n v X Y : (forall a b, (a < n)%nat -> (b < n)%nat -> snd (v a b) = 0) -> spot F n v (- X - 1) (- Y - 1) = spot F n v X Y.
Proof.
  intros R. unfold spot. rewrite <- (abs2_conj (csum2 n n (fun a b => cmul (v a b) (cis (- (2 * PI * (INR a * (IZR X + / 2) + INR b * (IZR Y + / 2)) / INR F)))))). rewrite csum2_conj. f_equal. apply csum2_ext. intros a b A B.
  rewrite cconj_mul. f_equal; [unfold cconj; rewrite (R a b A B), Ropp_0, <- (R a b A B); apply surjective_pairing|].
  rewrite <- cis_opp. f_equal. rewrite !minus_IZR, !opp_IZR. change (IZR 1) with 1. unfold Rdiv. ring_simplify. replace (/ 2) with (1 * / 2) by ring. lra.
Qed.
(* a tilt *)
Lemma spot_tilt F n v p q X Y : (0 < F)%nat -> spot F n (fun a b => cmul (v a b) (cis (2 * PI * (INR a * IZR p + INR b * IZR q) / INR F))) X Y = spot F n v (X - p) (Y - q).
Proof.
  intros H. unfold spot. f_equal. apply csum2_ext. intros a b _ _. transitivity (cmul (v a b) (cmul (cis (2 * PI * (INR a * IZR p + INR b * IZR q) / INR F)) (cis (- (2 * PI * (INR a * (IZR X + / 2) + INR b * (IZR Y + / 2)) / INR F))))); [cring|].
  rewrite <- cis_add. f_equal. f_equal. rewrite !minus_IZR. field. apply not_0_INR. lia.
Qed.

(* ------------------------------------------------------------------------- all rows *)
Definition agree (x : sh) (pad pad' : nat -> field) : Prop := forall j a b, ~ ((j < x_n x)%nat /\ (a < x_sub x)%nat /\ (b < x_sub x)%nat) -> pad' j a b = pad j a b.
Lemma agree_refl x pad : agree x pad pad. Proof. intros j a b _. reflexivity. Qed.
Lemma corner_cases x j a b : ((j <? x_n x)%nat && (a <? x_sub x)%nat && (b <? x_sub x)%nat = true) <-> ((j < x_n x)%nat /\ (a < x_sub x)%nat /\ (b < x_sub x)%nat).
Proof. rewrite !andb_true_iff, !Nat.ltb_lt. tauto. Qed.
Lemma fill_agree x u i pad : agree x pad (fill x u i pad).
Proof. intros j a b N. unfold fill. destruct ((j <? x_n x)%nat && (a <? x_sub x)%nat && (b <? x_sub x)%nat) eqn:E; [apply corner_cases in E; contradiction|reflexivity]. Qed.
Lemma fill_over x u i pad pad' j a b : agree x pad pad' -> fill x u i pad' j a b = fill x u i pad j a b.
Proof. intros A. unfold fill. destruct ((j <? x_n x)%nat && (a <? x_sub x)%nat && (b <? x_sub x)%nat) eqn:E; [reflexivity|]. apply A. intros C. apply corner_cases in C. congruence. Qed.
Lemma agree_trans x p q r : agree x p q -> agree x q r -> agree x p r. Proof. intros A B j a b N. rewrite (B j a b N). apply A, N. Qed.
Lemma spots_ext x pad pad' j k l : (forall a b, pad j a b = pad' j a b) -> spots x pad j k l = spots x pad' j k l.
Proof. intros E. unfold spots, fftshift. f_equal. f_equal. apply dft2_ext. intros. apply E. Qed.

Lemma rows_fold x u : (0 < x_cutsize x)%nat -> forall len s st, let st' := fold_left (row x u) (seq s len) st in
  agree x (fst st) (fst st') /\
  (forall i k c, (s <= i < s + len)%nat -> (k < x_cutsize x)%nat -> (c < x_n x * x_cutsize x)%nat ->
     snd st' (i * x_cutsize x + k)%nat c = spots x (fill x u i (fst st)) (c / x_cutsize x) (x_cut x / 2 + k) (x_cut x / 2 + c mod x_cutsize x)) /\
  (forall r c, (r < s * x_cutsize x \/ (s + len) * x_cutsize x <= r \/ x_n x * x_cutsize x <= c)%nat -> snd st' r c = snd st r c).
Proof.
  intros CS. set (cs := x_cutsize x) in *. induction len as [|len IH]; intros s st; cbn [seq fold_left].
  - split; [apply agree_refl|split; [intros; lia|reflexivity]].
  - set (st1 := row x u st s). destruct (IH (S s) st1) as [A [B C]]. cbv zeta. set (st' := fold_left (row x u) (seq (S s) len) st1) in *.
    assert (A1 : agree x (fst st) (fst st1)) by apply fill_agree. split; [apply (agree_trans _ _ _ _ A1 A)|]. split.
    + intros i k c I K L. destruct (Nat.eq_dec i s) as [->|N].
      * rewrite (C (s * cs + k)%nat c) by (left; nia). unfold st1, row. cbn [snd]. unfold place. fold cs. cbv zeta.
        rewrite (proj2 (Nat.leb_le (s * cs) (s * cs + k)) ltac:(lia)), (proj2 (Nat.ltb_lt (s * cs + k) ((s + 1) * cs)) ltac:(lia)), (proj2 (Nat.ltb_lt c (x_n x * cs)) L). cbn [andb].
        replace (s * cs + k - s * cs)%nat with k by lia. reflexivity.
      * rewrite (B i k c) by (lia || assumption). apply spots_ext. intros a b. apply fill_over, A1.
    + intros r c D. rewrite C by (destruct D as [D|[D|D]]; [left; nia|right; left; nia|right; right; exact D]). unfold st1, row. cbn [snd]. unfold place. fold cs. cbv zeta.
      destruct ((s * cs <=? r)%nat && (r <? (s + 1) * cs)%nat && (c <? x_n x * cs)%nat) eqn:E; [exfalso|reflexivity]. rewrite !andb_true_iff, Nat.leb_le, !Nat.ltb_lt in E. nia.
Qed.
Lemma cs_pos x : sane x -> (0 < x_cutsize x)%nat. Proof. intros S. unfold x_cutsize. pose proof (sane_cut x S). lia. Qed.
Lemma npx_cs x : sane x -> (x_cutsize x = npx x * x_bin x)%nat. Proof. intros S. unfold npx. rewrite Nat.mul_comm. apply S. Qed.
Lemma npx_pos x : sane x -> (0 < npx x)%nat. Proof. intros S. pose proof (cs_pos x S). rewrite (npx_cs x S) in H. destruct (npx x); lia. Qed.

(* the spot of a subaperture, from clean arrays *)
Lemma spots_clean x u i pad j k l : sane x -> (j < x_n x)%nat -> (forall a b, (x_sub x <= a < x_fft x)%nat \/ (x_sub x <= b < x_fft x)%nat -> pad j a b = c0) ->
  spots x (fill x u i pad) j k l = spot (x_fft x) (x_sub x) (subaperture u (x_sub x) i j) (Z.of_nat k - Z.of_nat (x_fft x / 2)) (Z.of_nat l - Z.of_nat (x_fft x / 2)) * x_mask x k l.
Proof.
  intros S J P. unfold spots. f_equal. apply spot_dft; [exact S|]. intros a b A B. unfold fill, corner, subaperture. rewrite (proj2 (Nat.ltb_lt j (x_n x)) J). cbn [andb].
  destruct (a <? x_sub x)%nat eqn:EA; cbn [andb]; [destruct (b <? x_sub x)%nat eqn:EB; [reflexivity|]|]; apply P; apply Nat.ltb_ge in EA || apply Nat.ltb_ge in EB; lia.
Qed.
(* rows of the image of a sensor whose arrays are clean *)
Lemma trigger_rows x u h : sane x -> clean x h -> forall i j r c, (x_start x <= i < x_stop x)%nat -> (j < x_n x)%nat -> (r < npx x)%nat -> (c < npx x)%nat ->
  snd (trigger x u h) (i * npx x + r)%nat (j * npx x + c)%nat = pixel_of x (subaperture u (x_sub x) i j) r c.
Proof.
  intros S CL i j r c I J R D. unfold trigger. cbn [snd]. destruct (rows_fold x u (cs_pos x S) (x_stop x - x_start x) (x_start x) (h_pad h (pad_key x), h_img h (img_key x))) as [_ [B _]]. cbn [fst snd] in B.
  set (st' := fold_left (row x u) (seq (x_start x) (x_stop x - x_start x)) (h_pad h (pad_key x), h_img h (img_key x))) in *. unfold binned, pixel_of. apply rsum2_ext. intros a b A Hb.
  pose proof (npx_cs x S) as N. pose proof (cs_pos x S) as CP. set (k := x_bin x) in *. set (cs := x_cutsize x) in *. set (p := npx x) in *.
  replace ((i * p + r) * k + a)%nat with (i * cs + (r * k + a))%nat by (rewrite N; ring). replace ((j * p + c) * k + b)%nat with (j * cs + (c * k + b))%nat by (rewrite N; ring).
  assert (RA : (r * k + a < cs)%nat) by (rewrite N; nia). assert (CB : (c * k + b < cs)%nat) by (rewrite N; nia).
  rewrite (B i (r * k + a)%nat (j * cs + (c * k + b))%nat) by (lia || nia).
  replace ((j * cs + (c * k + b)) / cs)%nat with j by (apply Nat.div_unique with (c * k + b)%nat; [exact CB|ring]). replace ((j * cs + (c * k + b)) mod cs)%nat with (c * k + b)%nat by (apply Nat.mod_unique with j; [exact CB|ring]).
  rewrite (spots_clean x u i _ j _ _ S J) by (intros a' b' H; apply CL, H). reflexivity.
Qed.
(* what a trigger does to the arrays *)
Lemma trigger_clean x u h y : (0 < x_cutsize x)%nat -> (pad_key y = pad_key x -> x_sub x = x_sub y) -> clean y h -> clean y (fst (trigger x u h)).
Proof.
  intros CP K CL j a b D. unfold trigger. cbn [fst h_pad].
  destruct (rows_fold x u CP (x_stop x - x_start x) (x_start x) (h_pad h (pad_key x), h_img h (img_key x))) as [A _]. cbn [fst] in A.
  destruct (key_eqb (pad_key y) (pad_key x)) eqn:E.
  - apply key_eqb_spec in E. pose proof (K E) as KK. rewrite E, upd_same. rewrite A by lia. rewrite <- E. apply CL, D.
  - rewrite upd_other; [apply CL, D|]. intros Q. apply key_eqb_spec in Q. congruence.
Qed.
Lemma new_clean x : clean x new_heap. Proof. intros j a b _. reflexivity. Qed.

(* ------------------------------------------------------------------------- sums over pixels *)
Lemma rsum_blocks p k f : rsum (p * k) f = rsum p (fun r => rsum k (fun a => f (r * k + a)%nat)).
Proof. induction p as [|p IH]; [reflexivity|]. cbn [rsum]. rewrite <- IH. replace (S p * k)%nat with (p * k + k)%nat by lia. now rewrite rsum_app. Qed.
Lemma rsum2_blocks p k f : rsum2 (p * k) (p * k) f = rsum2 p p (fun r c => rsum2 k k (fun a b => f (r * k + a)%nat (c * k + b)%nat)).
Proof.
  unfold rsum2. rewrite rsum_blocks. apply rsum_ext. intros r _. rewrite (rsum_ext k _ (fun a => rsum p (fun c => rsum k (fun b => f (r * k + a)%nat (c * k + b)%nat)))) by (intros; apply rsum_blocks). apply rsum_swap.
Qed.
Lemma rsum_rev n f : rsum n (fun i => f (n - 1 - i)%nat) = rsum n f.
Proof.
  induction n as [|n IH]; [reflexivity|]. change (S n) with (1 + n)%nat at 1. rewrite rsum_app. cbn [rsum]. rewrite <- IH. rewrite Rplus_comm, Rplus_0_l. f_equal; [apply rsum_ext; intros; f_equal; lia|f_equal; lia].
Qed.
Lemma rsum2_rev n m f : rsum2 n m (fun i j => f (n - 1 - i)%nat (m - 1 - j)%nat) = rsum2 n m f.
Proof. unfold rsum2. rewrite (rsum_ext n _ (fun i => rsum m (f (n - 1 - i)%nat))) by (intros; apply (rsum_rev m (f (n - 1 - i)%nat))). apply (rsum_rev n (fun i => rsum m (f i))). Qed.
Lemma rsum_window n o m f : (o + n <= m)%nat -> (forall i, (i < m)%nat -> 0 <= f i) -> rsum n (fun i => f (o + i)%nat) <= rsum m f.
Proof.
  intros L P. replace m with (o + n + (m - o - n))%nat by lia. rewrite !rsum_app. pose proof (rsum_nonneg o f ltac:(intros; apply P; lia)). pose proof (rsum_nonneg (m - o - n) (fun i => f (o + n + i)%nat) ltac:(intros; apply P; lia)). lra.
Qed.
Lemma rsum2_window n o m f : (o + n <= m)%nat -> (forall i j, (i < m)%nat -> (j < m)%nat -> 0 <= f i j) -> rsum2 n n (fun i j => f (o + i)%nat (o + j)%nat) <= rsum2 m m f.
Proof.
  intros L P. unfold rsum2. apply Rle_trans with (rsum n (fun i => rsum m (f (o + i)%nat))).
  - apply rsum_le. intros i I. apply (rsum_window n o m (f (o + i)%nat) L). intros. apply P; lia.
  - apply (rsum_window n o m (fun i => rsum m (f i)) L). intros i I. apply rsum_nonneg. intros. now apply P.
Qed.
(* the light in a tile, whatever the arrays hold *)
Lemma tile_light x u h i j : sane x -> x_cut x = 0%nat -> (forall k l, x_mask x k l = 1) -> (x_start x <= i < x_stop x)%nat -> (j < x_n x)%nat ->
  tile_sum x (snd (trigger x u h)) i j = INR (x_fft x) * INR (x_fft x) * rsum2 (x_fft x) (x_fft x) (fun a b => abs2 (fill x u i (h_pad h (pad_key x)) j a b)).
Proof.
  intros S C0 M I J. pose proof (sane_sub x S) as SB. rewrite <- parseval2 by lia. unfold tile_sum, trigger. cbn [snd].
  destruct (rows_fold x u (cs_pos x S) (x_stop x - x_start x) (x_start x) (h_pad h (pad_key x), h_img h (img_key x))) as [_ [B _]]. cbn [fst snd] in B.
  set (st' := fold_left (row x u) (seq (x_start x) (x_stop x - x_start x)) (h_pad h (pad_key x), h_img h (img_key x))) in *.
  pose proof (npx_cs x S) as N. pose proof (cs_pos x S) as CP. assert (CF : x_cutsize x = x_fft x) by (unfold x_cutsize; lia). unfold binned.
  transitivity (rsum2 (npx x * x_bin x) (npx x * x_bin x) (fun k l => snd st' (i * x_cutsize x + k)%nat (j * x_cutsize x + l)%nat)).
  { rewrite rsum2_blocks. apply rsum2_ext. intros r c _ _. apply rsum2_ext. intros a b _ _. f_equal; rewrite N; ring. }
  rewrite <- N. transitivity (rsum2 (x_fft x) (x_fft x) (fftshift (x_fft x) (x_fft x) (fun k l => abs2 (dft2 (x_fft x) (x_fft x) (fill x u i (h_pad h (pad_key x)) j) k l)))).
  - rewrite CF in *. apply rsum2_ext. intros k l K L. rewrite (B i k (j * x_fft x + l)%nat) by (lia || nia).
    replace ((j * x_fft x + l) / x_fft x)%nat with j by (apply Nat.div_unique with l; [exact L|ring]). replace ((j * x_fft x + l) mod x_fft x)%nat with l by (apply Nat.mod_unique with j; [exact L|ring]).
    unfold spots. rewrite M, C0, Rmult_1_r. reflexivity.
  - unfold fftshift. apply (rsum2_rot (x_fft x) (x_fft x) _ _ (fun k l => abs2 (dft2 (x_fft x) (x_fft x) (fill x u i (h_pad h (pad_key x)) j) k l))); lia.
Qed.

(* ------------------------------------------------------------------------- several sensors *)
Lemma run_each l : forall h, (forall y, In y (map fst l) -> sane y) -> (forall y z, In y (map fst l) -> In z (map fst l) -> pad_key y = pad_key z -> x_sub y = x_sub z) ->
  (forall y, In y (map fst l) -> clean y h) -> Forall2 (fun xu img => exists h', clean (fst xu) h' /\ img = snd (trigger (fst xu) (snd xu) h')) l (run l h).
Proof.
  induction l as [|[x u] l IH]; intros h S K C; cbn [run]; [constructor|]. constructor.
  - exists h. split; [apply C; now left|reflexivity].
  - apply IH.
    + intros y Y. apply S. now right.
    + intros y z Y Z. apply K; now right.
    + intros y Y. apply trigger_clean; [apply cs_pos, S; now left|intros E; apply K; [now left|now right|now symmetry]|apply C; now right].
Qed.
Lemma gather_cons p out s im l : gather p out ((s, im) :: l) = gather p (fun r c => if (p * x_start s <=? r)%nat && (r <? p * x_stop s)%nat then im r c else out r c) l. Proof. reflexivity. Qed.
Lemma gather_out p l : forall out r c, (forall s im, In (s, im) l -> ~ (p * x_start s <= r < p * x_stop s)%nat) -> gather p out l r c = out r c.
Proof.
  induction l as [|[s im] l IH]; intros out r c N; [reflexivity|]. rewrite gather_cons, IH by (intros s' im' I; apply (N s' im'); now right).
  destruct ((p * x_start s <=? r)%nat && (r <? p * x_stop s)%nat) eqn:E; [exfalso|reflexivity]. rewrite andb_true_iff, Nat.leb_le, Nat.ltb_lt in E. apply (N s im); [now left|exact E].
Qed.
Lemma gather_in p l v : forall out r c, (exists s im, In (s, im) l /\ (p * x_start s <= r < p * x_stop s)%nat) -> (forall s im, In (s, im) l -> (p * x_start s <= r < p * x_stop s)%nat -> im r c = v) -> gather p out l r c = v.
Proof.
  induction l as [|[s im] l IH]; intros out r c X A; [destruct X as [? [? [[] _]]]|]. rewrite gather_cons.
  assert (D : (exists s im, In (s, im) l /\ (p * x_start s <= r < p * x_stop s)%nat) \/ (forall s im, In (s, im) l -> ~ (p * x_start s <= r < p * x_stop s)%nat)).
  { clear. induction l as [|[t m] l IH]; [right; intros ? ? []|]. destruct IH as [[s [im [E1 E2]]]|N]; [left; exists s, im; split; [now right|exact E2]|].
    destruct (le_dec (p * x_start t) r) as [L|L]; [destruct (lt_dec r (p * x_stop t)) as [R|R]|]; [left; exists t, m; split; [now left|lia]| |]; right; intros s im [E|I]; try (apply (N s im I)); injection E as <- <-; lia. }
  destruct D as [D|D].
  - apply (IH _ r c D). intros s' im' I. apply (A s' im'). now right.
  - rewrite gather_out by exact D. destruct X as [s' [im' [[E|I] X]]]; [injection E as <- <-|exfalso; apply (D s' im' I X)].
    rewrite (proj2 (Nat.leb_le _ _) (proj1 X)), (proj2 (Nat.ltb_lt _ _) (proj2 X)). cbn [andb]. apply (A s im); [now left|exact X].
Qed.
