(* C108: the image of a Shack-Hartmann sensor. *)
From Coq Require Import Reals List ZArith Bool Arith Lia Lra.
From Verif Require Import PyBase Fourier PsfModel PsfProofs ShImageModel ShImageSpec ShImageProofs.
From Verif Require OpticalModel ShGeomModel ShGeomSpec.
Import ListNotations.
Local Open Scope R_scope.

(* every pixel of every subaperture holds the light that the field of that subaperture, and nothing else, sends there *)
Theorem C108_image x u h : sane x -> all_rows x -> clean x h -> correct x u (snd (trigger x u h)).
Proof. intros S [A B] CL i j r c I J. apply trigger_rows; try assumption. rewrite A, B. lia. Qed.
Print Assumptions C108_image.

Theorem C108_local x u u' h i j r c : sane x -> all_rows x -> clean x h -> (i < x_n x)%nat -> (j < x_n x)%nat -> (r < npx x)%nat -> (c < npx x)%nat ->
  (forall a b, (a < x_sub x)%nat -> (b < x_sub x)%nat -> u (i * x_sub x + a)%nat (j * x_sub x + b)%nat = u' (i * x_sub x + a)%nat (j * x_sub x + b)%nat) ->
  snd (trigger x u h) (i * npx x + r)%nat (j * npx x + c)%nat = snd (trigger x u' h) (i * npx x + r)%nat (j * npx x + c)%nat.
Proof.
  intros S A CL I J R D E. rewrite (C108_image x u h S A CL), (C108_image x u' h S A CL) by assumption. unfold pixel_of. apply rsum2_ext. intros a b _ _. f_equal. apply spot_ext. exact E.
Qed.
Print Assumptions C108_local.

(* a constant phase, different for each subaperture, changes nothing *)
Theorem C108_piston x u u' h (t : nat -> nat -> R) : sane x -> all_rows x -> clean x h ->
  (forall i j a b, (a < x_sub x)%nat -> (b < x_sub x)%nat -> u' (i * x_sub x + a)%nat (j * x_sub x + b)%nat = cmul (cis (t i j)) (u (i * x_sub x + a)%nat (j * x_sub x + b)%nat)) ->
  correct x u (snd (trigger x u' h)).
Proof.
  intros S A CL E i j r c I J R D. rewrite (C108_image x u' h S A CL) by assumption. unfold pixel_of. apply rsum2_ext. intros a b _ _. f_equal. apply (spot_phase _ _ _ _ (t i j)). intros a' b' P Q. unfold subaperture. now apply E.
Qed.
Print Assumptions C108_piston.

Lemma tile_pixels x v : sane x -> rsum2 (npx x) (npx x) (pixel_of x v) =
  rsum2 (x_cutsize x) (x_cutsize x) (fun k l => spot (x_fft x) (x_sub x) v (from_centre x k) (from_centre x l) * x_mask x (x_cut x / 2 + k)%nat (x_cut x / 2 + l)%nat).
Proof. intros S. rewrite (npx_cs x S), rsum2_blocks. reflexivity. Qed.
Lemma tile_correct x u img i j : correct x u img -> (i < x_n x)%nat -> (j < x_n x)%nat -> tile_sum x img i j = rsum2 (npx x) (npx x) (pixel_of x (subaperture u (x_sub x) i j)).
Proof. intros K I J. apply rsum2_ext. intros r c R D. now apply K. Qed.
Lemma spot_nonneg F n v X Y : 0 <= spot F n v X Y. Proof. apply abs2_nonneg. Qed.
Lemma half_cut x : sane x -> (x_cut x / 2 + x_cutsize x <= x_fft x)%nat.
Proof. intros S. unfold x_cutsize. pose proof (sane_cut x S). pose proof (Nat.div_le_upper_bound (x_cut x) 2 (x_cut x) ltac:(lia) ltac:(lia)). lia. Qed.

(* light is not created, and it is not lost if nothing is cut away or masked *)
Theorem C108_flux x u img i j : sane x -> correct x u img -> (i < x_n x)%nat -> (j < x_n x)%nat ->
  ((forall k l, 0 <= x_mask x k l <= 1) -> 0 <= tile_sum x img i j <= INR (x_fft x) * INR (x_fft x) * lit (x_sub x) (subaperture u (x_sub x) i j)) /\
  (x_cut x = 0%nat -> (forall k l, x_mask x k l = 1) -> tile_sum x img i j = INR (x_fft x) * INR (x_fft x) * lit (x_sub x) (subaperture u (x_sub x) i j)).
Proof.
  intros S K I J. rewrite (tile_correct x u img i j K I J), (tile_pixels x _ S). pose proof (sane_sub x S) as SB. set (v := subaperture u (x_sub x) i j).
  rewrite <- (spot_total (x_fft x) (x_sub x) v (Z.of_nat (x_fft x / 2)) (Z.of_nat (x_fft x / 2))) by lia. split.
  - intros M. split.
    + apply rsum2_nonneg. intros k l _ _. apply Rmult_le_pos; [apply spot_nonneg|apply M].
    + apply Rle_trans with (rsum2 (x_cutsize x) (x_cutsize x) (fun k l => spot (x_fft x) (x_sub x) v (Z.of_nat (x_cut x / 2 + k) - Z.of_nat (x_fft x / 2)) (Z.of_nat (x_cut x / 2 + l) - Z.of_nat (x_fft x / 2)))).
      * unfold rsum2. apply rsum_le. intros k _. apply rsum_le. intros l _. unfold from_centre. pose proof (M (x_cut x / 2 + k)%nat (x_cut x / 2 + l)%nat) as [M0 M1]. pose proof (spot_nonneg (x_fft x) (x_sub x) v (Z.of_nat (x_cut x / 2 + k) - Z.of_nat (x_fft x / 2)) (Z.of_nat (x_cut x / 2 + l) - Z.of_nat (x_fft x / 2))). rewrite <- (Rmult_1_r (spot _ _ _ _ _)) at 2. now apply Rmult_le_compat_l.
      * apply (rsum2_window (x_cutsize x) (x_cut x / 2) (x_fft x) (fun k l => spot (x_fft x) (x_sub x) v (Z.of_nat k - Z.of_nat (x_fft x / 2)) (Z.of_nat l - Z.of_nat (x_fft x / 2))) (half_cut x S)). intros. apply spot_nonneg.
  - intros C M. assert (CF : x_cutsize x = x_fft x) by (unfold x_cutsize; lia). rewrite CF. apply rsum2_ext. intros k l _ _. rewrite M, Rmult_1_r. unfold from_centre. rewrite C. reflexivity.
Qed.
Print Assumptions C108_flux.

(* a field without phase, up to a constant, gives a spot that is symmetric about the centre of the pixels: its centroid
   is there *)
Theorem C108_symmetric x v t r c : sane x -> Nat.even (x_fft x) = true -> Nat.even (x_cut x) = true ->
  (forall k l, (k < x_fft x)%nat -> (l < x_fft x)%nat -> x_mask x (x_fft x - 1 - k)%nat (x_fft x - 1 - l)%nat = x_mask x k l) ->
  (forall a b, (a < x_sub x)%nat -> (b < x_sub x)%nat -> exists z, v a b = cmul (cis t) (z, 0)) -> (r < npx x)%nat -> (c < npx x)%nat ->
  pixel_of x v (npx x - 1 - r)%nat (npx x - 1 - c)%nat = pixel_of x v r c.
Proof.
  intros S EF EC M V R D. apply Nat.even_spec in EF, EC. destruct EF as [f EF], EC as [g EC]. unfold pixel_of. rewrite <- (rsum2_rev (x_bin x) (x_bin x) (fun a b => spot _ _ _ (from_centre x (r * x_bin x + a)) _ * _)). apply rsum2_ext. intros a b A B.
  pose proof (npx_cs x S) as N. pose proof (sane_cut x S) as SC. assert (CS : (x_cutsize x = 2 * f - 2 * g)%nat) by (unfold x_cutsize; lia).
  assert (HG : (x_cut x / 2 = g)%nat) by (rewrite EC, Nat.mul_comm; now apply Nat.div_mul). assert (HF : (x_fft x / 2 = f)%nat) by (rewrite EF, Nat.mul_comm; now apply Nat.div_mul).
  assert (IDX : forall r a, (r < npx x)%nat -> (a < x_bin x)%nat -> ((npx x - 1 - r) * x_bin x + a = x_cutsize x - 1 - (r * x_bin x + (x_bin x - 1 - a)))%nat /\ (r * x_bin x + (x_bin x - 1 - a) < x_cutsize x)%nat).
  { clear -N. intros r a R A. rewrite N. assert (L : (r * x_bin x + x_bin x <= npx x * x_bin x)%nat) by nia. rewrite !Nat.mul_sub_distr_r. split; lia. }
  destruct (IDX r a R A) as [Ra La]. destruct (IDX c b D B) as [Cb Lb]. rewrite Ra, Cb. set (k := (r * x_bin x + (x_bin x - 1 - a))%nat) in *. set (l := (c * x_bin x + (x_bin x - 1 - b))%nat) in *. clearbody k l. f_equal.
  - unfold from_centre. rewrite HG, HF.
    replace (Z.of_nat (g + (x_cutsize x - 1 - k)) - Z.of_nat f)%Z with (- (Z.of_nat (g + k) - Z.of_nat f) - 1)%Z by lia. replace (Z.of_nat (g + (x_cutsize x - 1 - l)) - Z.of_nat f)%Z with (- (Z.of_nat (g + l) - Z.of_nat f) - 1)%Z by lia.
    set (X := (Z.of_nat (g + k) - Z.of_nat f)%Z). set (Y := (Z.of_nat (g + l) - Z.of_nat f)%Z). set (w := fun a b => cmul (cis (- t)) (v a b)).
    rewrite <- !(spot_phase (x_fft x) (x_sub x) v w (- t)) by reflexivity. apply spot_real. intros a' b' P Q. unfold w. destruct (V a' b' P Q) as [z ->].
    replace (cmul (cis (- t)) (cmul (cis t) (z, 0))) with (cmul (cmul (cis (- t)) (cis t)) (z, 0)) by cring. rewrite <- cis_add. replace (- t + t) with 0 by ring. unfold cis. rewrite cos_0, sin_0. cbn. ring.
  - rewrite HG. rewrite <- (M (g + k)%nat (g + l)%nat) by lia. f_equal; lia.
Qed.
Print Assumptions C108_symmetric.
Corollary C108_centred x v t : sane x -> Nat.even (x_fft x) = true -> Nat.even (x_cut x) = true ->
  (forall k l, (k < x_fft x)%nat -> (l < x_fft x)%nat -> x_mask x (x_fft x - 1 - k)%nat (x_fft x - 1 - l)%nat = x_mask x k l) ->
  (forall a b, (a < x_sub x)%nat -> (b < x_sub x)%nat -> exists z, v a b = cmul (cis t) (z, 0)) ->
  rsum2 (npx x) (npx x) (fun r c => (INR r - (INR (npx x) - 1) / 2) * pixel_of x v r c) = 0 /\ rsum2 (npx x) (npx x) (fun r c => (INR c - (INR (npx x) - 1) / 2) * pixel_of x v r c) = 0.
Proof.
  intros S EF EC M V.
  assert (G : forall g : nat -> nat -> R, (forall r c, (r < npx x)%nat -> (c < npx x)%nat -> g (npx x - 1 - r)%nat (npx x - 1 - c)%nat = - g r c) -> rsum2 (npx x) (npx x) (fun r c => g r c * pixel_of x v r c) = 0).
  { intros g O. set (T := rsum2 (npx x) (npx x) (fun r c => g r c * pixel_of x v r c)). assert (E : T = -1 * T); [|lra]. unfold T. rewrite <- (rsum2_rev (npx x) (npx x) (fun r c => g r c * pixel_of x v r c)) at 1. rewrite <- rsum2_mul_l. apply rsum2_ext. intros r c R D. rewrite O, (C108_symmetric x v t r c S EF EC M V R D) by assumption. ring. }
  assert (I : forall r, (r < npx x)%nat -> INR (npx x - 1 - r) - (INR (npx x) - 1) / 2 = - (INR r - (INR (npx x) - 1) / 2)) by (intros r R; rewrite !minus_INR by lia; cbn [INR]; field).
  split; apply G; intros r c R D; now apply I.
Qed.
Print Assumptions C108_centred.

(* a tilt moves the spot: one of a whole number of pixels moves it by that number *)
Theorem C108_tilt x v P Q r c : sane x -> (forall k l, x_mask x k l = 1) ->
  pixel_of x (fun a b => cmul (v a b) (cis (2 * PI * (INR a * INR (P * x_bin x) + INR b * INR (Q * x_bin x)) / INR (x_fft x)))) (r + P)%nat (c + Q)%nat = pixel_of x v r c.
Proof.
  intros S M. unfold pixel_of. apply rsum2_ext. intros a b _ _. rewrite !M, !Rmult_1_r.
  transitivity (spot (x_fft x) (x_sub x) v (from_centre x ((r + P) * x_bin x + a) - Z.of_nat (P * x_bin x)) (from_centre x ((c + Q) * x_bin x + b) - Z.of_nat (Q * x_bin x))).
  - rewrite <- spot_tilt by (pose proof (sane_sub x S); lia). apply spot_ext. intros a' b' _ _. now rewrite <- !INR_IZR_INZ.
  - unfold from_centre. f_equal; rewrite Nat.mul_add_distr_r; lia.
Qed.
Print Assumptions C108_tilt.

(* the image that goes to the detector holds the photons collected by the pupil *)
Theorem C108_total n photons img : rsum2 n n img <> 0 -> rsum2 n n (scaled n photons img) = photons /\ (forall r c r' c', img r c * scaled n photons img r' c' = img r' c' * scaled n photons img r c).
Proof.
  intros N. split; [|intros; unfold scaled; ring]. unfold scaled. rewrite (rsum2_ext n n _ (fun r c => photons / rsum2 n n img * img r c)) by (intros; ring). rewrite rsum2_mul_l. now field.
Qed.
Print Assumptions C108_total.

(* sensors that share arrays do not disturb each other, in any order and any number of times, if those with the same number
   of subapertures, size of the transforms, device and precision also have the same number of pixels for each subaperture *)
Theorem C108_sequence l : (forall x u, In (x, u) l -> sane x /\ all_rows x) ->
  (forall x u y v, In (x, u) l -> In (y, v) l -> pad_key x = pad_key y -> x_sub x = x_sub y) ->
  Forall2 (fun xu img => correct (fst xu) (snd xu) img) l (run l new_heap).
Proof.
  intros S K. assert (F : forall y, In y (map fst l) -> exists v, In (y, v) l) by (intros y Y; apply in_map_iff in Y; destruct Y as [[y' v] [<- Y]]; now exists v).
  assert (E : Forall2 (fun xu img => exists h', clean (fst xu) h' /\ img = snd (trigger (fst xu) (snd xu) h')) l (run l new_heap)).
  { apply run_each; [intros y Y; destruct (F y Y) as [v Z]; apply (S y v Z)|intros y z Y Z; destruct (F y Y) as [v Y'], (F z Z) as [w Z']; now apply (K y v z w)|intros; apply new_clean]. }
  clear K F. induction E as [|[x u] img l' im' [h [C I]] _ IH]; constructor; [|apply IH; intros; apply (S x0 u0); now right].
  destruct (S x u (or_introl eq_refl)) as [A B]. cbn [fst snd] in *. subst. now apply C108_image.
Qed.
Print Assumptions C108_sequence.

(* ------------------------------------------------------------------------------- DistributedSH *)
Lemma part_in x m y : In y (parts x m) <-> exists i, (i < m)%nat /\ y = with_rows x (i * (x_n x / m)) ((i + 1) * (x_n x / m)).
Proof. unfold parts. rewrite in_map_iff. split; [intros [i [E I]]; apply in_seq in I; exists i; split; [lia|now symmetry]|intros [i [I E]]; exists i; split; [now symmetry|apply in_seq; lia]]. Qed.
Lemma sane_rows x a b : sane x -> sane (with_rows x a b). Proof. intros [A B C D E]. constructor; assumption. Qed.
Lemma parts_images x m u h s im : sane x -> clean x h -> In (s, im) (combine (parts x m) (run (map (fun y => (y, u)) (parts x m)) h)) ->
  (exists i, (i < m)%nat /\ s = with_rows x (i * (x_n x / m)) ((i + 1) * (x_n x / m))) /\ exists h', clean s h' /\ im = snd (trigger s u h').
Proof.
  intros S C I. assert (MF : map fst (map (fun y => (y, u)) (parts x m)) = parts x m) by (rewrite map_map; apply map_id).
  assert (E : Forall2 (fun xu img => exists h', clean (fst xu) h' /\ img = snd (trigger (fst xu) (snd xu) h')) (map (fun y => (y, u)) (parts x m)) (run (map (fun y => (y, u)) (parts x m)) h)).
  { apply run_each; rewrite MF.
    - intros y Y. apply part_in in Y. destruct Y as [i [_ ->]]. now apply sane_rows.
    - intros y z Y Z _. apply part_in in Y, Z. destruct Y as [i [_ ->]], Z as [k [_ ->]]. reflexivity.
    - intros y Y. apply part_in in Y. destruct Y as [i [_ ->]]. exact C. }
  split; [apply part_in; eapply in_combine_l; exact I|]. clear MF. revert E I. generalize (run (map (fun y => (y, u)) (parts x m)) h). generalize (parts x m). clear. intros ps. induction ps as [|p ps IH]; intros l E I; cbn [map] in E; inversion E; subst; [destruct I|].
  destruct I as [I|I]; [injection I as <- <-; assumption|]. now apply (IH l').
Qed.
(* a sensor whose rows are split evenly among any number of workers is the same sensor *)
Theorem C108_distributed x m u h out : sane x -> clean x h -> (0 < m)%nat -> Nat.modulo (x_n x) m = 0%nat -> correct x u (distributed x m u h out).
Proof.
  intros S C M0 D i j r c I J R K. unfold distributed. fold (npx x). set (q := (x_n x / m)%nat). assert (NQ : (x_n x = q * m)%nat) by (pose proof (Nat.div_mod (x_n x) m ltac:(lia)) as DM; fold q in DM; nia). pose proof (npx_pos x S) as NP.
  assert (Q0 : (0 < q)%nat) by (destruct q; lia). apply gather_in.
  - set (k := (i / q)%nat). assert (KM : (k < m)%nat) by (apply Nat.div_lt_upper_bound; lia). set (y := with_rows x (k * q) ((k + 1) * q)).
    assert (Y : In y (parts x m)) by (apply part_in; exists k; split; [exact KM|reflexivity]).
    assert (L : length (run (map (fun y => (y, u)) (parts x m)) h) = length (parts x m)).
    { generalize (parts x m) h. intros l. induction l as [|a l IH]; intros h'; cbn [map run length]; [reflexivity|now rewrite IH]. }
    assert (X : exists im, In (y, im) (combine (parts x m) (run (map (fun y => (y, u)) (parts x m)) h))).
    { revert L Y. generalize (run (map (fun y => (y, u)) (parts x m)) h). generalize (parts x m). intros l. induction l as [|a l IH]; intros l' L Y; [destruct Y|]. destruct l' as [|b l']; [discriminate|]. destruct Y as [->|Y]; [exists b; now left|]. injection L as L. destruct (IH l' L Y) as [im X]. exists im. now right. }
    destruct X as [im X]. exists y, im. split; [exact X|]. unfold y, with_rows. cbn [x_start x_stop].
    pose proof (Nat.div_mod i q ltac:(lia)) as DM. pose proof (Nat.mod_upper_bound i q ltac:(lia)) as MB. fold k in DM. set (e := (i mod q)%nat) in *. clearbody e k. clear -DM MB R. nia.
  - intros s im X [A B]. destruct (parts_images x m u h s im S C X) as [[k [_ ->]] [h' [C' ->]]]. fold q in A, B, C' |- *. set (y := with_rows x (k * q) ((k + 1) * q)) in *.
    assert (SI : (x_start y <= i < x_stop y)%nat) by (clear -A B R; split; [apply Nat.lt_succ_r|]; apply (Nat.mul_lt_mono_pos_l (npx x)); nia).
    exact (trigger_rows y u h' (sane_rows x _ _ S) C' i j r c SI J R K).
Qed.
Print Assumptions C108_distributed.
(* rows beyond the last slice are never written *)
Theorem C108_missing_rows x m u h out r c : (npx x * (m * (x_n x / m)) <= r)%nat -> distributed x m u h out r c = out r c.
Proof.
  intros R. unfold distributed. apply gather_out. intros s im I [_ B]. apply in_combine_l in I. apply part_in in I. destruct I as [i [I ->]]. unfold with_rows in B. cbn [x_stop] in B. fold (npx x) in B.
  set (q := (x_n x / m)%nat) in *. assert ((i + 1) * q <= m * q)%nat by (apply Nat.mul_le_mono_r; lia). nia.
Qed.
Print Assumptions C108_missing_rows.
(* ... so that with fewer rows than workers, or one row too many, light is lost *)
Definition flat : field := fun _ _ => c1.
Definition ones : image := fun _ _ => 1.
Definition ex_three : sh := mkSh 0 true 3 2 4 0 ones 0 3 2.
Theorem C108_distributed_refuted : exists x m u, sane x /\ all_rows x /\ (1 < m < x_n x)%nat /\ (exists r c, distributed x m u new_heap (fun _ _ => 0) r c <> snd (trigger x u new_heap) r c) /\
  tile_sum x (snd (trigger x u new_heap)) (x_n x - 1) 0 = 64 /\ tile_sum x (distributed x m u new_heap (fun _ _ => 0)) (x_n x - 1) 0 = 0.
Proof.
  exists ex_three, 2%nat, flat. assert (S : sane ex_three) by (constructor; cbn; lia || reflexivity). assert (A : all_rows ex_three) by (split; reflexivity).
  assert (T1 : tile_sum ex_three (snd (trigger ex_three flat new_heap)) (x_n ex_three - 1) 0 = 64).
  { destruct (C108_flux ex_three flat _ 2 0 S (C108_image ex_three flat new_heap S A (new_clean _)) ltac:(cbn; lia) ltac:(cbn; lia)) as [_ F]. cbn [x_n ex_three Nat.sub]. rewrite F by reflexivity. unfold lit, rsum2, subaperture, flat, abs2, c1. cbn. ring. }
  assert (T2 : tile_sum ex_three (distributed ex_three 2 flat new_heap (fun _ _ => 0)) (x_n ex_three - 1) 0 = 0).
  { unfold tile_sum. rewrite (rsum2_ext _ _ _ (fun _ _ => 0)); [unfold rsum2; cbn; ring|]. intros i j I J. rewrite C108_missing_rows; [reflexivity|]. change (npx ex_three) with 2%nat in *. cbn. lia. }
  split; [exact S|]. split; [exact A|]. split; [cbn; lia|]. split; [|split; assumption].
  assert (N : forall f g : image, tile_sum ex_three f 2 0 = 0 -> tile_sum ex_three g 2 0 = 64 -> ~ (forall i j, (i < 2)%nat -> (j < 2)%nat -> f (4 + i)%nat j = g (4 + i)%nat j)).
  { intros f g F G E. assert (tile_sum ex_three f 2 0 = tile_sum ex_three g 2 0); [|lra]. unfold tile_sum. apply rsum2_ext. intros i j I J. apply (E i j I J). }
  specialize (N _ _ T2 T1).
  destruct (Req_dec (distributed ex_three 2 flat new_heap (fun _ _ => 0) 4%nat 0%nat) (snd (trigger ex_three flat new_heap) 4%nat 0%nat)) as [E0|E0]; [|now exists 4%nat, 0%nat].
  destruct (Req_dec (distributed ex_three 2 flat new_heap (fun _ _ => 0) 4%nat 1%nat) (snd (trigger ex_three flat new_heap) 4%nat 1%nat)) as [E1|E1]; [|now exists 4%nat, 1%nat].
  destruct (Req_dec (distributed ex_three 2 flat new_heap (fun _ _ => 0) 5%nat 0%nat) (snd (trigger ex_three flat new_heap) 5%nat 0%nat)) as [E2|E2]; [|now exists 5%nat, 0%nat].
  destruct (Req_dec (distributed ex_three 2 flat new_heap (fun _ _ => 0) 5%nat 1%nat) (snd (trigger ex_three flat new_heap) 5%nat 1%nat)) as [E3|E3]; [|now exists 5%nat, 1%nat].
  exfalso. apply N. intros i j I J. destruct i as [|[|i]]; [| |lia]; (destruct j as [|[|j]]; [| |lia]); assumption.
Qed.
Print Assumptions C108_distributed_refuted.

(* the sensor that SH.setup makes, with a mask of the focal plane *)
Definition of_layout (w : ShGeomModel.sensor) (y : ShGeomModel.layout) (f : ShGeomModel.focal) (mask : image) : sh :=
  mkSh 0 true (Z.to_nat (ShGeomModel.w_n w)) (Z.to_nat (ShGeomModel.y_sub y)) (Z.to_nat (ShGeomModel.y_fft y)) (Z.to_nat (ShGeomModel.f_cut f)) mask 0 (Z.to_nat (ShGeomModel.w_n w)) (Z.to_nat (ShGeomModel.f_cutsize f / ShGeomModel.w_npx w)).
Definition as64 : Qcanon.Qc := InterpModel.qz 200000.
Definition tenth : Qcanon.Qc := Qcanon.Qcdiv (InterpModel.qz 1) (InterpModel.qz 10).
(* two sensors with 2 x 2 subapertures of 2 x 2 pixels of 2 arcseconds, at 1000 nm, on a pupil of 4 x 4 pixels of 10 cm: one
   asks for the pixel of the turbulence and four times oversampling, the other has the default oversampling *)
Definition fine_sensor : ShGeomModel.sensor := ShGeomModel.new_sensor as64 (InterpModel.qz 1000) (InterpModel.qz 4) (InterpModel.qz 2) 2 2 (InterpModel.qz 4) true.
Definition plain_sensor : ShGeomModel.sensor := ShGeomModel.new_sensor as64 (InterpModel.qz 1000) (InterpModel.qz 4) (InterpModel.qz 2) 2 2 (InterpModel.qz 2) false.
Definition ex_fine (mask : image) : sh := mkSh 0 true 2 8 8 4 mask 0 2 2.
Definition ex_plain : sh := mkSh 0 true 2 4 8 0 ones 0 2 4.
Definition half_dark : field := fun r c => if (c <? 8)%nat then c1 else c0.
Lemma ex_plain_sane : sane ex_plain. Proof. constructor; cbn; lia || reflexivity. Qed.
Lemma ex_layouts mask : exists w1 y1 f1 w2 y2 f2, ShGeomModel.setup 20 as64 fine_sensor 4 tenth = Ok (w1, y1, f1) /\ ShGeomModel.setup 20 as64 plain_sensor 4 tenth = Ok (w2, y2, f2) /\ of_layout w1 y1 f1 mask = ex_fine mask /\ of_layout w2 y2 f2 ones = ex_plain.
Proof.
  assert (X : exists r, ShGeomModel.setup 20 as64 fine_sensor 4 tenth = Ok r /\ of_layout (fst (fst r)) (snd (fst r)) (snd r) mask = ex_fine mask) by (eexists; split; [vm_compute; reflexivity|reflexivity]).
  assert (Y : exists r, ShGeomModel.setup 20 as64 plain_sensor 4 tenth = Ok r /\ of_layout (fst (fst r)) (snd (fst r)) (snd r) ones = ex_plain) by (eexists; split; [vm_compute; reflexivity|reflexivity]).
  destruct X as [[[w1 y1] f1] [X1 X2]], Y as [[[w2 y2] f2] [Y1 Y2]]. exists w1, y1, f1, w2, y2, f2. auto.
Qed.
(* the light in the padded arrays after one and both sensors *)
Lemma shared_light mask j : (j < 2)%nat -> tile_sum ex_plain (nth 1 (run [(ex_fine mask, half_dark); (ex_plain, flat)] new_heap) ones) 0 j = match j with O => 4096 | _ => 1024 end.
Proof.
  intros J. cbn [run nth]. rewrite tile_light; [|exact ex_plain_sane|reflexivity|reflexivity|cbn; lia|exact J]. unfold trigger. cbn [fst h_pad].
  change (pad_key ex_plain) with (pad_key (ex_fine mask)). rewrite upd_same. cbn [x_start x_stop ex_fine Nat.sub seq fold_left row fst snd].
  assert (L : forall a b, abs2 (fill ex_plain flat 0 (fill (ex_fine mask) half_dark 1 (fill (ex_fine mask) half_dark 0 (h_pad new_heap (pad_key (ex_fine mask))))) j a b) = if (a <? 4)%nat && (b <? 4)%nat then 1 else if (a <? 8)%nat && (b <? 8)%nat then match j with O => 1 | _ => 0 end else 0).
  { intros a b. unfold fill. cbn [x_n x_sub ex_plain ex_fine]. rewrite (proj2 (Nat.ltb_lt j 2) J). cbn [andb]. destruct ((a <? 4)%nat && (b <? 4)%nat); [unfold flat; rewrite abs2_mul; unfold half_tilt; rewrite abs2_cis; unfold abs2, c1; cbn; ring|].
    destruct ((a <? 8)%nat && (b <? 8)%nat) eqn:E; [|unfold new_heap, abs2, c0; cbn; ring]. rewrite abs2_mul. unfold half_tilt. rewrite abs2_cis. unfold half_dark. apply andb_true_iff in E. destruct E as [_ E]. apply Nat.ltb_lt in E.
    destruct j as [|[|j]]; [| |lia].
    - rewrite (proj2 (Nat.ltb_lt _ _)) by lia. unfold abs2, c1. cbn. ring.
    - rewrite (proj2 (Nat.ltb_ge _ _)) by lia. unfold abs2, c0. cbn. ring. }
  rewrite (rsum2_ext _ _ _ _ (fun a b _ _ => L a b)). change (x_fft ex_plain) with 8%nat. destruct j as [|[|j]]; [| |lia]; unfold rsum2; cbn [rsum]; cbn [Nat.ltb Nat.leb andb]; cbn [INR]; ring.
Qed.
Lemma scaled_tile x n p img i j : tile_sum x (scaled n p img) i j = tile_sum x img i j * (p / rsum2 n n img).
Proof. unfold tile_sum, scaled. apply rsum2_mul_r. Qed.
(* sensors with different numbers of pixels for each subaperture that share arrays disturb each other: after the first sensor,
   the first of two subapertures of the second, equally lit, gets four times the light of the other *)
Theorem C108_shared_refuted : exists w1 y1 f1 w2 y2 f2 mask u v, ShGeomModel.setup 20 as64 fine_sensor 4 tenth = Ok (w1, y1, f1) /\ ShGeomModel.setup 20 as64 plain_sensor 4 tenth = Ok (w2, y2, f2) /\
  let x := of_layout w1 y1 f1 mask in let y := of_layout w2 y2 f2 ones in sane x /\ sane y /\ all_rows x /\ all_rows y /\
  let alone := nth 0 (run [(y, v)] new_heap) ones in let shared := nth 1 (run [(x, u); (y, v)] new_heap) ones in
  correct y v alone /\ ~ correct y v shared /\
  tile_sum y alone 0 0 = tile_sum y alone 0 1 /\ tile_sum y shared 0 0 = 4 * tile_sum y shared 0 1 /\ 0 < tile_sum y shared 0 1 /\
  (forall p, tile_sum y (scaled (side y) p alone) 0 0 = tile_sum y (scaled (side y) p alone) 0 1 /\ tile_sum y (scaled (side y) p shared) 0 0 = 4 * tile_sum y (scaled (side y) p shared) 0 1).
Proof.
  destruct (ex_layouts ones) as [w1 [y1 [f1 [w2 [y2 [f2 [X [Y [E1 E2]]]]]]]]]. exists w1, y1, f1, w2, y2, f2, ones, half_dark, flat. split; [exact X|]. split; [exact Y|]. rewrite E1, E2. cbv zeta.
  assert (A : all_rows ex_plain) by (split; reflexivity). pose proof ex_plain_sane as S.
  assert (C : correct ex_plain flat (nth 0 (run [(ex_plain, flat)] new_heap) ones)) by (cbn [run nth]; apply C108_image; [exact S|exact A|apply new_clean]).
  assert (T : forall im j, correct ex_plain flat im -> (j < 2)%nat -> tile_sum ex_plain im 0 j = 1024).
  { intros im j K J. destruct (C108_flux ex_plain flat im 0 j S K ltac:(cbn; lia) J) as [_ F]. rewrite F by reflexivity. unfold lit, rsum2, subaperture, flat, abs2, c1. cbn. ring. }
  pose proof (shared_light ones 0 ltac:(lia)) as L0. pose proof (shared_light ones 1 ltac:(lia)) as L1. cbn [fst snd] in L0, L1.
  set (alone := nth 0 (run [(ex_plain, flat)] new_heap) ones) in *. set (shared := nth 1 (run [(ex_fine ones, half_dark); (ex_plain, flat)] new_heap) ones) in *. clearbody alone shared.
  split; [constructor; cbn; lia || reflexivity|]. split; [exact S|]. split; [split; reflexivity|]. split; [exact A|]. split; [exact C|].
  split; [intros K; rewrite (T _ 0%nat K) in L0 by lia; lra|]. split; [rewrite (T _ 0%nat C), (T _ 1%nat C) by lia; reflexivity|]. split; [rewrite L0, L1; lra|]. split; [rewrite L1; lra|].
  intros p. split; [rewrite !scaled_tile, (T _ 0%nat C), (T _ 1%nat C) by lia; reflexivity|rewrite !scaled_tile, L0, L1; ring].
Qed.
Print Assumptions C108_shared_refuted.

(* ------------------------------------------------------------------------------- examples *)
Example C108_flux_example : tile_sum ex_plain (snd (trigger ex_plain flat new_heap)) 1 0 = 1024 /\ tile_sum ex_plain (snd (trigger ex_plain (fun _ _ => (1/2, 0)) new_heap)) 1 1 = 256.
Proof.
  assert (A : all_rows ex_plain) by (split; reflexivity). pose proof ex_plain_sane as S.
  split.
  - destruct (C108_flux ex_plain flat _ 1 0 S (C108_image ex_plain flat new_heap S A (new_clean _)) ltac:(cbn; lia) ltac:(cbn; lia)) as [_ F]. rewrite F by reflexivity. unfold lit, rsum2, subaperture, flat, abs2, c1. cbn. ring.
  - destruct (C108_flux ex_plain _ _ 1 1 S (C108_image ex_plain (fun _ _ => (1/2, 0)) new_heap S A (new_clean _)) ltac:(cbn; lia) ltac:(cbn; lia)) as [_ F]. rewrite F by reflexivity. unfold lit, rsum2, subaperture, abs2. cbn. field.
Qed.
(* the flat field in one sample: a uniform spot *)
Definition ex_dot : sh := mkSh 0 true 2 1 4 2 ones 0 2 1.
Example C108_image_example : forall r c, (r < 4)%nat -> (c < 4)%nat -> snd (trigger ex_dot flat new_heap) r c = 1.
Proof.
  intros r c R D. assert (S : sane ex_dot) by (constructor; cbn; lia || reflexivity).
  pose proof (C108_image ex_dot flat new_heap S ltac:(split; reflexivity) (new_clean _) (r / 2)%nat (c / 2)%nat (r mod 2)%nat (c mod 2)%nat) as H. change (npx ex_dot) with 2%nat in H. change (x_n ex_dot) with 2%nat in H.
  pose proof (Nat.mod_upper_bound r 2 ltac:(lia)). pose proof (Nat.mod_upper_bound c 2 ltac:(lia)). rewrite (Nat.mul_comm (r / 2)), (Nat.mul_comm (c / 2)), <- !Nat.div_mod in H by lia.
  rewrite H; [|apply Nat.div_lt_upper_bound; lia|apply Nat.div_lt_upper_bound; lia|assumption|assumption].
  unfold pixel_of, rsum2, ex_dot. cbn [x_bin x_fft x_sub x_mask rsum]. unfold spot, csum2. cbn [csum]. set (z := cis _). replace (cadd c0 (cadd c0 (cmul (subaperture flat 1 (r / 2) (c / 2) 0%nat 0%nat) z))) with (cmul (subaperture flat 1 (r / 2) (c / 2) 0%nat 0%nat) z) by cring. rewrite abs2_mul. unfold z. rewrite abs2_cis. unfold subaperture, flat, ones, abs2, c1. cbn [fst snd]. ring.
Qed.
Example C108_symmetric_example r c : (r < 2)%nat -> (c < 2)%nat -> pixel_of ex_plain flat (1 - r)%nat (1 - c)%nat = pixel_of ex_plain flat r c.
Proof.
  intros R D. apply (C108_symmetric ex_plain flat 0 r c ex_plain_sane eq_refl eq_refl); try assumption; [reflexivity|]. intros. exists 1. unfold flat, cis. rewrite cos_0, sin_0. cring.
Qed.
Example C108_sequence_example : Forall2 (fun xu img => correct (fst xu) (snd xu) img) [(ex_plain, flat); (ex_three, flat); (ex_plain, half_dark)] (run [(ex_plain, flat); (ex_three, flat); (ex_plain, half_dark)] new_heap).
Proof.
  apply C108_sequence.
  - intros x u [E|[E|[E|[]]]]; injection E as <- <-; (split; [constructor; cbn; lia || reflexivity|split; reflexivity]).
  - intros x u y v [E|[E|[E|[]]]] [F|[F|[F|[]]]]; injection E as <- <-; injection F as <- <-; (reflexivity || discriminate).
Qed.
Example C108_distributed_example : correct ex_plain flat (distributed ex_plain 2 flat new_heap (fun _ _ => 0)).
Proof. apply C108_distributed; [exact ex_plain_sane|apply new_clean|lia|reflexivity]. Qed.
