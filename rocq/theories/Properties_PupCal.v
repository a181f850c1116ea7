(* C117: calibration of the pupils of a pyramid. *)
From Coq Require Import Reals List Bool Arith Lia Lra ZArith Sorted FinFun.
From Verif Require Import PyBase PyLemmas PupCalModel PupCalSpec PupCalProofs.
Import ListNotations.
Local Open Scope R_scope.

Lemma four (i : nat) : (i < 4)%nat -> i = 0%nat \/ i = 1%nat \/ i = 2%nat \/ i = 3%nat.
Proof. lia. Qed.

Section Frame.
Variables (h w : nat).
Let d := Nat.min (w / 2) (h / 2).
Let o (i : nat) := nth i (corners h w) (0%nat, 0%nat).
Let part (img : image) (i : nat) : image := fun a b => img (fst (o i) + a)%nat (snd (o i) + b)%nat.
Let placed (i : nat) (p : pupil) := mkPup (p_x p + INR (snd (o i))) (p_y p + INR (fst (o i))) (p_r p).
Lemma quadrant_iff i p : (i < 4)%nat -> quadrant h w i p <-> exists a b, (a < d)%nat /\ (b < d)%nat /\ p = (fst (o i) + a, snd (o i) + b)%nat.
Proof.
  intros I. unfold quadrant, o, corners. fold d. assert (Dw : (d <= w / 2)%nat) by (unfold d; lia). assert (Dh : (d <= h / 2)%nat) by (unfold d; lia). revert Dw Dh. generalize d, (w / 2)%nat, (h / 2)%nat. clear - I. intros e u v Dw Dh.
  destruct p as [y x]. destruct (four i I) as [-> |[-> |[-> | ->]]]; cbn [nth fst snd Nat.ltb Nat.leb Nat.even];
  (split; [intros [A B]; match goal with |- exists a b, _ /\ _ /\ _ = (?r + a, ?t + b)%nat => exists (y - r)%nat, (x - t)%nat end; split; [lia|split; [lia|f_equal; lia]]|intros (a & b & A & B & E); injection E as -> ->; lia]).
Qed.
Lemma analyze_inv c img ps : analyze h w c img = Ok ps -> length ps = 4%nat /\ forall i, (i < 4)%nat -> exists p, single c d (part img i) = Ok p /\ nth i ps (mkPup 0 0 0) = placed i p.
Proof.
  unfold analyze. assert (G : forall (l : list (nat * nat)) ps, map_res (fun o => p <- single c (quad_size h w) (fun i j => img (fst o + i)%nat (snd o + j)%nat) ;; Ok (mkPup (p_x p + INR (snd o)) (p_y p + INR (fst o)) (p_r p))) l = Ok ps ->
    length ps = length l /\ forall i, (i < length l)%nat -> exists p, single c d (fun a b => img (fst (nth i l (0, 0)) + a)%nat (snd (nth i l (0, 0)) + b)%nat) = Ok p /\ nth i ps (mkPup 0 0 0) = mkPup (p_x p + INR (snd (nth i l (0, 0)%nat))) (p_y p + INR (fst (nth i l (0, 0)%nat))) (p_r p)).
  { induction l as [|x l IH]; intros qs H; cbn [map_res] in H; [injection H as <-; split; [reflexivity|intros i Hi; cbn in Hi; lia]|].
    destruct (single c (quad_size h w) _) as [p|] eqn:E; [|discriminate]. cbn [bind] in H. destruct (map_res _ l) as [r|] eqn:F; [|discriminate]. cbn [bind] in H. injection H as <-. destruct (IH r eq_refl) as [L N]. split; [cbn; lia|]. intros [|i] Hi; [exists p; split; [exact E|reflexivity]|apply N; cbn in Hi; lia]. }
  intros H. destruct (G (corners h w) ps H) as [L N]. split; [exact L|exact N].
Qed.

(* the pupils are found in images of at least two rows and two columns; *)
Theorem C117_size c img : ((2 <= h)%nat /\ (2 <= w)%nat -> exists ps, analyze h w c img = Ok ps /\ length ps = 4%nat) /\ (~ ((2 <= h)%nat /\ (2 <= w)%nat) -> analyze h w c img = Err ValueError).
Proof.
  assert (D : (2 <= h)%nat /\ (2 <= w)%nat <-> (0 < d)%nat). { unfold d. split; [intros [A B]|intros A]. - assert (1 <= w / 2)%nat by (apply Nat.div_le_lower_bound; lia). assert (1 <= h / 2)%nat by (apply Nat.div_le_lower_bound; lia). lia. - destruct (le_lt_dec 2 h) as [L|L]; [|rewrite (Nat.div_small h 2) in A by lia; lia]. destruct (le_lt_dec 2 w) as [L'|L']; [lia|rewrite (Nat.div_small w 2) in A by lia; lia]. }
  rewrite D. split; intros H.
  - unfold analyze, corners. cbn [map_res]. change (quad_size h w) with d. do 4 (match goal with |- context [single c d ?q] => destruct (single_ok c d q H) as (? & ->) end; cbn [bind]). eexists. split; reflexivity.
  - assert (d = 0)%nat as E by lia. unfold analyze, corners. cbn [map_res]. change (quad_size h w) with d. rewrite E. reflexivity.
Qed.
(* they depend on the pixels of the four squares, not on the flux; *)
Theorem C117_local c img img' : (forall i p, (i < 4)%nat -> quadrant h w i p -> img (fst p) (snd p) = img' (fst p) (snd p)) -> analyze h w c img = analyze h w c img'.
Proof.
  intros H. unfold analyze. apply map_res_ext. intros x X. apply In_nth with (d := (0, 0)%nat) in X. destruct X as (i & I & <-). f_equal. apply single_ext. intros a b A B. apply (H i (fst (nth i (corners h w) (0, 0)) + a, snd (nth i (corners h w) (0, 0)) + b)%nat); [exact I|]. apply quadrant_iff; [exact I|]. now exists a, b.
Qed.
Theorem C117_flux c img k : 0 < k -> analyze h w c (fun i j => k * img i j) = analyze h w c img.
Proof. intros K. unfold analyze. apply map_res_ext. intros x X. f_equal. now apply single_scale. Qed.
(* a pupil has a size exactly when there is light; *)
Theorem C117_light c img ps i : analyze h w c img = Ok ps -> c_thr1 c <= 1 -> c_thr2 c <= 1 -> (i < 4)%nat -> 0 < p_r (nth i ps (mkPup 0 0 0)) <-> exists p, quadrant h w i p /\ 0 < img (fst p) (snd p).
Proof.
  intros H T1 T2 I. destruct (analyze_inv c img ps H) as [_ A]. destruct (A i I) as (p & S & ->). unfold placed. cbn [p_r]. rewrite (single_lit c d _ p S T1 T2). split.
  - intros (a & b & Ha & Hb & L). exists (fst (o i) + a, snd (o i) + b)%nat. split; [apply quadrant_iff; [exact I|now exists a, b]|exact L].
  - intros (x & Q & L). apply quadrant_iff in Q; [|exact I]. destruct Q as (a & b & Ha & Hb & ->). now exists a, b.
Qed.
(* its centre is in its square; *)
Theorem C117_centre c img ps i : analyze h w c img = Ok ps -> (i < 4)%nat -> exists p p', quadrant h w i p /\ quadrant h w i p' /\ INR (snd p) <= p_x (nth i ps (mkPup 0 0 0)) <= INR (snd p') /\ INR (fst p) <= p_y (nth i ps (mkPup 0 0 0)) <= INR (fst p').
Proof.
  intros H I. assert (D : (0 < d)%nat). { destruct (C117_size c img) as [_ N]. destruct (Nat.eq_dec d 0) as [E|E]; [|lia]. exfalso. rewrite N in H; [discriminate|]. intros [A B]. unfold d in E. assert (1 <= w / 2)%nat by (apply Nat.div_le_lower_bound; lia). assert (1 <= h / 2)%nat by (apply Nat.div_le_lower_bound; lia). lia. }
  destruct (analyze_inv c img ps H) as [_ A]. destruct (A i I) as (p & S & ->). unfold placed. destruct (single_centre c d _ p S) as [Cx Cy]. exists (o i), (fst (o i) + (d - 1), snd (o i) + (d - 1))%nat. cbn [p_x p_y fst snd]. rewrite !plus_INR.
  split; [apply quadrant_iff; [exact I|]; exists 0%nat, 0%nat; rewrite !Nat.add_0_r; repeat split; try lia; now destruct (o i)|]. split; [apply quadrant_iff; [exact I|]; exists (d - 1)%nat, (d - 1)%nat; repeat split; lia|]. lra.
Qed.
Lemma sum_of_rsum {X} (f : X -> R) l : rsum (map f l) = sum_of f l.
Proof. induction l as [|x l IH]; [reflexivity|]. cbn [map sum_of fold_right]. change (rsum (f x :: map f l)) with (f x + rsum (map f l)). rewrite IH. reflexivity. Qed.
Lemma rmean_mul {X} (f : X -> R) l : l <> [] -> INR (length l) * rmean (map f l) = sum_of f l.
Proof. intros N. unfold rmean. rewrite map_length, sum_of_rsum. field. apply not_0_INR. destruct l; [congruence|discriminate]. Qed.
(* on an image of lit and dark pixels, centre and area are those of the lit pixels of the square *)
Theorem C117_binary c b ps i : analyze h w c (binary b) = Ok ps -> 0 < c_thr1 c <= 1 -> 0 < c_thr2 c <= 1 -> (i < 4)%nat ->
  exists l, NoDup l /\ (forall p, In p l <-> quadrant h w i p /\ b (fst p) (snd p) = true) /\
    let q := nth i ps (mkPup 0 0 0) in 0 <= p_r q /\ PI * (p_r q * p_r q) = INR (length l) /\ (l <> [] -> centroid l (p_x q) (p_y q)).
Proof.
  intros H T1 T2 I. destruct (analyze_inv c _ ps H) as [_ A]. destruct (A i I) as (p & S & ->). unfold placed. assert (D : (0 < d)%nat). { destruct d eqn:E; [|lia]. cbn in S. discriminate. }
  set (bq := fun a c => b (fst (o i) + a)%nat (snd (o i) + c)%nat). change (part (binary b) i) with (binary bq) in S. rewrite (single_binary c d bq T1 T2 D) in S. set (L := lit_of d bq) in *.
  set (mv := fun x : nat * nat => (fst (o i) + fst x, snd (o i) + snd x)%nat). exists (map mv L). assert (P := PI_RGT_0). split; [|split; [intros x; split; [intros X; split|]|cbv zeta; split; [|split; [|intros _N; split]]]].
  - apply Injective_map_NoDup; [|apply NoDup_filter, pixels_nodup]. intros [a a'] [e e'] E. unfold mv in E. cbn [fst snd] in E. injection E as E1 E2. f_equal; lia.
  - apply in_map_iff in X. destruct X as ([a e] & <- & X). apply filter_In in X. destruct X as [X _]. apply pixels_in in X. apply quadrant_iff; [exact I|]. exists a, e. cbn in X. cbn. tauto.
  - apply in_map_iff in X. destruct X as ([a e] & <- & X). apply filter_In in X. apply X.
  - intros [Q B]. apply quadrant_iff in Q; [|exact I]. destruct Q as (a & e & Ha & He & ->). apply in_map_iff. exists (a, e). split; [reflexivity|]. apply filter_In. split; [apply pixels_in; split; assumption|exact B].
  - cbn [p_r]. destruct L; injection S as <-; cbn [p_r]; [lra|apply sqrt_pos].
  - cbn [p_r]. rewrite map_length. destruct L eqn:E; [injection S as <-; cbn; ring|]. rewrite <- E in *. injection S as <-. cbn [p_r]. rewrite sqrt_sqrt; [field; lra|]. apply Rle_mult_inv_pos; [apply pos_INR|exact P].
  - destruct L eqn:E; [easy|]. rewrite <- E in *. injection S as <-. cbn [p_x]. assert (N : L <> []) by (rewrite E; discriminate). rewrite map_length, Rmult_plus_distr_l, rmean_mul by exact N. clear - N. clear N. induction L as [|x l IH]; [cbn; ring|]. cbn [length map]. unfold sum_of in *. cbn [fold_right]. rewrite <- IH, S_INR. unfold mv. cbn [snd]. rewrite plus_INR. ring.
  - destruct L eqn:E; [easy|]. rewrite <- E in *. injection S as <-. cbn [p_y]. assert (N : L <> []) by (rewrite E; discriminate). rewrite map_length, Rmult_plus_distr_l, rmean_mul by exact N. clear - N. clear N. induction L as [|x l IH]; [cbn; ring|]. cbn [length map]. unfold sum_of in *. cbn [fold_right]. rewrite <- IH, S_INR. unfold mv. cbn [fst]. rewrite plus_INR. ring.
Qed.

(* ------------------------------------------------------------------ indices *)
Lemma linear_number p : linear w p = number w p.
Proof. unfold linear, number. lia. Qed.
Lemma sorted_pixels : StronglySorted Z.lt (map (number w) (pixels h w)).
Proof.
  unfold pixels. generalize 0%nat at 2 as a. generalize h. clear. intros n. 
  induction n as [|n IH]; intros a; [constructor|]. cbn [seq flat_map]. rewrite map_app, map_map.
  assert (Row : forall m b, (b + m <= w)%nat -> StronglySorted Z.lt (map (fun j => number w (a, j)) (seq b m))).
  { clear. induction m as [|m IH]; intros b B; [constructor|]. cbn [seq map]. constructor; [apply IH; lia|]. apply Forall_forall. intros z Z0. apply in_map_iff in Z0. destruct Z0 as (j & <- & J). apply in_seq in J. unfold number. cbn [fst snd]. lia. }
  assert (App : forall l l' : list Z, StronglySorted Z.lt l -> StronglySorted Z.lt l' -> (forall x y, In x l -> In y l' -> (x < y)%Z) -> StronglySorted Z.lt (l ++ l')).
  { clear. induction l as [|x l IH]; intros l' A B C; [exact B|]. inversion_clear A as [|? ? A1 A2]. cbn. constructor; [apply IH; auto; intros; apply C; [now right|assumption]|]. rewrite Forall_forall in *. intros y Y. apply in_app_or in Y. destruct Y; [now apply A2|apply C; [now left|assumption]]. }
  apply App; [apply (Row w 0%nat); lia|apply IH|]. intros x y X Y. apply in_map_iff in X. destruct X as (j & <- & J). apply in_seq in J. apply in_map_iff in Y. destruct Y as (q & <- & Q). apply in_flat_map in Q. destruct Q as (i & I & Q). apply in_seq in I. apply in_map_iff in Q. destruct Q as (j' & <- & J'). unfold number. cbn [fst snd].
  assert (M : (Z.of_nat (S a) * Z.of_nat w <= Z.of_nat i * Z.of_nat w)%Z) by (apply Z.mul_le_mono_nonneg_r; lia). lia.
Qed.
Lemma sorted_filter (f : nat * nat -> bool) l : StronglySorted Z.lt (map (number w) l) -> StronglySorted Z.lt (map (number w) (filter f l)).
Proof.
  clear. induction l as [|x l IH]; intros H; [constructor|]. cbn [map] in H. inversion_clear H as [|? ? A B]. cbn [filter]. destruct (f x); [|now apply IH]. cbn [map]. constructor; [now apply IH|]. rewrite Forall_forall in *. intros z Z0. apply B. apply in_map_iff in Z0. destruct Z0 as (y & <- & Y). apply filter_In in Y. apply in_map. apply Y.
Qed.
Lemma number_range p : (fst p < h)%nat -> (snd p < w)%nat -> (0 <= number w p < Z.of_nat h * Z.of_nat w)%Z.
Proof.
  clear. intros A B. unfold number. assert (M : ((Z.of_nat (fst p) + 1) * Z.of_nat w <= Z.of_nat h * Z.of_nat w)%Z) by (apply Z.mul_le_mono_nonneg_r; lia). assert (N : (0 <= Z.of_nat (fst p) * Z.of_nat w)%Z) by (apply Z.mul_nonneg_nonneg; lia). lia.
Qed.
Lemma disc_pixels p radius ratio : 0 <= radius -> forall x, In x (filter (in_disc p radius ratio) (pixels h w)) <-> (fst x < h)%nat /\ (snd x < w)%nat /\ annulus (p_x p) (p_y p) (radius * Rmax 0 ratio) radius x.
Proof.
  clear. intros Hr x. rewrite filter_In, pixels_in, in_disc_annulus by exact Hr. replace (if rltb 0 ratio then radius * ratio else 0) with (radius * Rmax 0 ratio); [tauto|]. unfold rltb, Rmax. destruct (Rlt_dec 0 ratio), (Rle_dec 0 ratio); try (exfalso; lra); try ring. replace ratio with 0 by lra. ring.
Qed.
Lemma map_res_nth {X Y} (f : X -> res Y) l ys : map_res f l = Ok ys -> length ys = length l /\ forall i x, nth_error l i = Some x -> exists y, f x = Ok y /\ nth_error ys i = Some y.
Proof.
  clear. revert ys. induction l as [|x l IH]; intros ys H; cbn [map_res] in H; [injection H as <-; split; [reflexivity|intros [|i] x Hx; discriminate]|].
  destruct (f x) as [y|] eqn:E; [|discriminate]. cbn [bind] in H. destruct (map_res f l) as [r|]; [|discriminate]. cbn [bind] in H. injection H as <-. destruct (IH r eq_refl) as [L N]. split; [cbn; lia|]. intros [|i] z Z0; [injection Z0 as <-; now exists y|now apply N].
Qed.
Lemma pad_length n (l : list Z) : (length l <= n)%nat -> length (pad n l) = n.
Proof. clear. intros L. unfold pad. rewrite app_length, repeat_length. lia. Qed.
Lemma fold_nmax (l : list nat) : forall a, (a <= fold_left Nat.max l a)%nat /\ (forall x, In x l -> (x <= fold_left Nat.max l a)%nat) /\ (fold_left Nat.max l a = a \/ In (fold_left Nat.max l a) l).
Proof.
  clear. induction l as [|b l IH]; intros a; cbn [fold_left]; [split; [lia|split; [intros x []|now left]]|]. destruct (IH (Nat.max a b)) as (A & B & C). split; [lia|]. split; [intros x [<-|X]; [lia|auto]|]. destruct C as [C|C]; [|right; now right]. rewrite C. destruct (Nat.max_spec a b) as [[_ ->]|[_ ->]]; [right; now left|now left].
Qed.
Lemma filter_short {X} (f : X -> bool) l : (length (filter f l) <= length l)%nat.
Proof. clear. induction l as [|x l IH]; [apply le_n|]. cbn. destruct (f x); cbn; lia. Qed.
(* what a result is made of *)
Lemma generate_inv c ratio ps rows : generate h w c ratio ps = Ok rows ->
  exists n cols, (if c_intensity c then each_pupil h w ratio ps else moved_pupil h w ratio ps) = Ok (n, cols) /\ length cols = length ps /\ (forall col, In col cols -> length col = n) /\ (exists col, In col cols /\ forall r, (r < n)%nat -> nth r col (-1)%Z <> (-1)%Z) /\ (0 < n)%nat /\ rows = rows_of n cols /\ (forall p, In p ps -> 0 < p_r p).
Proof.
  intros H. unfold generate in H. destruct (if c_intensity c then each_pupil h w ratio ps else moved_pupil h w ratio ps) as [[n cols]|] eqn:E; [|discriminate]. cbn [bind fst snd] in H. fold (rows_of n cols) in H. exists n, cols. split; [reflexivity|].
  assert (G : length cols = length ps /\ (forall col, In col cols -> length col = n) /\ ((0 < n)%nat -> exists col, In col cols /\ forall r, (r < n)%nat -> nth r col (-1)%Z <> (-1)%Z) /\ (forall p, In p ps -> 0 < p_r p)).
  { assert (Full : forall l : list Z, (forall z, In z l -> (0 <= z)%Z) -> forall r, (r < length l)%nat -> nth r (pad (length l) l) (-1)%Z <> (-1)%Z).
    { intros l Hl r R. unfold pad. rewrite Nat.sub_diag. cbn [repeat]. rewrite app_nil_r. assert (I := Hl _ (nth_In l (-1)%Z R)). lia. }
    destruct (c_intensity c).
    - unfold each_pupil in E. destruct (forallb _ ps) eqn:P; [|discriminate]. injection E as <- <-. set (cs := map _ ps). destruct (fold_nmax (map (@length Z) cs) 0%nat) as (_ & B & C). set (n := fold_left _ _ _) in *. rewrite forallb_forall in P. split; [unfold cs; now rewrite !map_length|]. split; [|split].
      + intros col I. apply in_map_iff in I. destruct I as (l & <- & I). apply pad_length. apply B. now apply in_map.
      + intros N. destruct C as [C|C]; [lia|]. apply in_map_iff in C. destruct C as (l & L & I). exists (pad n l). split; [now apply in_map|]. rewrite <- L. apply Full. intros z Z0. unfold cs in I. apply in_map_iff in I. destruct I as (p & <- & _). apply in_map_iff in Z0. destruct Z0 as (x & <- & _). unfold linear. lia.
      + intros p I. apply rltb_spec. now apply P.
    - unfold moved_pupil in E. destruct ps as [|ref qs]; [discriminate|]. destruct (forallb _ (ref :: qs)) eqn:P; [|discriminate]. set (px := filter _ _) in E. destruct (map_res _ (ref :: qs)) as [cs|] eqn:M; [|discriminate]. cbn [bind] in E. injection E as <- <-. destruct (map_res_nth _ _ _ M) as [L N]. rewrite forallb_forall in P. split; [exact L|]. split; [|split].
      + intros col I. destruct (map_res_ok_inv _ _ _ M col I) as (p & E & _). cbv beta zeta in E. destruct (filter (inside h w) _) as [|y0 v0] eqn:F in E; [discriminate|]. cbv beta zeta iota in E. rewrite <- F in E. injection E as <-. apply pad_length. rewrite map_length. eapply Nat.le_trans; [apply filter_short|]. now rewrite map_length.
      + intros _. destruct (N 0%nat ref eq_refl) as (col & E & I). cbv beta zeta in E. exists col. split; [eapply nth_error_In; exact I|].
        assert (S0 : shift ref ref = (0, 0)%Z) by (unfold shift; rewrite !Rminus_diag_eq by reflexivity; change 0 with (IZR 0); now rewrite round_even_IZR). rewrite S0 in E.
        assert (F : filter (inside h w) (map (moved (0, 0)%Z) px) = map (moved (0, 0)%Z) px). { apply filter_id. intros y Y. apply in_map_iff in Y. destruct Y as (x & <- & X). unfold px in X. apply filter_In in X. destruct X as [X _]. apply pixels_in in X. unfold inside, moved. cbn [fst snd]. rewrite !andb_true_iff, !Z.leb_le, !Z.ltb_lt. lia. }
        rewrite F, map_map in E. destruct (map (moved (0, 0)%Z) px); [discriminate|]. injection E as <-. rewrite <- (map_length (fun x => (fst (moved (0, 0)%Z x) * Z.of_nat w + snd (moved (0, 0)%Z x))%Z) px). apply Full. intros z Z0. apply in_map_iff in Z0. destruct Z0 as (x & <- & _). unfold moved. cbn [fst snd]. assert (A : (0 <= (Z.of_nat (fst x) + 0) * Z.of_nat w)%Z) by (apply Z.mul_nonneg_nonneg; lia). lia.
      + intros p I. apply rltb_spec. now apply P. }
  destruct G as (L & C & F & P). assert (N : (0 < n)%nat). { destruct n; [cbn in H; discriminate|lia]. } destruct (F N) as (col & I & K). rewrite (rows_kept n cols col I K) in H. assert (R : rows = rows_of n cols) by (destruct (rows_of n cols); congruence).
  split; [exact L|]. split; [exact C|]. split; [now exists col|]. split; [exact N|]. split; [exact R|exact P].
Qed.
Lemma column_of n cols i col : nth_error cols i = Some col -> length col = n -> column i (rows_of n cols) = col.
Proof.
  clear. intros I L. assert (J : nth i cols [] = col) by (now apply nth_error_nth). unfold column. rewrite column_rows; [exact J|apply nth_error_Some; congruence|now rewrite J].
Qed.
(* from intensities: the pixels of each pupil *)
Theorem C117_intensity c ratio ps rows i p : generate h w c ratio ps = Ok rows -> c_intensity c = true -> nth_error ps i = Some p ->
  exists px k, column i rows = map (number w) px ++ repeat (-1)%Z k /\ StronglySorted Z.lt (map (number w) px) /\ forall x, In x px <-> (fst x < h)%nat /\ (snd x < w)%nat /\ annulus (p_x p) (p_y p) (p_r p * Rmax 0 ratio) (p_r p) x.
Proof.
  intros H C I. destruct (generate_inv c ratio ps rows H) as (n & cols & E & L & Len & _ & _ & -> & P). rewrite C in E. unfold each_pupil in E. destruct (forallb _ ps) eqn:F; [|discriminate]. injection E as En Ec. set (n' := fold_left _ _ _) in *. clearbody n'. subst n'.
  assert (Ni : nth_error cols i = Some (pad n (map (linear w) (filter (in_disc p (p_r p) ratio) (pixels h w))))). { rewrite <- Ec, map_map. now apply (map_nth_error (fun p => pad n (map (linear w) (filter (in_disc p (p_r p) ratio) (pixels h w))))). }
  rewrite (column_of n cols i _ Ni) by (apply Len; eapply nth_error_In; exact Ni). exists (filter (in_disc p (p_r p) ratio) (pixels h w)). eexists. unfold pad. rewrite (map_ext _ _ linear_number). split; [reflexivity|]. split; [apply sorted_filter, sorted_pixels|]. apply disc_pixels. apply Rlt_le, P. eapply nth_error_In. exact I.
Qed.
(* from geometry: the pixels of the first pupil with the largest radius, moved *)
Lemma moved_numbers s px : map (fun y => (fst y * Z.of_nat w + snd y)%Z) (filter (inside h w) (map (moved s) px)) = flat_map (moved_number h w (fst s) (snd s)) px.
Proof.
  clear. induction px as [|x px IH]; [reflexivity|]. cbn [map filter flat_map]. unfold moved_number at 1, inside at 1, moved at 1 2 3 4. cbn [fst snd].
  set (a := (0 <=? Z.of_nat (snd x) + snd s)%Z). set (b := (Z.of_nat (snd x) + snd s <? Z.of_nat w)%Z). set (e := (0 <=? Z.of_nat (fst x) + fst s)%Z). set (f := (Z.of_nat (fst x) + fst s <? Z.of_nat h)%Z).
  replace (a && b && e && f) with (e && f && a && b) by (now destruct a, b, e, f). destruct (e && f && a && b); cbn [map app]; now rewrite IH.
Qed.
Lemma nearest_round x : nearest (round_even x) x.
Proof. clear. unfold nearest. apply Rabs_le. assert (H := round_even_near x). lra. Qed.
Theorem C117_geometric c ratio ref qs rows : generate h w c ratio (ref :: qs) = Ok rows -> c_intensity c = false ->
  exists big px, In big (map p_r (ref :: qs)) /\ (forall r, In r (map p_r (ref :: qs)) -> r <= big) /\
    StronglySorted Z.lt (map (number w) px) /\ (forall x, In x px <-> (fst x < h)%nat /\ (snd x < w)%nat /\ annulus (p_x ref) (p_y ref) (big * Rmax 0 ratio) big x) /\
    column 0 rows = map (number w) px /\
    forall i p, nth_error (ref :: qs) i = Some p -> exists dy dx k, nearest dy (p_y p - p_y ref) /\ nearest dx (p_x p - p_x ref) /\ flat_map (moved_number h w dy dx) px <> [] /\ column i rows = flat_map (moved_number h w dy dx) px ++ repeat (-1)%Z k.
Proof.
  intros H C. destruct (generate_inv c ratio _ rows H) as (n & cols & E & L & Len & _ & _ & -> & P). rewrite C in E. unfold moved_pupil in E. destruct (forallb _ (ref :: qs)) eqn:F; [|discriminate]. set (big := rmax_l (map p_r (ref :: qs))) in *. set (px := filter _ _) in E. destruct (map_res _ (ref :: qs)) as [cs|] eqn:M; [|discriminate]. cbn [bind] in E. injection E as En Ec. subst cs. destruct (map_res_nth _ _ _ M) as [_ N]. exists big, px.
  assert (B : In big (map p_r (ref :: qs))) by (apply rmax_in; discriminate).
  assert (G : forall i p, nth_error (ref :: qs) i = Some p -> flat_map (moved_number h w (fst (shift ref p)) (snd (shift ref p))) px <> [] /\ column i (rows_of n cols) = flat_map (moved_number h w (fst (shift ref p)) (snd (shift ref p))) px ++ repeat (-1)%Z (n - length (flat_map (moved_number h w (fst (shift ref p)) (snd (shift ref p))) px))).
  { intros i p I. destruct (N i p I) as (col & E & J). cbv beta zeta in E. rewrite <- moved_numbers. destruct (filter (inside h w) (map (moved (shift ref p)) px)) as [|y0 v0] eqn:V; [discriminate|]. rewrite <- V in *. split; [rewrite V; discriminate|]. rewrite (column_of n cols i col J) by (apply Len; eapply nth_error_In; exact J). injection E as <-. unfold pad. now rewrite En. }
  split; [exact B|]. split; [apply rmax_ge|]. split; [apply sorted_filter, sorted_pixels|]. split; [|split].
  - intros x. apply disc_pixels. apply in_map_iff in B. destruct B as (p & <- & I). now apply Rlt_le, P.
  - destruct (G 0%nat ref eq_refl) as [_ ->]. assert (S0 : shift ref ref = (0, 0)%Z) by (unfold shift; rewrite !Rminus_diag_eq by reflexivity; change 0 with (IZR 0); now rewrite round_even_IZR). rewrite S0. cbn [fst snd].
    assert (Z0 : forall l, incl l (pixels h w) -> flat_map (moved_number h w 0 0) l = map (number w) l).
    { induction l as [|x l IH]; intros K; [reflexivity|]. cbn [flat_map map]. rewrite IH by (intros y Y; apply K; now right). assert (X := K x (or_introl eq_refl)). apply pixels_in in X. unfold moved_number, number. rewrite !Z.add_0_r. replace ((0 <=? Z.of_nat (fst x)) && (Z.of_nat (fst x) <? Z.of_nat h) && (0 <=? Z.of_nat (snd x)) && (Z.of_nat (snd x) <? Z.of_nat w))%Z with true; [reflexivity|]. symmetry. rewrite !andb_true_iff, !Z.leb_le, !Z.ltb_lt. lia. }
    rewrite (Z0 px) by apply incl_filter. rewrite map_length, <- En, Nat.sub_diag. cbn [repeat]. apply app_nil_r.
  - intros i p I. destruct (G i p I) as [G1 G2]. exists (fst (shift ref p)), (snd (shift ref p)). eexists. split; [apply nearest_round|]. split; [apply nearest_round|]. split; [exact G1|exact G2].
Qed.
(* the rows hold corresponding pixels if no pixel is lost *)
Theorem C117_aligned c ratio ref qs rows i p : generate h w c ratio (ref :: qs) = Ok rows -> c_intensity c = false -> nth_error (ref :: qs) i = Some p -> (forall r, In r rows -> nth i r (-1)%Z <> (-1)%Z) ->
  exists dy dx, nearest dy (p_y p - p_y ref) /\ nearest dx (p_x p - p_x ref) /\ forall r, In r rows -> nth i r (-1)%Z = (nth 0 r (-1) + dy * Z.of_nat w + dx)%Z.
Proof.
  intros H C I K. destruct (C117_geometric c ratio ref qs rows H C) as (big & px & _ & _ & _ & _ & C0 & G). destruct (G i p I) as (dy & dx & k & Y & X & _ & Ci). exists dy, dx. split; [exact Y|]. split; [exact X|].
  assert (L : length rows = length px) by (rewrite <- (map_length (number w) px), <- C0; unfold column; now rewrite map_length).
  assert (K0 : k = 0%nat). { destruct k as [|k]; [reflexivity|]. exfalso. assert (J : In (-1)%Z (column i rows)) by (rewrite Ci; apply in_or_app; right; now left). unfold column in J. apply in_map_iff in J. destruct J as (r & E & R). exact (K r R E). }
  subst k. cbn [repeat] in Ci. rewrite app_nil_r in Ci. assert (Lf : length (flat_map (moved_number h w dy dx) px) = length px) by (rewrite <- Ci; unfold column; now rewrite map_length). clear - C0 Ci Lf.
  assert (Q : flat_map (moved_number h w dy dx) px = map (fun x => (number w x + dy * Z.of_nat w + dx)%Z) px).
  { assert (Le : forall l, (length (flat_map (moved_number h w dy dx) l) <= length l)%nat). { induction l as [|x l IH]; [cbn; lia|]. cbn [flat_map]. rewrite app_length. cbn [length]. unfold moved_number at 1. destruct (_ && _); cbn [length]; lia. }
    clear C0 Ci. induction px as [|x l IH]; [reflexivity|]. cbn [flat_map map] in *. rewrite app_length in Lf. cbn [length] in Lf. specialize (Le l). assert (M : moved_number h w dy dx x = [(number w x + dy * Z.of_nat w + dx)%Z] \/ moved_number h w dy dx x = []) by (unfold moved_number; destruct (_ && _); [left; f_equal; unfold number; ring|now right]). destruct M as [M|M]; rewrite M in *; cbn [length app] in *; [|lia]. now rewrite IH by lia. }
  rewrite Q in Ci. rewrite <- (map_map (number w) (fun z => (z + dy * Z.of_nat w + dx)%Z)) in Ci. rewrite <- C0 in Ci. unfold column in Ci. rewrite map_map in Ci. clear - Ci. induction rows as [|r0 rows IH]; intros r R; [destruct R|]. cbn [map] in Ci; injection Ci as E1 E2. destruct R as [<-|R]; [exact E1|now apply IH].
Qed.
(* pixels in the image, no row without pixel *)
Theorem C117_entries c ratio ps rows : generate h w c ratio ps = Ok rows -> rows <> [] /\ forall row, In row rows -> length row = length ps /\ (exists z, In z row /\ z <> (-1)%Z) /\ forall z, In z row -> z = (-1)%Z \/ (0 <= z < Z.of_nat h * Z.of_nat w)%Z.
Proof.
  intros H. assert (H0 := H). destruct (generate_inv c ratio ps rows H) as (n & cols & E & L & Len & (full & Fi & Ff) & N & R & P). split; [rewrite R; destruct n; [lia|]; discriminate|].
  intros row I. assert (I' := I). rewrite R in I'. unfold rows_of in I'. apply in_map_iff in I'. destruct I' as (r & Er & Ir). apply in_seq in Ir. split; [rewrite <- Er, map_length; exact L|]. split.
  - exists (nth r full (-1)%Z). split; [rewrite <- Er; apply (in_map (fun col => nth r col (-1)%Z)); exact Fi|apply Ff; lia].
  - intros z Z0. apply In_nth with (d := (-1)%Z) in Z0. destruct Z0 as (i & Hi & <-). rewrite <- Er, map_length, L in Hi. destruct (nth_error ps i) as [p|] eqn:Ep; [|apply nth_error_None in Ep; lia].
    assert (J : In (nth i row (-1)%Z) (column i rows)) by (unfold column; now apply (in_map (fun r => nth i r (-1)%Z))). destruct (c_intensity c) eqn:C.
    + destruct (C117_intensity c ratio ps rows i p H0 C Ep) as (px & k & Ec & _ & Px). rewrite Ec in J. apply in_app_or in J. destruct J as [J|J]; [|left; now apply repeat_spec in J]. right. apply in_map_iff in J. destruct J as (x & <- & X). apply Px in X. now apply number_range.
    + destruct ps as [|ref qs]; [destruct i; discriminate|]. destruct (C117_geometric c ratio ref qs rows H0 C) as (big & px & _ & _ & _ & _ & _ & G). destruct (G i p Ep) as (dy & dx & k & _ & _ & _ & Ec). rewrite Ec in J. apply in_app_or in J. destruct J as [J|J]; [|left; now apply repeat_spec in J]. right.
      apply in_flat_map in J. destruct J as (x & _ & J). unfold moved_number in J. destruct (_ && _) eqn:T in J; [|destruct J]. destruct J as [<-|[]]. rewrite !andb_true_iff, !Z.leb_le, !Z.ltb_lt in T. destruct T as (((T1 & T2) & T3) & T4). assert (M : ((Z.of_nat (fst x) + dy + 1) * Z.of_nat w <= Z.of_nat h * Z.of_nat w)%Z) by (apply Z.mul_le_mono_nonneg_r; lia). assert (M' : (0 <= (Z.of_nat (fst x) + dy) * Z.of_nat w)%Z) by (apply Z.mul_nonneg_nonneg; lia). lia.
Qed.

(* without obstruction, indices are found exactly when each square has light *)
Lemma nat_of (z : Z) : (0 <= z)%Z -> IZR z = INR (Z.to_nat z).
Proof. clear. intros Z0. rewrite INR_IZR_INZ, Z2Nat.id by exact Z0. reflexivity. Qed.
Lemma pupil_facts c img ps i : analyze h w c img = Ok ps -> (i < 4)%nat -> let q := nth i ps (mkPup 0 0 0) in
  0 <= p_x q <= IZR (Z.of_nat w - 1) /\ 0 <= p_y q <= IZR (Z.of_nat h - 1) /\ (0 < p_r q -> 1 / PI <= p_r q * p_r q /\ (1 / 2 <= p_r q * p_r q \/ exists a b, p_x q = IZR a /\ p_y q = IZR b)).
Proof.
  intros H I q. destruct (C117_centre c img ps i H I) as (p & p' & Q & Q' & X & Y). fold q in X, Y.
  assert (W : forall p, quadrant h w i p -> (fst p <= h - 1)%nat /\ (snd p <= w - 1)%nat /\ (1 <= h)%nat /\ (1 <= w)%nat).
  { clear. intros p Q. unfold quadrant in Q. assert (A := Nat.mul_div_le h 2). assert (B := Nat.mul_div_le w 2). destruct (i <? 2)%nat, (Nat.even i); lia. }
  destruct (W p' Q') as (W1 & W2 & W3 & W4). apply le_INR in W1, W2. rewrite minus_INR in W1, W2 by assumption. rewrite !minus_IZR, <- !INR_IZR_INZ. cbn [INR] in *. assert (N1 := pos_INR (snd p)). assert (N2 := pos_INR (fst p)). split; [lra|]. split; [lra|]. intros R.
  destruct (analyze_inv c img ps H) as [_ A]. destruct (A i I) as (p0 & S & E). unfold q in *. rewrite E in *. unfold placed in *. cbn [p_x p_y p_r] in *. destruct (single_radius c d _ p0 S R) as [S1 [S2|(a & b & S2 & S3)]]; split; try exact S1; [now left|]. right. exists (Z.of_nat (a + snd (o i))), (Z.of_nat (b + fst (o i))). rewrite S2, S3, <- !INR_IZR_INZ, !plus_INR. split; reflexivity.
Qed.
Lemma in_range (a n : Z) : (0 <= a <= n - 1)%Z -> (Z.to_nat a < Z.to_nat n)%nat.
Proof. clear. lia. Qed.
(* a pixel of the first disc which remains in the image once moved *)
Lemma common_pixel c img ps i j big : analyze h w c img = Ok ps -> (i < 4)%nat -> (j < 4)%nat -> let q := nth i ps (mkPup 0 0 0) in let q' := nth j ps (mkPup 0 0 0) in 0 < p_r q -> p_r q <= big ->
  exists x, In x (pixels h w) /\ in_disc q big 0 x = true /\ inside h w (moved (shift q q') x) = true.
Proof.
  intros H I J q q' R B. destruct (pupil_facts c img ps i H I) as (X & Y & F). fold q in X, Y, F. destruct (F R) as (_ & F2). destruct (pupil_facts c img ps j H J) as (X' & Y' & _). fold q' in X', Y'. clear F.
  assert (Hw : (0 <= Z.of_nat w - 1)%Z) by (apply le_IZR; lra). assert (Hh : (0 <= Z.of_nat h - 1)%Z) by (apply le_IZR; lra).
  assert (Nx := round_even_near (p_x q' - p_x q)). assert (Ny := round_even_near (p_y q' - p_y q)).
  destruct (near_both (Z.of_nat w - 1) (Z.of_nat w - 1) (p_x q) (p_x q') (round_even (p_x q' - p_x q))) as (u & U1 & U2 & U3 & U4); [lia|lra|lra|lra|].
  destruct (near_both (Z.of_nat h - 1) (Z.of_nat h - 1) (p_y q) (p_y q') (round_even (p_y q' - p_y q))) as (v & V1 & V2 & V3 & V4); [lia|lra|lra|lra|].
  exists (Z.to_nat v, Z.to_nat u). split; [apply pixels_in; cbn [fst snd]; lia|]. split.
  - apply in_disc_annulus; [lra|]. unfold annulus. cbn [fst snd]. rewrite <- !nat_of by lia. replace (rltb 0 0) with false by (symmetry; apply rltb_false; lra). rewrite Rmult_0_l. assert (BB : p_r q * p_r q <= big * big) by (apply Rmult_le_compat; lra).
    assert (Sq : forall a, - (1 / 2) <= a <= 1 / 2 -> 0 <= a * a <= 1 / 4). { clear. intros a A. split; [apply Rle_0_sqr|]. assert (0 <= (1 / 2 - a) * (1 / 2 + a)) by (apply Rmult_le_pos; lra). lra. }
    assert (A1 := Sq _ U3). assert (A2 := Sq _ V3). destruct F2 as [F2|(a & b & Ea & Eb)]; [lra|]. rewrite (U4 a Ea), (V4 b Eb), Ea, Eb. assert (0 <= big * big) by (apply Rle_0_sqr). lra.
  - unfold inside, moved, shift. cbn [fst snd]. rewrite !Z2Nat.id by lia. rewrite !andb_true_iff, !Z.leb_le, !Z.ltb_lt. lia.
Qed.
Lemma map_res_all {X Y} (f : X -> res Y) l : (forall x, In x l -> exists y, f x = Ok y) -> exists ys, map_res f l = Ok ys.
Proof.
  clear. induction l as [|x l IH]; intros H; [now exists []|]. cbn [map_res]. destruct (H x (or_introl eq_refl)) as (y & ->). destruct IH as (ys & ->); [intros; apply H; now right|]. cbn. now eexists.
Qed.
Lemma generate_rows c ratio ps n cols : (if c_intensity c then each_pupil h w ratio ps else moved_pupil h w ratio ps) = Ok (n, cols) -> (exists col, In col cols /\ nth 0 col (-1)%Z <> (-1)%Z) -> (0 < n)%nat -> exists rows, generate h w c ratio ps = Ok rows.
Proof.
  intros E (col & I & C) N. unfold generate. rewrite E. cbn [bind fst snd]. fold (rows_of n cols). destruct (filter _ (rows_of n cols)) as [|r0 l0] eqn:F; [|now eexists]. exfalso.
  assert (J : In (map (fun col => nth 0 col (-1)%Z) cols) (filter (existsb (fun z => negb (z =? -1)%Z)) (rows_of n cols))); [|rewrite F in J; destruct J].
  apply filter_In. split; [unfold rows_of; apply (in_map (fun r => map (fun col => nth r col (-1)%Z) cols)); apply in_seq; lia|]. apply existsb_exists. exists (nth 0 col (-1)%Z). split; [now apply (in_map (fun col => nth 0 col (-1)%Z))|]. now apply negb_true_iff, Z.eqb_neq.
Qed.
Theorem C117_found c img ps : analyze h w c img = Ok ps -> (exists rows, generate h w c 0 ps = Ok rows) <-> forall i, (i < 4)%nat -> 0 < p_r (nth i ps (mkPup 0 0 0)).
Proof.
  intros H. destruct (analyze_inv c img ps H) as [L _]. split.
  - intros (rows & G) i I. destruct (generate_inv c 0 ps rows G) as (_ & _ & _ & _ & _ & _ & _ & _ & P). apply P. apply nth_In. lia.
  - intros R. assert (P : forallb (fun p => rltb 0 (p_r p)) ps = true). { apply forallb_forall. intros p I. apply In_nth with (d := mkPup 0 0 0) in I. destruct I as (i & I & <-). apply rltb_spec, R. lia. }
    assert (Nth : forall p, In p ps -> exists i, (i < 4)%nat /\ nth i ps (mkPup 0 0 0) = p). { intros p I. apply In_nth with (d := mkPup 0 0 0) in I. destruct I as (i & I & E). exists i. split; [lia|exact E]. }
    assert (First : forall (a : Z) l k, (0 <= a)%Z -> nth 0 (pad k (a :: l)) (-1)%Z <> (-1)%Z) by (intros; unfold pad; cbn; lia).
    destruct (c_intensity c) eqn:C.
    + set (cols := map (fun p => map (linear w) (filter (in_disc p (p_r p) 0) (pixels h w))) ps). set (n := fold_left Nat.max (map (@length Z) cols) 0%nat).
      assert (I0 : In (nth 0 ps (mkPup 0 0 0)) ps) by (apply nth_In; lia). destruct (common_pixel c img ps 0 0 (p_r (nth 0 ps (mkPup 0 0 0))) H) as (x & X1 & X2 & _); [lia|lia|apply R; lia|lra|].
      set (col := map (linear w) (filter (in_disc (nth 0 ps (mkPup 0 0 0)) (p_r (nth 0 ps (mkPup 0 0 0))) 0) (pixels h w))). assert (Ic : In col cols) by (apply (in_map (fun p => map (linear w) (filter (in_disc p (p_r p) 0) (pixels h w)))); exact I0).
      assert (Ix : In (linear w x) col) by (apply in_map, filter_In; now split). destruct (fold_nmax (map (@length Z) cols) 0%nat) as (_ & B & _). fold n in B. specialize (B (length col) (in_map (@length Z) cols col Ic)).
      apply (generate_rows c 0 ps n (map (pad n) cols)).
      * rewrite C. unfold each_pupil. rewrite P. reflexivity.
      * exists (pad n col). split; [now apply in_map|]. destruct col as [|a l] eqn:Ec; [destruct Ix|]. apply First. assert (Ia : In a col) by (rewrite Ec; now left). unfold col in Ia. apply in_map_iff in Ia. destruct Ia as (y & <- & _). unfold linear. lia.
      * destruct col; [destruct Ix|cbn in B; lia].
    + destruct ps as [|ref qs]; [cbn in L; lia|]. set (big := rmax_l (map p_r (ref :: qs))). set (px := filter (in_disc ref big 0) (pixels h w)).
      assert (Rb : forall p, In p (ref :: qs) -> p_r p <= big) by (intros p I; apply rmax_ge; now apply in_map).
      assert (V : forall p, In p (ref :: qs) -> exists x, In x px /\ inside h w (moved (shift ref p) x) = true).
      { intros p I. destruct (Nth p I) as (j & J & E). destruct (common_pixel c img (ref :: qs) 0 j big H) as (x & X1 & X2 & X3); [lia|exact J|apply R; lia|apply Rb; now left|]. rewrite E in X3. cbn [nth] in X2, X3. exists x. split; [apply filter_In; now split|exact X3]. }
      destruct (map_res_all (fun p => let v := filter (inside h w) (map (moved (shift ref p)) px) in match v with [] => Err ValueError | _ => Ok (pad (length px) (map (fun y => (fst y * Z.of_nat w + snd y)%Z) v)) end) (ref :: qs)) as (cols & M).
      { intros p I. destruct (V p I) as (x & X1 & X2). cbv zeta. destruct (filter (inside h w) _) as [|y0 v0] eqn:F; [|eexists; reflexivity]. exfalso. assert (Q : In (moved (shift ref p) x) (filter (inside h w) (map (moved (shift ref p)) px))) by (apply filter_In; split; [now apply in_map|exact X2]). rewrite F in Q. destruct Q. }
      apply (generate_rows c 0 (ref :: qs) (length px) cols).
      * rewrite C. unfold moved_pupil. rewrite P. fold big. fold px. cbv zeta in *. rewrite M. reflexivity.
      * destruct (map_res_nth _ _ _ M) as [_ N]. destruct (N 0%nat ref eq_refl) as (col & E & Ic). exists col. split; [eapply nth_error_In; exact Ic|]. cbv beta zeta in E. destruct (filter (inside h w) _) as [|y0 v0] eqn:F in E; [discriminate|]. cbv beta iota in E. injection E as <-. apply First.
        assert (Iy : In y0 (filter (inside h w) (map (moved (shift ref ref)) px))) by (rewrite F; now left). apply filter_In in Iy. destruct Iy as [_ Iy]. unfold inside in Iy. rewrite !andb_true_iff, !Z.leb_le, !Z.ltb_lt in Iy. assert (0 <= fst y0 * Z.of_nat w)%Z by (apply Z.mul_nonneg_nonneg; lia). lia.
      * destruct (V ref (or_introl eq_refl)) as (x & X1 & _). destruct px; [destruct X1|cbn; lia].
Qed.
(* failures are of one kind *)
Theorem C117_failure c ratio ps e : generate h w c ratio ps = Err e -> e = ValueError.
Proof.
  unfold generate. intros H. destruct (if c_intensity c then each_pupil h w ratio ps else moved_pupil h w ratio ps) as [[n cols]|e0] eqn:E; cbn [bind fst snd] in H; [destruct (filter _ _); congruence|]. injection H as <-. destruct (c_intensity c).
  - unfold each_pupil in E. destruct (forallb _ _); congruence.
  - unfold moved_pupil in E. destruct ps as [|ref qs]; [congruence|]. destruct (forallb _ _); [|congruence]. cbv zeta in E. destruct (map_res _ (ref :: qs)) as [|e1] eqn:M; cbn [bind] in E; [congruence|]. injection E as <-.
    assert (K : forall (f : pupil -> res (list Z)) l e, (forall p e, f p = Err e -> e = ValueError) -> map_res f l = Err e -> e = ValueError).
    { clear. intros f l e Hf. induction l as [|x l IH]; cbn [map_res]; intros H; [discriminate|]. destruct (f x) eqn:E; cbn [bind] in H; [|injection H as <-; eapply Hf; exact E]. destruct (map_res f l); cbn [bind] in H; [discriminate|]. apply IH. congruence. }
    apply (K _ _ _) in M; [exact M|]. intros p e2 E2. cbv beta in E2. destruct (filter _ _) in E2; congruence.
Qed.

(* obstruction *)
Lemma insert_in x y l : In y (insert x l) -> y = x \/ In y l.
Proof. clear. induction l as [|z l IH]; cbn [insert]; [intros [<-|[]]; now left|]. destruct (rleb x z); [intros [<-|H]; auto|]. intros [<-|H]; [right; now left|]. destruct (IH H); [now left|right; now right]. Qed.
Lemma insert_length x l : length (insert x l) = S (length l).
Proof. clear. induction l as [|z l IH]; [reflexivity|]. cbn [insert]. destruct (rleb x z); cbn [length]; congruence. Qed.
Lemma sorted_in y l : In y (sorted l) -> In y l.
Proof. clear. induction l as [|x l IH]; [easy|]. unfold sorted in *. cbn [fold_right]. intros H. apply insert_in in H. destruct H as [->|H]; [now left|right; auto]. Qed.
Lemma sorted_length l : length (sorted l) = length l.
Proof. clear. induction l as [|x l IH]; [reflexivity|]. unfold sorted in *. cbn [fold_right length]. now rewrite insert_length, IH. Qed.
Lemma median_between l a b : l <> [] -> (forall x, In x l -> a <= x <= b) -> a <= median l <= b.
Proof.
  clear. intros N H. assert (L : (0 < length l)%nat) by (destruct l; [congruence|cbn; lia]). assert (K : forall k, (k < length l)%nat -> a <= nth k (sorted l) 0 <= b) by (intros k Hk; apply H, sorted_in, nth_In; now rewrite sorted_length). unfold median.
  assert (D : (length l / 2 < length l)%nat) by (apply Nat.div_lt; lia). destruct (Nat.even (length l)); [|now apply K]. assert (K1 := K _ D). assert (K2 := K (length l / 2 - 1)%nat ltac:(lia)). lra.
Qed.
Lemma argmax_from_bound l : forall best bi i, (bi < i)%nat -> (argmax_from best bi i l < i + length l)%nat.
Proof.
  clear. induction l as [|x l IH]; intros best bi i B; cbn [argmax_from length]; [lia|]. destruct (rltb best x); [specialize (IH x i (S i) ltac:(lia))|specialize (IH best bi (S i) ltac:(lia))]; lia.
Qed.
Lemma argmax_bound l : l <> [] -> (argmax l < length l)%nat.
Proof. clear. destruct l as [|x l]; [congruence|]. intros _. cbn [argmax length]. assert (H := argmax_from_bound l x 0 1 ltac:(lia)). lia. Qed.
Lemma ratio_between c img p x : 0 <= c_obs c -> In x (one_ratio h w c img p) -> c_min c <= x <= Rmax (c_min c) (9 / 20 * c_obs c).
Proof.
  intros O X. unfold one_ratio in X. destruct (rltb 0 (p_r p)); [|destruct X]. destruct (rltb _ _); [|destruct X]. destruct X as [<-|[]].
  set (k := argmax _). assert (K : (k < 10)%nat) by (unfold k; eapply Nat.lt_le_trans; [apply argmax_bound; discriminate|rewrite map_length, seq_length; lia]). assert (K' : INR k <= 9) by (replace 9 with (INR 9) by (cbn; ring); apply le_INR; lia).
  assert (M : INR k / 20 * c_obs c <= 9 / 20 * c_obs c) by (apply Rmult_le_compat_r; [exact O|lra]). assert (A := Rmax_l (c_min c) (9 / 20 * c_obs c)). assert (B := Rmax_r (c_min c) (9 / 20 * c_obs c)). destruct (rleb _ _) eqn:Q; [apply rleb_spec in Q; lra|lra].
Qed.
Theorem C117_obstruction c img ps : 0 <= c_obs c -> obstruction h w c img ps = 0 \/ c_min c <= obstruction h w c img ps <= Rmax (c_min c) (9 / 20 * c_obs c).
Proof.
  intros O. unfold obstruction. destruct (flat_map (one_ratio h w c img) ps) as [|r0 l0] eqn:E; [now left|]. right. rewrite <- E. apply median_between; [rewrite E; discriminate|]. intros x X. apply in_flat_map in X. destruct X as (p & _ & X). now apply ratio_between with img p.
Qed.
Lemma profile_scale img p k : profile h w (fun i j => k * img i j) p = map (Rmult k) (profile h w img p).
Proof. unfold profile. rewrite map_map. apply map_ext. intros i. destruct (filter _ _) eqn:E; [ring|]. rewrite <- E. apply rmean_scale. Qed.
Lemma slope_scale k l i : slope (map (Rmult k) l) i = k * slope l i.
Proof. clear. assert (N : forall j, nth j (map (Rmult k) l) 0 = k * nth j l 0) by (intros j; replace 0 with (k * 0) at 1 by ring; apply map_nth). unfold slope. rewrite map_length. destruct i as [|i]; [rewrite !N; ring|]. destruct (_ <? _)%nat; rewrite !N; [unfold Rdiv|]; ring. Qed.
Lemma argmax_scale k l : 0 < k -> argmax (map (Rmult k) l) = argmax l.
Proof.
  clear. intros K. assert (G : forall m best bi i, argmax_from (k * best) bi i (map (Rmult k) m) = argmax_from best bi i m). { induction m as [|x r IH]; intros; cbn [map argmax_from]; [reflexivity|]. rewrite rltb_scale by exact K. destruct (rltb best x); apply IH. }
  destruct l as [|x l]; [reflexivity|]. cbn [map argmax]. apply G.
Qed.
Theorem C117_obstruction_flux c img ps k : 0 < k -> obstruction h w c (fun i j => k * img i j) ps = obstruction h w c img ps.
Proof.
  intros K. unfold obstruction. replace (flat_map (one_ratio h w c (fun i j => k * img i j)) ps) with (flat_map (one_ratio h w c img) ps); [reflexivity|]. induction ps as [|p ps IH]; [reflexivity|]. cbn [flat_map]. rewrite IH. f_equal. unfold one_ratio. rewrite profile_scale. set (l := profile h w img p).
  rewrite firstn_map, skipn_map, !rmean_scale_id, Rmult_assoc, rltb_scale by exact K. rewrite (map_ext (slope (map (Rmult k) l)) (fun i => k * slope l i)) by (intros; apply slope_scale). rewrite <- (map_map (slope l) (Rmult k)), argmax_scale by exact K. reflexivity.
Qed.

(* ------------------------------------------------------------------ frames *)
Definition total (k : cal) : image := match k_sum k with None => fun _ _ => 0 | Some s => s end.
Definition due (dt : option Z) (t : Z) : Prop := match dt with None => True | Some e => e <> 0%Z /\ (t mod e)%Z = 0%Z end.
Lemma obstruction_ext c img img' ps : (forall i j, img i j = img' i j) -> obstruction h w c img ps = obstruction h w c img' ps.
Proof.
  intros E. unfold obstruction. replace (flat_map (one_ratio h w c img) ps) with (flat_map (one_ratio h w c img') ps); [reflexivity|]. induction ps as [|p ps IH]; [reflexivity|]. cbn [flat_map]. rewrite IH. f_equal. unfold one_ratio. replace (profile h w img p) with (profile h w img' p); [reflexivity|].
  unfold profile. apply map_ext. intros i. destruct (filter _ _) as [|x0 l0] eqn:F; [reflexivity|]. rewrite <- F. f_equal. apply map_ext. intros x. now rewrite E.
Qed.
Lemma add_frame_value k f i j : add_frame (k_sum k) f i j = total k i j + f i j.
Proof. clear. unfold add_frame, total. destruct (k_sum k); ring. Qed.
(* frames are added until the measurement succeeds; a failure keeps them *)
Theorem C117_waits c dt t f k : dt <> Some 0%Z -> ~ due dt t -> let kr := trigger h w c dt t f k in snd kr = Ok tt /\ k_out (fst kr) = k_out k /\ k_ratio (fst kr) = k_ratio k /\ forall i j, total (fst kr) i j = total k i j + f i j.
Proof.
  intros Z0 D. unfold trigger. destruct dt as [e|]; [|now destruct D]. cbn [due] in D. assert (e <> 0%Z) by congruence. destruct (Z.eqb_spec e 0); [easy|]. destruct (Z.eqb_spec (t mod e) 0); [tauto|]. cbn. repeat split. intros i j. unfold total at 1. cbn. apply add_frame_value.
Qed.
Theorem C117_outcome c dt t f k : due dt t ->
  let kr := trigger h w c dt t f k in
  (snd kr = Err ValueError /\ k_out (fst kr) = k_out k /\ forall i j, total (fst kr) i j = total k i j + f i j) \/
  (snd kr = Ok tt /\ (forall i j, total (fst kr) i j = 0) /\ exists out, k_out (fst kr) = Some out /\ d_time out = t /\ length (d_pupils out) = 4%nat /\
     forall i, (i < 4)%nat -> exists p p', quadrant h w (nth i [1; 0; 2; 3]%nat 0%nat) p /\ quadrant h w (nth i [1; 0; 2; 3]%nat 0%nat) p' /\ INR (snd p) <= p_x (nth i (d_pupils out) (mkPup 0 0 0)) <= INR (snd p') /\ INR (fst p) <= p_y (nth i (d_pupils out) (mkPup 0 0 0)) <= INR (fst p')).
Proof.
  intros D. unfold trigger. assert (T : match dt with None => Ok true | Some e => if (e =? 0)%Z then Err ZeroDivisionError else Ok (t mod e =? 0)%Z end = Ok true). { destruct dt as [e|]; [|reflexivity]. destruct D as [D1 D2]. destruct (Z.eqb_spec e 0); [easy|]. now rewrite D2. }
  rewrite T. set (img := add_frame (k_sum k) f). assert (V : forall r o' i j, total (mkCal (Some img) r o') i j = total k i j + f i j) by (intros; apply add_frame_value). cbn [k_sum k_ratio k_out].
  destruct (analyze h w c img) as [ps|e] eqn:A.
  - cbv zeta. cbn [k_sum k_ratio k_out]. set (ratio := if c_auto c then _ else _). destruct (generate h w c ratio ps) as [rows|e] eqn:G.
    + right. cbn [fst snd k_out]. split; [reflexivity|]. split; [reflexivity|]. eexists. split; [reflexivity|]. cbn [d_time d_pupils]. split; [reflexivity|]. split; [reflexivity|]. intros i I. destruct (four i I) as [-> |[-> |[-> | ->]]]; [exact (C117_centre c img ps 1 A ltac:(lia))|exact (C117_centre c img ps 0 A ltac:(lia))|exact (C117_centre c img ps 2 A ltac:(lia))|exact (C117_centre c img ps 3 A ltac:(lia))].
    + left. cbn [fst snd k_out]. rewrite (C117_failure c ratio ps e G). split; [reflexivity|]. split; [reflexivity|apply V].
  - left. cbn [fst snd k_out]. assert (e = ValueError) as ->. { destruct (C117_size c img) as [S1 S2]. destruct (le_lt_dec 2 h), (le_lt_dec 2 w); [|rewrite S2 in A by lia; congruence..]. destruct S1 as (ps & S & _); [now split|congruence]. }
    split; [reflexivity|]. split; [reflexivity|apply V].
Qed.
(* only the sum of the frames matters, and not its scale *)
Theorem C117_total c dt t f f' k k' s : 0 < s -> (forall i j, total k' i j + f' i j = s * (total k i j + f i j)) -> k_ratio k = k_ratio k' -> k_out k = k_out k' -> let kr := trigger h w c dt t f k in let kr' := trigger h w c dt t f' k' in snd kr = snd kr' /\ k_out (fst kr) = k_out (fst kr') /\ k_ratio (fst kr) = k_ratio (fst kr').
Proof.
  intros K E R O. unfold trigger. set (img := add_frame (k_sum k) f). set (img' := add_frame (k_sum k') f').
  assert (V : forall i j, img' i j = s * img i j) by (intros; unfold img, img'; rewrite !add_frame_value; apply E).
  assert (A : analyze h w c img' = analyze h w c img) by (rewrite <- (C117_flux c img s K); apply C117_local; intros; apply V).
  assert (B : forall ps, obstruction h w c img' ps = obstruction h w c img ps) by (intros; rewrite <- (C117_obstruction_flux c img ps s K); apply obstruction_ext, V).
  cbn [k_sum k_ratio k_out]. destruct (match dt with None => _ | Some _ => _ end) as [[|]|]; cbn [fst snd k_out k_ratio]; [|auto|auto]. rewrite A. destruct (analyze h w c img) as [ps|]; [|cbn; auto]. rewrite B, <- R. set (ratio := if c_auto c then _ else _). cbv zeta. cbn [k_sum k_ratio k_out]. destruct (generate h w c ratio ps); cbn [fst snd k_out k_ratio]; rewrite ?O; auto.
Qed.
(* with default thresholds or any thresholds up to one, and without obstruction: success is light in each square *)
Theorem C117_success c dt t f k : due dt t -> c_thr1 c <= 1 -> c_thr2 c <= 1 -> c_auto c = false -> k_ratio k = 0 ->
  snd (trigger h w c dt t f k) = Ok tt <-> forall i, (i < 4)%nat -> exists p, quadrant h w i p /\ 0 < total k (fst p) (snd p) + f (fst p) (snd p).
Proof.
  intros D T1 T2 Au R. unfold trigger. assert (T : match dt with None => Ok true | Some e => if (e =? 0)%Z then Err ZeroDivisionError else Ok (t mod e =? 0)%Z end = Ok true). { destruct dt as [e|]; [|reflexivity]. destruct D as [D1 D2]. destruct (Z.eqb_spec e 0); [easy|]. now rewrite D2. }
  rewrite T, Au. cbn [k_sum k_ratio k_out]. rewrite R. set (img := add_frame (k_sum k) f).
  assert (V : (forall i, (i < 4)%nat -> exists p, quadrant h w i p /\ 0 < total k (fst p) (snd p) + f (fst p) (snd p)) <-> (forall i, (i < 4)%nat -> exists p, quadrant h w i p /\ 0 < img (fst p) (snd p))) by (split; intros H i I; destruct (H i I) as (p & Q & L); exists p; (split; [exact Q|]); unfold img in *; now rewrite add_frame_value in *).
  rewrite V. destruct (analyze h w c img) as [ps|e] eqn:A.
  - assert (F := C117_found c img ps A). assert (Li := fun i => C117_light c img ps i A T1 T2). cbv zeta. split.
    + intros H i I. apply Li; [exact I|]. revert i I. apply F. destruct (generate h w c 0 ps); [now eexists|discriminate].
    + intros H. destruct F as [_ F]. destruct F as (rows & ->); [intros i I; apply Li; auto|]. reflexivity.
  - cbn [snd]. split; [discriminate|]. intros H. exfalso. destruct (H 0%nat ltac:(lia)) as (p & Q & _). destruct (C117_size c img) as [S1 _]. destruct S1 as (ps & S & _); [|congruence]. clear - Q. unfold quadrant in Q. cbn [Nat.ltb Nat.leb Nat.even] in Q. destruct (le_lt_dec 2 h) as [A|A]; [|rewrite (Nat.div_small h 2) in Q by lia; lia]. destruct (le_lt_dec 2 w) as [B|B]; [lia|rewrite (Nat.div_small w 2) in Q by lia; lia].
Qed.
Theorem C117_errors c dt t f k e : snd (trigger h w c dt t f k) = Err e -> (e = ZeroDivisionError /\ dt = Some 0%Z) \/ (e = ValueError /\ due dt t).
Proof.
  intros H. assert (C : dt = Some 0%Z \/ (dt <> Some 0%Z /\ ~ due dt t) \/ due dt t).
  { destruct dt as [x|]; [|right; now right]. cbn [due]. destruct (Z.eq_dec x 0) as [->|N]; [now left|]. right. destruct (Z.eq_dec (t mod x) 0) as [M|M]; [right; now split|left; split; [congruence|tauto]]. }
  destruct C as [-> |[[Z0 D]|D]].
  - cbn in H. left. split; [congruence|reflexivity].
  - destruct (C117_waits c dt t f k Z0 D) as [E _]. congruence.
  - right. destruct (C117_outcome c dt t f k D) as [[E _]|[E _]]; [split; [congruence|exact D]|congruence].
Qed.

(* ------------------------------------------------------------------ parameters changed while running *)
Definition fine {X} (x : option (res X)) : Prop := match x with Some (Err _) => False | _ => True end.
Definition given {X} (x : option (res X)) (old : X) : X := match x with Some (Ok v) => v | _ => old end.
Theorem C117_dynamic t i f s : let dt := match n_dt i with Some (Ok v) => Some v | _ => y_dt s end in
  (~ (fine (n_dt i) /\ fine (n_thr1 i) /\ fine (n_thr2 i)) -> dyn_step h w t i f s = Err AttributeError) /\
  (fine (n_dt i) /\ fine (n_thr1 i) /\ fine (n_thr2 i) ->
     (dt = None -> dyn_step h w t i f s = Err TypeError) /\
     (dt = Some 0%Z -> dyn_step h w t i f s = Err ZeroDivisionError) /\
     (forall e, dt = Some e -> e <> 0%Z -> exists s' st, dyn_step h w t i f s = Ok (s', (e, given (n_thr1 i) (c_thr1 (y_set s)), given (n_thr2 i) (c_thr2 (y_set s)), st)) /\
        (st = StFailed ValueError -> k_out (y_cal s') = k_out (y_cal s) /\ forall a b, total (y_cal s') a b = total (y_cal s) a b + f a b) /\ (st = StOk \/ st = StFailed ValueError))).
Proof.
  intros dt. split.
  - intros N. unfold dyn_step, dyn_prepare. destruct (n_dt i) as [[?|?]|], (n_thr1 i) as [[?|?]|], (n_thr2 i) as [[?|?]|]; cbn [fine] in N; cbn [convert bind]; try reflexivity; exfalso; tauto.
  - intros (F1 & F2 & F3).
    assert (P : exists a b, dyn_prepare i s = Ok (mkDyn (mkSet a b (c_obs (y_set s)) (c_min (y_set s)) (c_auto (y_set s)) (c_intensity (y_set s))) dt (y_cal s)) /\ a = given (n_thr1 i) (c_thr1 (y_set s)) /\ b = given (n_thr2 i) (c_thr2 (y_set s))).
    { unfold dt, dyn_prepare. destruct (n_dt i) as [[?|?]|], (n_thr1 i) as [[?|?]|], (n_thr2 i) as [[?|?]|]; cbn [fine] in *; try tauto; cbn [convert bind given]; do 2 eexists; repeat split. }
    destruct P as (a & b & P & <- & <-). unfold dyn_step. rewrite P. cbn [bind]. clear P. set (c := mkSet a b _ _ _ _). unfold dyn_trigger. cbn [y_set y_dt y_cal]. set (kr := trigger h w c dt t f (y_cal s)).
    split; [|split].
    + intros E. assert (K : snd kr = Ok tt \/ snd kr = Err ValueError) by (unfold kr; rewrite E; destruct (C117_outcome c None t f (y_cal s) Logic.I) as [[X _]|[X _]]; auto). destruct K as [-> | ->]; cbn [bind fst snd dyn_post y_dt]; rewrite E; reflexivity.
    + intros E. unfold kr. rewrite E. reflexivity.
    + intros e E N. assert (K : snd kr = Ok tt \/ (snd kr = Err ValueError /\ due dt t)) by (destruct (snd kr) as [[]|x] eqn:X; [now left|]; right; destruct (C117_errors c dt t f (y_cal s) x X) as [[_ X1]|[-> X1]]; [congruence|now split]).
      destruct K as [K|[K D]]; rewrite K; cbn [bind fst snd dyn_post y_dt]; rewrite E; do 2 eexists; (split; [reflexivity|]); split; auto; [discriminate|]. intros _. cbn [y_cal]. unfold kr in *. destruct (C117_outcome c dt t f (y_cal s) D) as [(_ & X1 & X2)|(X & _)]; [now split|congruence].
Qed.
End Frame.
Print Assumptions C117_size.
Print Assumptions C117_local.
Print Assumptions C117_flux.
Print Assumptions C117_light.
Print Assumptions C117_centre.
Print Assumptions C117_binary.
Print Assumptions C117_intensity.
Print Assumptions C117_geometric.
Print Assumptions C117_aligned.
Print Assumptions C117_entries.
Print Assumptions C117_found.
Print Assumptions C117_failure.
Print Assumptions C117_obstruction.
Print Assumptions C117_obstruction_flux.
Print Assumptions C117_waits.
Print Assumptions C117_outcome.
Print Assumptions C117_total.
Print Assumptions C117_success.
Print Assumptions C117_errors.
Print Assumptions C117_dynamic.

(* ------------------------------------------------------------------ examples *)
Definition defaults : settings := mkSet (1 / 10) (1 / 4) (4 / 5) (1 / 20) true false.
Definition spots (i j : nat) : bool := nth j (nth i [[false; false; false; false]; [false; true; false; true]; [false; false; true; true]; [false; true; true; true]] []) false.
Definition spot_pupils : list pupil := [mkPup 1 1 (sqrt (1 / PI)); mkPup 3 1 (sqrt (1 / PI)); mkPup 1 3 (sqrt (1 / PI)); mkPup (5 / 2) (5 / 2) (sqrt (4 / PI))].
Lemma single_spots (a b : nat) (bq : nat -> nat -> bool) l : lit_of 2 bq = l -> (forall i j, bq i j = spots (a + i) (b + j)) -> l <> [] ->
  single defaults 2 (fun i j => binary spots (a + i)%nat (b + j)%nat) = Ok (mkPup (rmean (map (fun p => INR (snd p)) l)) (rmean (map (fun p => INR (fst p)) l)) (sqrt (INR (length l) / PI))).
Proof.
  intros L B N. rewrite <- (single_ext defaults 2 (binary bq)) by (intros i j _ _; unfold binary; now rewrite B). rewrite single_binary by (cbn; lra || lia). rewrite L. destruct l; [congruence|reflexivity].
Qed.
Lemma pup_eq x x' y y' r r' : x = x' -> y = y' -> r = r' -> mkPup x y r = mkPup x' y' r'.
Proof. congruence. Qed.
Lemma cons_eq {X} (x x' : X) l l' : x = x' -> l = l' -> x :: l = x' :: l'.
Proof. congruence. Qed.
Lemma spots_found : analyze 4 4 defaults (binary spots) = Ok spot_pupils.
Proof.
  unfold analyze, corners. change (4 / 2)%nat with 2%nat. change (quad_size 4 4) with 2%nat. cbn [Nat.min Nat.sub map_res fst snd].
  rewrite (single_spots 0 0 (fun i j => spots (0 + i) (0 + j)) [(1, 1)%nat] eq_refl) by (reflexivity || discriminate). cbn [bind].
  rewrite (single_spots 0 2 (fun i j => spots (0 + i) (2 + j)) [(1, 1)%nat] eq_refl) by (reflexivity || discriminate). cbn [bind].
  rewrite (single_spots 2 0 (fun i j => spots (2 + i) (0 + j)) [(1, 1)%nat] eq_refl) by (reflexivity || discriminate). cbn [bind].
  rewrite (single_spots 2 2 (fun i j => spots (2 + i) (2 + j)) [(0, 0); (0, 1); (1, 0); (1, 1)]%nat eq_refl) by (reflexivity || discriminate). cbn [bind].
  unfold spot_pupils. cbn [p_x p_y p_r]. unfold rmean. cbn -[sqrt PI]. assert (P := PI_RGT_0). apply f_equal. repeat apply cons_eq; try reflexivity; apply pup_eq; try reflexivity; try field; apply f_equal; field; lra.
Qed.
Lemma PI_small : PI < 32 / 10.
Proof. destruct (PI_ineq 9) as [_ H]. change (2 * 9)%nat with 18%nat in H. cbn [sum_f_R0] in H. unfold tg_alt, PI_tg in H. rewrite !INR_IZR_INZ in H. cbn [Nat.mul Nat.add] in H. cbn -[pow PI Rinv] in H.  cbn [pow] in H. lra. Qed.
Lemma sqrt_1_4 : sqrt (1 / PI) < sqrt (4 / PI).
Proof. assert (P := PI_RGT_0). apply sqrt_lt_1_alt. assert (0 < / PI) by now apply Rinv_0_lt_compat. unfold Rdiv. lra. Qed.
Lemma spots_disc x : in_disc (mkPup 1 1 (sqrt (1 / PI))) (sqrt (4 / PI)) 0 x = ((Z.of_nat (snd x) - 1) * (Z.of_nat (snd x) - 1) + (Z.of_nat (fst x) - 1) * (Z.of_nat (fst x) - 1) <=? 1)%Z.
Proof.
  apply bool_iff. rewrite in_disc_annulus by apply sqrt_pos. replace (rltb 0 0) with false by (symmetry; apply rltb_false; lra). unfold annulus. cbn [p_x p_y]. assert (P := PI_gt_3). assert (P4 := PI_le_4).
  assert (I : 0 < / PI) by (apply Rinv_0_lt_compat; lra). rewrite sqrt_sqrt by (unfold Rdiv; lra). rewrite Z.leb_le. set (z := ((Z.of_nat (snd x) - 1) * (Z.of_nat (snd x) - 1) + (Z.of_nat (fst x) - 1) * (Z.of_nat (fst x) - 1))%Z).
  assert (E : (INR (snd x) - 1) * (INR (snd x) - 1) + (INR (fst x) - 1) * (INR (fst x) - 1) = IZR z) by (unfold z; rewrite plus_IZR, !mult_IZR, !minus_IZR, <- !INR_IZR_INZ; reflexivity). rewrite E. assert (Zp : (0 <= z)%Z) by (apply Z.add_nonneg_nonneg; apply Z.square_nonneg). apply IZR_le in Zp.
  assert (B1 : 1 <= 4 / PI) by (apply Rmult_le_reg_r with PI; [lra|]; unfold Rdiv; rewrite Rmult_assoc, Rinv_l by lra; lra). assert (B2 : 4 / PI < 2) by (apply Rmult_lt_reg_r with PI; [lra|]; unfold Rdiv; rewrite Rmult_assoc, Rinv_l by lra; lra).
  split; intros H; [assert (z < 2)%Z by (apply lt_IZR; lra); lia|apply IZR_le in H; lra].
Qed.
Lemma round_3_2 : round_even (5 / 2 - 1) = 2%Z.
Proof.
  replace (5 / 2 - 1) with (3 / 2) by lra. assert (E : Int_part (3 / 2) = 1%Z). { destruct (base_Int_part (3 / 2)) as [A B]. assert (Int_part (3 / 2) < 2)%Z by (apply lt_IZR; lra). assert (0 < Int_part (3 / 2))%Z by (apply lt_IZR; lra). lia. }
  unfold round_even. rewrite E. replace (rltb (3 / 2 - 1) (1 / 2)) with false by (symmetry; apply rltb_false; lra). replace (rltb (1 / 2) (3 / 2 - 1)) with false by (symmetry; apply rltb_false; lra). reflexivity.
Qed.
Example C117_example : generate 4 4 defaults 0 spot_pupils = Ok [[1; 3; 9; 11]; [4; 6; 12; 14]; [5; 7; 13; 15]; [6; 11; 14; -1]; [9; -1; -1; -1]]%Z.
Proof.
  unfold generate, defaults. cbn [c_intensity]. unfold moved_pupil, spot_pupils. cbv beta iota zeta.
  replace (forallb _ _) with true. 2: { symmetry. apply forallb_forall. assert (P := PI_RGT_0). assert (I : 0 < / PI) by (now apply Rinv_0_lt_compat). intros p [<-|[<-|[<-|[<-|[]]]]]; apply rltb_spec; cbn [p_r]; apply sqrt_lt_R0; unfold Rdiv; lra. }
  replace (rmax_l (map p_r _)) with (sqrt (4 / PI)). 2: { assert (S := sqrt_1_4). cbn [map p_r rmax_l fold_left]. rewrite (Rmax_left (sqrt (1 / PI)) (sqrt (1 / PI))), (Rmax_left (sqrt (1 / PI)) (sqrt (1 / PI))), Rmax_right by lra. reflexivity. }
  rewrite (filter_ext _ _ spots_disc). cbn [map_res]. unfold shift. cbn [p_x p_y]. rewrite round_3_2. replace (1 - 1) with (IZR 0) by lra. replace (3 - 1) with (IZR 2) by lra. rewrite !round_even_IZR. reflexivity.
Qed.
(* rows need not hold corresponding pixels once a pixel is lost *)
Theorem C117_rows_refuted : exists img ps rows r r', analyze 4 4 defaults img = Ok ps /\ generate 4 4 defaults 0 ps = Ok rows /\ In r rows /\ In r' rows /\
  (forall i, (i < 2)%nat -> (0 <= nth i r (-1) /\ 0 <= nth i r' (-1))%Z) /\ (nth 1 r (-1) - nth 0 r (-1) <> nth 1 r' (-1) - nth 0 r' (-1))%Z.
Proof.
  exists (binary spots), spot_pupils. eexists. exists [1; 3; 9; 11]%Z, [6; 11; 14; -1]%Z. split; [exact spots_found|]. split; [exact C117_example|]. split; [now left|]. split; [do 3 right; now left|]. split; [|cbn; lia]. intros [|[|i]] I; cbn; lia.
Qed.
Print Assumptions C117_rows_refuted.
(* a uniform image of eight rows and eight columns is found to have an obstruction *)
Theorem C117_obstruction_refuted : exists ps, analyze 8 8 defaults (fun _ _ => 1) = Ok ps /\ 1 / 20 <= obstruction 8 8 defaults (fun _ _ => 1) ps.
Proof.
  destruct (C117_size 8 8 defaults (fun _ _ => 1)) as [S _]. destruct S as (ps & A & L); [lia|]. exists ps. split; [exact A|].
  assert (P0 : nth 0 ps (mkPup 0 0 0) = mkPup (3 / 2) (3 / 2) (sqrt (16 / PI))).
  { unfold analyze, corners in A. change (8 / 2)%nat with 4%nat in A. change (quad_size 8 8) with 4%nat in A. cbn [Nat.min Nat.sub map_res fst snd] in A. change (fun _ _ : nat => 1) with (binary (fun _ _ => true)) in A. rewrite single_binary in A by (cbn; lra || lia). cbn [bind] in A. injection A as <-. cbn [nth].
    change (lit_of 4 (fun _ _ => true)) with (pixels 4 4). cbn [pixels flat_map seq map app p_x p_y p_r]. unfold rmean. cbn -[sqrt PI]. assert (P := PI_RGT_0). apply pup_eq; [field|field|apply f_equal; field; lra]. }
  set (p := nth 0 ps (mkPup 0 0 0)) in *. assert (Ip : In p ps) by (apply nth_In; lia).
  assert (R : p_r p * p_r p = 16 / PI). { rewrite P0. cbn [p_r]. apply sqrt_sqrt. apply Rlt_le, Rdiv_lt_0_compat; [lra|exact PI_RGT_0]. }
  assert (Rp : 0 < p_r p). { rewrite P0. cbn [p_r]. apply sqrt_lt_R0, Rdiv_lt_0_compat; [lra|exact PI_RGT_0]. }
  assert (B3 := PI_gt_3). assert (B4 := PI_small). assert (U1 : 16 / PI < 16 / 3) by (unfold Rdiv; apply Rmult_lt_compat_l; [lra|]; apply Rinv_lt_contravar; lra).
  assert (U2 : 5 <= 16 / PI) by (apply Rmult_le_reg_r with PI; [lra|]; unfold Rdiv; rewrite Rmult_assoc, Rinv_l by lra; lra).
  set (f := fun i => let ring := filter (fun x => rleb (INR i / 20 * p_r p) (distance p x) && rltb (distance p x) (INR (S i) / 20 * p_r p)) (pixels 8 8) in match ring with [] => 0 | _ => rmean (map (fun _ => 1) ring) end).
  assert (Pr : profile 8 8 (fun _ _ => 1) p = map f (seq 0 20)) by reflexivity.
  assert (F01 : forall i, f i = 0 \/ f i = 1). { intros i. unfold f. cbv zeta. destruct (filter _ _) as [|x0 l0]; [now left|]. right. unfold rmean. rewrite rsum_const, map_length. field. apply not_0_INR. discriminate. }
  assert (D : forall x, distance p x = sqrt ((INR (snd x) - 3 / 2) ^ 2 + (INR (fst x) - 3 / 2) ^ 2)) by (intros; rewrite P0; reflexivity).
  assert (In0 : forall i, (i < 3)%nat -> f i = 0).
  { intros i I. unfold f. cbv zeta. replace (filter _ _) with (@nil (nat * nat)); [reflexivity|]. symmetry. apply length_zero_iff_nil. destruct (filter _ _) as [|x0 l0] eqn:E; [reflexivity|]. exfalso. assert (X : In x0 (x0 :: l0)) by now left. rewrite <- E in X. apply filter_In in X. destruct X as [_ X]. apply andb_true_iff in X. destruct X as [_ X]. apply rltb_spec in X. apply Rlt_not_le in X. apply X. rewrite D.
    assert (Q : forall n, 1 / 4 <= (INR n - 3 / 2) ^ 2). { intros n. assert (C : INR n <= 1 \/ 2 <= INR n) by (destruct (le_lt_dec n 1) as [Hn|Hn]; [left; replace 1 with (INR 1) by reflexivity; now apply le_INR|right; replace 2 with (INR 2) by (cbn; ring); apply le_INR; lia]). destruct C as [C|C]; [assert (0 <= (1 - INR n) * (2 - INR n)) by (apply Rmult_le_pos; lra)|assert (0 <= (INR n - 1) * (INR n - 2)) by (apply Rmult_le_pos; lra)]; lra. }
    assert (Q1 := Q (snd x0)). assert (Q2 := Q (fst x0)). assert (I3 : INR (S i) <= 3) by (replace 3 with (INR 3) by (cbn; ring); apply le_INR; lia). assert (I0 := pos_INR (S i)). apply le_sqrt; [apply Rmult_le_pos; lra|lra|].
    assert (M : INR (S i) * INR (S i) <= 3 * 3) by (apply Rmult_le_compat; lra). replace (INR (S i) / 20 * p_r p * (INR (S i) / 20 * p_r p)) with (INR (S i) * INR (S i) / 400 * (p_r p * p_r p)) by (unfold Rdiv; field). rewrite R.
    assert (M2 : INR (S i) * INR (S i) / 400 * (16 / PI) <= 9 / 400 * (16 / 3)) by (apply Rmult_le_compat; try lra; apply Rle_mult_inv_pos; [apply Rle_0_sqr|lra]). lra. }
  assert (In1 : f 18%nat = 1).
  { destruct (F01 18%nat) as [Z0|Z0]; [|exact Z0]. exfalso. unfold f in Z0. cbv zeta in Z0. destruct (filter _ _) as [|x0 l0] eqn:E in Z0.
    - assert (X : In (0, 0)%nat (filter (fun x => rleb (INR 18 / 20 * p_r p) (distance p x) && rltb (distance p x) (INR 19 / 20 * p_r p)) (pixels 8 8))); [|rewrite E in X; destruct X]. apply filter_In. split; [apply pixels_in; cbn; lia|]. apply andb_true_iff. rewrite rleb_spec, rltb_spec, D. cbn [fst snd]. replace (INR 0) with 0 by reflexivity. replace (INR 18) with 18 by (cbn; ring). replace (INR 19) with 19 by (cbn; ring). split.
      + apply le_sqrt; [lra|lra|]. replace (18 / 20 * p_r p * (18 / 20 * p_r p)) with (81 / 100 * (p_r p * p_r p)) by field. rewrite R. lra.
      + apply Rnot_le_lt. intros K. apply le_sqrt in K; [|lra|lra]. replace (19 / 20 * p_r p * (19 / 20 * p_r p)) with (361 / 400 * (p_r p * p_r p)) in K by field. rewrite R in K. lra.
    - unfold rmean in Z0. rewrite rsum_const, map_length in Z0. unfold Rdiv in Z0. rewrite Rmult_1_r, Rinv_r in Z0 by (apply not_0_INR; discriminate). lra. }
  assert (O : one_ratio 8 8 defaults (fun _ _ => 1) p <> []).
  { unfold one_ratio. replace (rltb 0 (p_r p)) with true by (symmetry; now apply rltb_spec). rewrite Pr. cbv zeta. replace (rltb _ _) with true; [discriminate|]. symmetry. apply rltb_spec. cbn [seq map firstn skipn]. unfold rmean, rsum. cbn [fold_right length]. rewrite !In0 by lia. rewrite In1. destruct (F01 17%nat) as [-> | ->], (F01 19%nat) as [-> | ->]; cbn [INR]; lra. }
  unfold obstruction. destruct (flat_map (one_ratio 8 8 defaults (fun _ _ => 1)) ps) as [|r0 l0] eqn:E.
  - exfalso. destruct (one_ratio 8 8 defaults (fun _ _ => 1) p) as [|y l] eqn:Ey; [congruence|]. assert (Y : In y (flat_map (one_ratio 8 8 defaults (fun _ _ => 1)) ps)) by (apply in_flat_map; exists p; split; [exact Ip|rewrite Ey; now left]). rewrite E in Y. destruct Y.
  - assert (M : 1 / 20 <= median (r0 :: l0) <= Rmax (1 / 20) (9 / 20 * (4 / 5))); [|lra]. rewrite <- E. apply median_between; [rewrite E; discriminate|]. intros x X. apply in_flat_map in X. destruct X as (q & Iq & X).
    exact (ratio_between 8 8 defaults (fun _ _ => 1) q x ltac:(cbn; lra) X).
Qed.
Print Assumptions C117_obstruction_refuted.
