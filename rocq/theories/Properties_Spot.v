(* Properties of the average spot. *)
From Coq Require Import List ZArith Bool Arith Lia QArith Qcanon Lqa Permutation Sorted FinFun.
From Verif Require Import PyBase PyLemmas OpticalModel QcTac AirModel SpotModel Properties_Air.
Import ListNotations.
Local Open Scope Qc_scope.
Local Strategy 100 [qlt Qcdiv Qcinv Qcmult Qcplus Q2Qc].

(* ---------------------------------------------------------------- lists *)
Lemma add_length : forall a b, length a = length b -> length (add_images a b) = length b.
Proof. intros a b H. unfold add_images. rewrite map_length, combine_length, H. apply Nat.min_id. Qed.
Lemma add_nth : forall a b k, length a = length b -> nth k (add_images a b) 0 = nth k a 0 + nth k b 0.
Proof.
  induction a as [|x a IH]; intros [|y b] k H; try discriminate H.
  - destruct k; cbn; ring.
  - destruct k; [reflexivity|]. cbn. apply (IH b k). now injection H.
Qed.
Lemma sum_nth : forall m subs acc k, length acc = m -> Forall (fun s => length s = m) subs ->
  length (fold_left add_images subs acc) = m /\ nth k (fold_left add_images subs acc) 0 = nth k acc 0 + fold_right Qcplus 0 (map (fun s => nth k s 0) subs).
Proof.
  intros m. induction subs as [|s subs IH]; intros acc k A F; cbn [fold_left map fold_right]; [split; [exact A|ring]|].
  inversion F as [|? ? F1 F2]; subst. destruct (IH (add_images acc s) k) as [L E]; [rewrite add_length; congruence|congruence|]. split; [congruence|].
  rewrite E, add_nth by congruence. ring.
Qed.
Lemma map_res_nth : forall {A B} (f : A -> res B) l l', map_res f l = Ok l' -> length l' = length l /\ forall i a, nth_error l i = Some a -> exists b, f a = Ok b /\ nth_error l' i = Some b.
Proof.
  induction l as [|a l IH]; intros l' H; cbn in H; [injection H as <-; split; [reflexivity|intros [|i] x HX; discriminate HX]|].
  destruct (f a) as [b|e] eqn:E; cbn in H; [|discriminate H]. destruct (map_res f l) as [r|e] eqn:R; cbn in H; [|discriminate H]. injection H as <-. destruct (IH r eq_refl) as [L N].
  split; [cbn; congruence|]. intros [|i] x HX; cbn in HX |- *; [injection HX as <-; now exists b|now apply N].
Qed.

Lemma list_ext : forall (l l' : list Qc), (forall i, nth_error l i = nth_error l' i) -> l = l'.
Proof.
  induction l as [|x l IH]; intros [|y l'] H; [reflexivity|specialize (H 0%nat); discriminate H|specialize (H 0%nat); discriminate H|].
  assert (H0 := H 0%nat). cbn in H0. injection H0 as ->. f_equal. apply IH. intros i. exact (H (S i)).
Qed.

Section Props.
Context (n : nat) (idxs : list (list nat)) (gamma0 alpha0 : Qc).
Context (fit : list Qc -> shape -> option (shape * list Qc)) (width : Qc -> Qc).
Notation trigger := (trigger n idxs gamma0 alpha0 fit width).

(* pixel k of the sum is the sum over the sub-apertures of their pixel k *)
Theorem C130_sum : forall img o, Forall (fun s => length s = (n * n)%nat) idxs -> trigger img = Ok o ->
  length (o_sum o) = (n * n)%nat /\ forall k, (k < n * n)%nat -> nth k (o_sum o) 0 = fold_right Qcplus 0 (map (fun s => nth (nth k s 0%nat) img 0) idxs).
Proof.
  intros img o F H. unfold SpotModel.trigger in H. inv_bind H. rename a into total. assert (S : o_sum o = total).
  { destruct (fit total _) as [[f m]|].
    - destruct (fwhm width (s_gamma f) (s_alpha f)); [injection H as <-; reflexivity|]. inv_bind H. injection H as <-. reflexivity.
    - inv_bind H. injection H as <-. reflexivity. }
  clear H. rewrite S. clear S o. unfold sum_image in E. inv_bind E. injection E as <-. rename a into subs. destruct (map_res_nth _ _ _ E0) as [L N].
  assert (FS : Forall (fun s => length s = (n * n)%nat) subs).
  { apply Forall_forall. intros s I. apply In_nth_error in I. destruct I as [i I]. assert (X : (i < length idxs)%nat) by (rewrite <- L; apply nth_error_Some; congruence).
    destruct (nth_error idxs i) as [t|] eqn:T; [|apply nth_error_None in T; lia]. destruct (N i t T) as (b & M & B). rewrite B in I. injection I as ->. destruct (map_res_nth _ _ _ M) as [LM _]. rewrite LM.
    rewrite Forall_forall in F. apply F. now apply nth_error_In in T. }
  split; [apply (sum_nth (n * n)%nat subs (repeat 0 (n * n)) 0); [apply repeat_length|exact FS]|]. intros k K.
  destruct (sum_nth (n * n)%nat subs (repeat 0 (n * n)) k (repeat_length _ _) FS) as [_ R]. rewrite R. rewrite nth_repeat, Qcplus_0_l. f_equal. clear R.
  apply list_ext. intros i. rewrite !nth_error_map. destruct (nth_error idxs i) as [t|] eqn:T.
  - destruct (N i t T) as (b & M & B). rewrite B. cbn [option_map]. f_equal. destruct (map_res_nth _ _ _ M) as [LM NM].
    assert (LT : length t = (n * n)%nat) by (rewrite Forall_forall in F; apply F; now apply nth_error_In in T).
    assert (KT : nth_error t k = Some (nth k t 0%nat)) by (apply nth_error_nth'; lia). destruct (NM k _ KT) as (x & P & X). apply (nth_error_nth _ _ 0) in X. rewrite X.
    unfold pixel in P. destruct (nth_error img (nth k t 0%nat)) as [y|] eqn:Y; [|discriminate P]. injection P as ->. symmetry. now apply nth_error_nth.
  - assert (X : nth_error subs i = None) by (apply nth_error_None; rewrite L; now apply nth_error_None). rewrite X. reflexivity.
Qed.
(* the outputs of a frame: of the fit, or of the guesses *)
Theorem C130_fitted : forall img o total, sum_image n idxs img = Ok total -> trigger img = Ok o ->
  forall f m, fit total (estimate_initials n gamma0 alpha0 total) = Some (f, m) -> s_alpha f <> 0 -> length m = length total ->
  o_success o = true /\ o_shape o = f /\ o_model o = m /\ o_fwhm o = q 2 1 * s_gamma f * width (s_alpha f) /\ add_images (o_model o) (o_residual o) = o_sum o /\
  (exists x, o_chi2 o = Some x /\ x * q (Z.of_nat (length total)) 1 = fold_right Qcplus 0 (map (fun x => x * x) (o_residual o)) \/ total = []).
Proof.
  intros img o total T H f m F A L. unfold SpotModel.trigger in H. rewrite T in H. cbn [bind] in H. rewrite F in H. unfold fwhm at 1 in H.
  destruct (Qc_eq_bool (s_alpha f) 0) eqn:E; [apply Qc_eq_bool_correct in E; contradiction|]. cbv zeta in H. injection H as <-. cbn [o_success o_shape o_model o_fwhm o_residual o_sum o_chi2].
  repeat (split; [reflexivity|]). split.
  - clear F T. revert total L. induction m as [|x m IH]; intros [|y t] L; try discriminate L; [reflexivity|]. unfold add_images in *. cbn [combine map fst snd]. f_equal; [ring|]. apply IH. now injection L.
  - destruct total as [|y t]; [exists 0; now right|]. eexists. left. split; [reflexivity|]. unfold mean. rewrite !map_length, combine_length, L, Nat.min_id. set (z := fold_right _ _ _). clearbody z.
    set (k := q (Z.of_nat (length (y :: t))) 1). assert (K : k <> 0).
    { subst k. unfold q. intros K. apply (f_equal this) in K. assert (K' : (this (Q2Qc (Z.of_nat (length (y :: t)) # 1)) == 0)%Q) by (rewrite K; reflexivity). unfold Q2Qc, this in K'. rewrite Qred_correct in K'. unfold Qeq in K'. cbn [Qnum Qden length] in K'. lia. }
    clearbody k. field. exact K.
Qed.
Theorem C130_not_fitted : forall img o total, sum_image n idxs img = Ok total -> trigger img = Ok o -> fit total (estimate_initials n gamma0 alpha0 total) = None ->
  o_success o = false /\ o_chi2 o = None /\ o_model o = repeat 0 (n * n) /\ o_residual o = repeat 0 (n * n) /\ o_sum o = total /\
  s_x (o_shape o) = s_y (o_shape o) /\ s_x (o_shape o) + s_x (o_shape o) = q (Z.of_nat n) 1 - 1 /\ s_gamma (o_shape o) = gamma0 /\ s_alpha (o_shape o) = alpha0.
Proof.
  intros img o total T H F. unfold SpotModel.trigger in H. rewrite T in H. cbn [bind] in H. cbv zeta in H. rewrite F in H. inv_bind H. injection H as <-. cbn. repeat (split; [reflexivity|]). split; [|split; reflexivity].
  set (z := q (Z.of_nat n) 1). clearbody z. rewrite <- Qcmult_plus_distr_r. replace (q 1 2 + q 1 2) with 1 by (apply Qc_is_canon; reflexivity). ring.
Qed.
(* errors: a pixel outside the image, or no fit and an alpha of zero *)
Theorem C130_errors : forall img e, trigger img = Err e ->
  (e = IndexError /\ exists s i, In s idxs /\ In i s /\ (length img <= i)%nat) \/ (e = ZeroDivisionError /\ alpha0 = 0).
Proof.
  intros img e H. unfold SpotModel.trigger in H. destruct (sum_image n idxs img) as [total|e'] eqn:T; cbn [bind] in H.
  - right. cbv zeta in H. assert (W : forall g a, fwhm width g a = Err e -> e = ZeroDivisionError /\ a = 0).
    { intros g a X. unfold fwhm in X. destruct (Qc_eq_bool a 0) eqn:E; [|discriminate X]. injection X as <-. split; [reflexivity|now apply Qc_eq_bool_correct]. }
    assert (G : s_alpha (estimate_initials n gamma0 alpha0 total) = alpha0) by reflexivity. rewrite <- G.
    destruct (fit total _) as [[f m]|]; [destruct (fwhm width (s_gamma f) (s_alpha f)); [discriminate H|]|];
    (destruct (fwhm width (s_gamma (estimate_initials n gamma0 alpha0 total)) _) eqn:X in H; cbn [bind] in H; [discriminate H|]; injection H as ->; now apply (W (s_gamma (estimate_initials n gamma0 alpha0 total)))).
  - left. injection H as ->. unfold sum_image in T. 
    assert (M : map_res (fun s => map_res (pixel img) s) idxs = Err e) by (destruct (map_res _ idxs); cbn [bind] in T; [discriminate T|injection T as ->; reflexivity]). clear T. revert M. induction idxs as [|s l IH]; intros M; [discriminate M|]. cbn in M.
    destruct (map_res (pixel img) s) as [b|e1] eqn:P.
    + cbn in M. destruct (map_res _ l) as [r|e2] eqn:R in M; [discriminate M|]. injection M as ->. destruct (IH R) as (E & s' & i & I1 & I2 & I3). split; [exact E|]. exists s', i. split; [now right|]. now split.
    + cbn in M. injection M as ->. clear IH. assert (Z : e = IndexError /\ exists i, In i s /\ (length img <= i)%nat).
      { revert P. induction s as [|i s IHs]; intros P; [discriminate P|]. cbn in P. unfold pixel in P at 1. destruct (nth_error img i) as [x|] eqn:X.
        - cbn in P. destruct (map_res (pixel img) s) as [r|e2]; [discriminate P|]. injection P as ->. destruct (IHs eq_refl) as (A & j & J1 & J2). split; [exact A|]. exists j. split; [now right|exact J2].
        - cbn in P. injection P as <-. split; [reflexivity|]. exists i. split; [now left|now apply nth_error_None]. }
      destruct Z as (A & i & I1 & I2). split; [exact A|]. exists s, i. split; [now left|]. now split.
Qed.
(* ---------------------------------------------------------------- the guesses *)
Lemma insert_perm : forall x l, Permutation (x :: l) (insert x l).
Proof. induction l as [|y l IH]; [reflexivity|]. cbn. destruct (qlt y x); [|reflexivity]. etransitivity; [apply perm_swap|]. now constructor. Qed.
Lemma sort_perm : forall l, Permutation l (sort l).
Proof. induction l as [|x l IH]; [constructor|]. cbn. etransitivity; [|apply insert_perm]. now constructor. Qed.
Lemma qlt_add : forall x y k, qlt (x + k) (y + k) = qlt x y.
Proof.
  intros x y k. destruct (qlt x y) eqn:E; [apply qlt_true in E; apply qlt_true|apply qlt_false in E; apply qlt_false]; qclra.
Qed.
Lemma insert_add : forall k x l, insert (x + k) (map (fun y => y + k) l) = map (fun y => y + k) (insert x l).
Proof. intros k x. induction l as [|y l IH]; [reflexivity|]. cbn [map insert]. rewrite qlt_add. destruct (qlt y x); cbn [map]; [now rewrite IH|reflexivity]. Qed.
Lemma sort_add : forall k l, sort (map (fun y => y + k) l) = map (fun y => y + k) (sort l).
Proof. intros k. induction l as [|y l IH]; [reflexivity|]. cbn [map sort fold_right]. change (fold_right insert [] (map (fun y => y + k) l)) with (sort (map (fun y => y + k) l)). rewrite IH. apply insert_add. Qed.
Lemma nth_add : forall k l i, (i < length l)%nat -> nth i (map (fun y => y + k) l) 0 = nth i l 0 + k.
Proof. intros k l i H. rewrite (nth_indep _ 0 (0 + k)) by now rewrite map_length. exact (map_nth (fun y => y + k) l 0 i). Qed.
Lemma median_add : forall k l, l <> [] -> median (map (fun y => y + k) l) = median l + k.
Proof.
  intros k l H. unfold median. rewrite sort_add, map_length. assert (L : length (sort l) = length l) by (symmetry; apply Permutation_length, sort_perm). assert (P : (0 < length l)%nat) by (destruct l; [congruence|cbn; lia]).
  assert (A : (length l / 2 < length l)%nat) by (apply Nat.div_lt; lia). assert (B : ((length l - 1) / 2 < length l)%nat) by (apply (Nat.le_lt_trans _ (length l - 1)); [apply Nat.div_le_upper_bound; lia|lia]).
  rewrite !nth_add by (rewrite L; assumption). set (a := nth _ _ _). set (b := nth _ _ _). replace k with (k * q 1 2 + k * q 1 2) at 3 by (rewrite <- Qcmult_plus_distr_r; replace (q 1 2 + q 1 2) with 1 by (apply Qc_is_canon; reflexivity); ring). ring.
Qed.
Lemma max_add : forall k l, l <> [] -> maximum (map (fun y => y + k) l) = maximum l + k.
Proof.
  intros k [|x l] H; [congruence|]. clear H. cbn [map maximum]. revert x. induction l as [|y l IH]; intros x; [reflexivity|]. cbn [map fold_left]. rewrite <- IH. f_equal. unfold qmax. rewrite qlt_add. now destruct (qlt x y).
Qed.
Lemma border_add : forall k img, (0 < n)%nat -> length img = (n * n)%nat -> border n (map (fun y => y + k) img) = map (fun y => y + k) (border n img).
Proof.
  intros k img P L. unfold border. rewrite !map_app, !map_map.
  repeat (f_equal; try (apply map_ext_in; intros i I; apply in_seq in I; apply nth_add; rewrite L; nia)).
Qed.
(* a uniform light is all in the sky: the other guesses do not change *)
Theorem C130_background : forall k img, (0 < n)%nat -> length img = (n * n)%nat ->
  let g := estimate_initials n gamma0 alpha0 img in let g' := estimate_initials n gamma0 alpha0 (map (fun y => y + k) img) in
  s_sky g' = s_sky g + k /\ s_amp g' = s_amp g /\ s_x g' = s_x g /\ s_y g' = s_y g.
Proof.
  intros k img P L g g'. subst g g'. unfold estimate_initials. cbv zeta. cbn [s_sky s_amp s_x s_y]. rewrite border_add by assumption.
  assert (N1 : border n img <> []) by (unfold border; destruct n; [lia|discriminate]). assert (N2 : img <> []) by (intros ->; cbn in L; nia).
  rewrite median_add, max_add by assumption. split; [reflexivity|]. split; [f_equal; ring|split; reflexivity].
Qed.
(* the border has each pixel of the first and last rows and columns, once *)
Lemma nodup_app : forall {A} (l l' : list A), NoDup l -> NoDup l' -> (forall x, In x l -> ~ In x l') -> NoDup (l ++ l').
Proof.
  intros A l l' N N' D. induction N as [|x l X N IH]; [exact N'|]. cbn. constructor.
  - intros H. apply in_app_or in H. destruct H as [H|H]; [contradiction|]. apply (D x); [now left|exact H].
  - apply IH. intros y Y. apply D. now right.
Qed.
Lemma nodup_pairs : forall {A} (f : nat -> A) s m, (forall i j, f i = f j -> i = j) -> NoDup (map f (seq s m)).
Proof. intros A f s m F. apply FinFun.Injective_map_NoDup; [exact F|apply seq_NoDup]. Qed.
Theorem C130_border : forall img, (2 <= n)%nat -> exists pos, border n img = map (fun p => nth (fst p * n + snd p) img 0) pos /\ NoDup pos /\
  forall r c, In (r, c) pos <-> ((r < n)%nat /\ (c < n)%nat /\ (r = 0%nat \/ r = (n - 1)%nat \/ c = 0%nat \/ c = (n - 1)%nat)).
Proof.
  intros img N. exists (map (fun c => (0%nat, c)) (seq 0 n) ++ map (fun c => ((n - 1)%nat, c)) (seq 0 n) ++ map (fun r => (r, 0%nat)) (seq 1 (n - 2)) ++ map (fun r => (r, (n - 1)%nat)) (seq 1 (n - 2))).
  split; [unfold border; rewrite !map_app, !map_map; reflexivity|]. split.
  - repeat apply nodup_app; try (apply nodup_pairs; congruence);
    intros [a b] H; rewrite ?in_app_iff, ?in_map_iff in *; destruct H as (i & E & I); apply in_seq in I; injection E as <- <-;
    intros G; repeat match goal with H : _ \/ _ |- _ => destruct H | H : exists _, _ |- _ => destruct H | H : _ /\ _ |- _ => destruct H | H : In _ (seq _ _) |- _ => apply in_seq in H | H : (_, _) = (_, _) |- _ => injection H as ? ? end; lia.
  - intros r c. rewrite !in_app_iff, !in_map_iff. split.
    + intros G. repeat match goal with H : _ \/ _ |- _ => destruct H | H : exists _, _ |- _ => destruct H | H : _ /\ _ |- _ => destruct H | H : In _ (seq _ _) |- _ => apply in_seq in H | H : (_, _) = (_, _) |- _ => injection H as ? ? end; subst; lia.
    + intros (R & C & B). destruct (Nat.eq_dec r 0) as [->|R0]; [left; exists c; split; [reflexivity|apply in_seq; lia]|]. destruct (Nat.eq_dec r (n - 1)) as [->|R1]; [right; left; exists c; split; [reflexivity|apply in_seq; lia]|].
      right; right. destruct (Nat.eq_dec c 0) as [->|C0]; [left|right]; exists r; (split; [f_equal; lia|apply in_seq; lia]).
Qed.
(* the amplitude is positive *)
Theorem C130_amplitude : forall img, q 1 1000000 <= s_amp (estimate_initials n gamma0 alpha0 img).
Proof. intros img. cbn. unfold qmax. destruct (qlt _ _) eqn:E; [apply Qcle_refl|]. now apply qlt_false in E. Qed.
End Props.
Print Assumptions C130_sum.
Print Assumptions C130_fitted.
Print Assumptions C130_not_fitted.
Print Assumptions C130_errors.
Print Assumptions C130_background.
Print Assumptions C130_border.
Print Assumptions C130_amplitude.

(* two sub-apertures of 2 x 2 pixels in an image of 2 x 4 *)
Definition ex_img : list Qc := map (fun z => q z 1) [1; 2; 10; 20; 3; 4; 30; 40]%Z.
Definition ex_idxs : list (list nat) := [[0; 1; 4; 5]; [2; 3; 6; 7]]%nat.
Definition zs (l : list Qc) : list QArith_base.Q := map this l.
Definition ex_fit (alpha : Qc) (img : list Qc) (g : shape) : option (shape * list Qc) := Some (mkShape 1 0 0 1 alpha 0, map (fun _ => q 10 1) img).
Example C130_sum_example : match trigger 2 ex_idxs 1 (q 2 1) (fun _ _ => None) (fun _ => 1) ex_img with Ok o => Some (zs (o_sum o), this (s_sky (o_shape o)), this (s_amp (o_shape o)), this (s_x (o_shape o)), o_success o) | _ => None end
  = Some ([11; 22; 33; 44]%Q, (55 # 2)%Q, (33 # 2)%Q, (1 # 2)%Q, false).
Proof. vm_compute. reflexivity. Qed.
Example C130_border_example : zs (border 3 (map (fun k => q (Z.of_nat k) 1) (seq 0 9))) = zs (map (fun k => q (Z.of_nat k) 1) [0; 1; 2; 6; 7; 8; 3; 5]%nat).
Proof. reflexivity. Qed.
Example C130_fitted_example : match trigger 2 ex_idxs 1 (q 2 1) (ex_fit (q 3 1)) (fun _ => q 5 1) ex_img with Ok o => Some (zs (o_residual o), option_map this (o_chi2 o), this (o_fwhm o), o_success o) | _ => None end
  = Some ([1; 12; 23; 34]%Q, Some (915 # 2)%Q, 10%Q, true).
Proof. vm_compute. reflexivity. Qed.
Example C130_errors_example : trigger 2 ex_idxs 1 0 (fun _ _ => None) (fun _ => 1) ex_img = Err ZeroDivisionError /\ trigger 2 [[0; 1; 4; 8]%nat] 1 1 (fun _ _ => None) (fun _ => 1) ex_img = Err IndexError.
Proof. split; vm_compute; reflexivity. Qed.
(* With bounds of alpha that include zero, a frame reported as a success can have a model of zeros and the guesses as parameters: the fit gave an alpha of zero, and the
   exception of its width came after the success was recorded. *)
Theorem C130_success_refuted : exists n idxs gamma0 alpha0 fit width img o, trigger n idxs gamma0 alpha0 fit width img = Ok o /\
  o_success o = true /\ o_model o = repeat 0 (n * n) /\ o_shape o = estimate_initials n gamma0 alpha0 (o_sum o) /\ add_images (o_model o) (o_residual o) <> o_sum o.
Proof.
  exists 2%nat, ex_idxs, 1, (q 2 1), (ex_fit 0), (fun _ => 1), ex_img. eexists. split; [vm_compute; reflexivity|]. split; [reflexivity|]. split; [vm_compute; reflexivity|]. split; [vm_compute; reflexivity|].
  intros H. apply (f_equal zs) in H. vm_compute in H. discriminate H.
Qed.
Print Assumptions C130_success_refuted.
