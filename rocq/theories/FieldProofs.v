(* Arrays with two dimensions. *)
From Coq Require Import List ZArith Bool Arith Lia.
From Verif Require Import PyBase PyLemmas Arith ArithLemmas FilterSpec SumLemmas NpModel NpSpec NpProofs NpSegments FitsModel FitsSpec RebinModel RebinSpec RebinProofs CutModel CutSpec CutProofs VecModel FieldModel FieldSpec.
Import ListNotations.
Local Open Scope ar_scope.

Section P.
Context {A : arith}.
Implicit Types (f g : nat -> nat -> A) (a b : arr2 A).

Lemma tab_image r c f : image r c f (tab A r c f).
Proof.
  split; [apply tab_r|]. split; [reflexivity|]. split.
  - intros x Hx. unfold tab in Hx. cbn [a_rows] in Hx. apply in_map_iff in Hx as (i & <- & _). now rewrite map_length, seq_length.
  - intros i j Hi Hj. exact (proj2 (proj2 (tab_frame r c f)) i j Hi Hj).
Qed.
Lemma image_ent r c f a i j : image r c f a -> (i < r)%nat -> (j < c)%nat -> ent A a i j = f i j.
Proof. intros (_ & _ & _ & H) Hi Hj. exact (H i j Hi Hj). Qed.
Lemma image_r r c f a : image r c f a -> a_r a = r. Proof. now intros (H & _). Qed.
Lemma image_c r c f a : image r c f a -> a_c a = c. Proof. now intros (_ & H & _). Qed.
Lemma image_ext r c f g a : image r c f a -> (forall i j, (i < r)%nat -> (j < c)%nat -> f i j = g i j) -> image r c g a.
Proof. intros (R & C & L & E) H. split; [exact R|]. split; [exact C|]. split; [exact L|]. intros i j Hi Hj. rewrite <- H by assumption. now apply E. Qed.
Lemma image_eq r c f a b : image r c f a -> image r c f b -> a = b.
Proof. apply entries_eq. Qed.
Lemma image_self a : (forall x, In x (a_rows a) -> length x = a_c a) -> image (a_r a) (a_c a) (ent A a) a.
Proof. intros H. split; [reflexivity|]. split; [reflexivity|]. split; [exact H|]. reflexivity. Qed.
Lemma image_tab r c f a : image r c f a -> a = tab A r c f.
Proof. intros H. exact (image_eq r c f _ _ H (tab_image r c f)). Qed.
Lemma image_own r c f a : image r c f a -> image r c (fun i j => entry 0 a i j) a.
Proof. intros H. apply (image_ext r c f); [exact H|]. intros i j Hi Hj. symmetry. now apply (image_ent r c). Qed.

Lemma src_id k i : (i < k)%nat -> src k i = i.
Proof. unfold src. destruct (Nat.eqb_spec k 1); lia. Qed.
Lemma inplace2_image h r c f g a b : image r c f a -> image r c g b ->
  inplace2 A h a b = Ok (tab A r c (fun i j => h (f i j) (g i j))).
Proof.
  intros Ia Ib. unfold inplace2. rewrite (image_r _ _ _ _ Ia), (image_c _ _ _ _ Ia), (image_r _ _ _ _ Ib), (image_c _ _ _ _ Ib).
  unfold fits1. rewrite !Nat.eqb_refl. cbn [orb andb]. f_equal. apply (image_eq r c (fun i j => h (f i j) (g i j))); [|apply tab_image].
  eapply image_ext; [apply tab_image|]. intros i j Hi Hj. cbv beta. rewrite !src_id by assumption.
  now rewrite (image_ent r c f a), (image_ent r c g b).
Qed.
Lemma assign2_image r c f g a b : image r c f a -> image r c g b -> assign2 A a b = Ok (tab A r c g).
Proof. intros Ia Ib. unfold assign2. exact (inplace2_image _ r c f g a b Ia Ib). Qed.
Lemma each_image h r c f a : image r c f a -> image r c (fun i j => h (f i j)) (each A h a).
Proof.
  intros (R & C & L & E). split; [unfold a_r, each; cbn [a_rows]; now rewrite map_length|]. split; [exact C|]. split.
  - intros x Hx. unfold each in Hx. cbn [a_rows] in Hx. apply in_map_iff in Hx as (y & <- & Hy). rewrite map_length. now apply L.
  - intros i j Hi Hj. unfold each. cbn [a_rows]. unfold a_r in R.
    rewrite (nth_indep _ [] (map h [])) by (rewrite map_length; lia). rewrite (map_nth (map h)).
    assert (Li : length (nth i (a_rows a) []) = c) by (apply L, nth_In; lia).
    rewrite (nth_indep _ 0 (h 0)) by (rewrite map_length; lia). rewrite (map_nth h). f_equal. now apply E.
Qed.
Lemma total_image r c f a : image r c f a -> total A a = sumn r (fun i => sumn c (fun j => f i j)).
Proof.
  intros (R & C & L & E). unfold total. rewrite fold_left_sumn, map_length. unfold a_r in R. rewrite R. apply sumn_ext. intros i Hi.
  rewrite (nth_indep _ 0 (vsum [])) by (rewrite map_length; lia). rewrite (map_nth vsum).
  rewrite fold_left_sumn, L by (apply nth_In; lia). apply sumn_ext. intros j Hj. now apply E.
Qed.

(* a[x:x+n, y:y+m] inside the array *)
Lemma take_slice2 {X} (l : list X) (x n : nat) : (x + n <= length l)%nat -> take_slice l (slice2 (Z.of_nat x) (Z.of_nat x + Z.of_nat n)) = Ok (firstn n (skipn x l)).
Proof.
  intros H. unfold slice2. rewrite take_segment.
  - cbn [obound]. f_equal. rewrite Nat2Z.id. f_equal. lia.
  - intros v E. injection E as <-. lia.
  - intros v E. injection E as <-. lia.
Qed.
Lemma sub2_image R C f a x n y m : image R C f a -> (x + n <= R)%nat -> (y + m <= C)%nat ->
  sub2 A a (Z.of_nat x) (Z.of_nat x + Z.of_nat n) (Z.of_nat y) (Z.of_nat y + Z.of_nat m) = Ok (tab A n m (fun i j => f (x + i)%nat (y + j)%nat)).
Proof.
  intros I Hx Hy. pose proof I as (Ir & Ic & L & E). unfold sub2, sel_rows. unfold a_r in Ir.
  rewrite take_slice2 by (rewrite Ir; exact Hx). cbn [bind]. unfold sel_cols. cbn [a_c a_rows]. rewrite Ic.
  rewrite take_slice2 by (rewrite seq_length; exact Hy). cbn [bind].
  rewrite (map_res_pure _ (fun r => firstn m (skipn y r))).
  2:{ intros r Hr. apply take_slice2. rewrite L; [lia|]. apply In_nth with (d := []) in Hr as (k & Hk & <-).
      rewrite firstn_length, skipn_length in Hk. rewrite nth_firstn by lia. rewrite nth_skipn. apply nth_In. lia. }
  cbn [bind]. f_equal. apply (image_eq n m (fun i j => f (x + i)%nat (y + j)%nat)); [|apply tab_image].
  assert (Ln : length (firstn n (skipn x (a_rows a))) = n) by (rewrite firstn_length, skipn_length; lia).
  split; [unfold a_r; cbn [a_rows]; now rewrite map_length|]. split; [cbn [a_c]; rewrite firstn_length, skipn_length, seq_length; lia|]. cbn [a_rows]. split.
  - intros r Hr. apply in_map_iff in Hr as (q & <- & Hq). apply In_nth with (d := []) in Hq as (k & Hk & <-). rewrite Ln in Hk.
    rewrite nth_firstn by lia. rewrite nth_skipn. rewrite firstn_length, skipn_length, L by (apply nth_In; lia). lia.
  - intros i j Hi Hj. rewrite (nth_indep _ [] ((fun r => firstn m (skipn y r)) [])) by (rewrite map_length, Ln; exact Hi).
    rewrite (map_nth (fun r => firstn m (skipn y r))). rewrite nth_firstn by exact Hj. rewrite nth_skipn. rewrite nth_firstn by exact Hi. rewrite nth_skipn.
    apply E; lia.
Qed.
End P.
