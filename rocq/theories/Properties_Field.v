(* C79: electric fields as data objects. *)
From Coq Require Import List ZArith Bool Arith Lia Field Field_theory Permutation QArith Qcanon.
From Verif Require Import PyBase PyLemmas Arith ArithLemmas FilterSpec SumLemmas NpModel NpSpec NpProofs NpSegments FitsModel FitsSpec RebinModel RebinSpec RebinProofs CutModel CutSpec CutProofs VecModel
  OpticalModel ExtModel QcTac FieldModel FieldSpec FieldProofs Properties_Filter.
Import ListNotations.
Local Open Scope nat_scope.
Local Open Scope ar_scope.

Section G.
Context {A : arith} (HF : is_field A).
Let HF' : field_theory 0 1 add mul sub opp dvd inv (@eq A) := HF.
Add Field fA15 : HF'.

Lemma sized_of r c amp ph (e : efield A) : field r c amp ph e -> sized e r c.
Proof. intros [Ha Hp]. split; eapply image_own; eassumption. Qed.
Lemma sized_rows (e : efield A) r c : sized e r c -> ef_rows A e = r. Proof. intros [H _]. exact (image_r _ _ _ _ H). Qed.
Lemma sized_cols (e : efield A) r c : sized e r c -> ef_cols A e = c. Proof. intros [H _]. exact (image_c _ _ _ _ H). Qed.

(* Reset: amplitude one, phase zero; pitch and flux density are kept. *)
Theorem C79_reset (e : efield A) r c : sized e r c ->
  field r c (fun _ _ => 1) (fun _ _ => 0) (ef_reset A e) /\ ef_pitch A (ef_reset A e) = ef_pitch A e /\ ef_S0 A (ef_reset A e) = ef_S0 A e.
Proof.
  intros [Ha Hp]. split; [|split; reflexivity]. split; cbn [ef_reset ef_A ef_ph].
  - eapply image_ext; [apply each_image; exact Ha|]. intros i j _ _. cbv beta. ring.
  - eapply image_ext; [apply each_image; exact Hp|]. intros i j _ _. cbv beta. ring.
Qed.
(* Resizing gives a reset field with as many columns as dimx and rows as dimy. *)
Theorem C79_resize (e : efield A) c r pitch : exists e', ef_resize A e (Z.of_nat c) (Z.of_nat r) pitch = Ok e' /\
  field r c (fun _ _ => 1) (fun _ _ => 0) e' /\ ef_pitch A e' = match pitch with Some p => p | None => ef_pitch A e end /\ ef_S0 A e' = ef_S0 A e.
Proof.
  unfold ef_resize. replace (Z.of_nat c <? 0)%Z with false by (symmetry; apply Z.ltb_ge; lia). replace (Z.of_nat r <? 0)%Z with false by (symmetry; apply Z.ltb_ge; lia).
  cbn [orb]. rewrite !Nat2Z.id. eexists. split; [reflexivity|].
  match goal with |- field _ _ _ _ (ef_reset A ?x) /\ _ => destruct (C79_reset x r c) as (F & _); [|split; [exact F|split; reflexivity]] end.
  split; cbn [ef_A ef_ph]; eapply image_own; apply tab_image.
Qed.

(* The product with a field at a position inside it: amplitudes multiply and phases add. *)
Lemma product_ok (e e2 : efield A) r c R C (x y : nat) amp ph amp2 ph2 : field r c amp ph e -> field R C amp2 ph2 e2 -> x + r <= R -> y + c <= C ->
  ef_product A e e2 (Some (Z.of_nat x, Z.of_nat y)) =
  Ok (mkEF A (tab A r c (fun i j => amp i j * amp2 (x + i)%nat (y + j)%nat)) (tab A r c (fun i j => ph i j + ph2 (x + i)%nat (y + j)%nat)) (ef_pitch A e) (ef_S0 A e)).
Proof.
  intros [Ha Hp] [Ha2 Hp2] Hx Hy. unfold ef_product, ef_rows, ef_cols. rewrite (image_r _ _ _ _ Ha), (image_c _ _ _ _ Ha).
  rewrite (sub2_image R C amp2) by (assumption || lia). cbn [bind]. rewrite (inplace2_image mul r c amp _ _ _ Ha (tab_image r c _)). cbn [bind].
  rewrite (sub2_image R C ph2) by (assumption || lia). cbn [bind]. now rewrite (inplace2_image add r c ph _ _ _ Hp (tab_image r c _)).
Qed.
Theorem C79_product (e e2 : efield A) r c R C (x y : nat) : sized e r c -> sized e2 R C -> x + r <= R -> y + c <= C ->
  exists e', ef_product A e e2 (Some (Z.of_nat x, Z.of_nat y)) = Ok e' /\ ef_pitch A e' = ef_pitch A e /\ ef_S0 A e' = ef_S0 A e /\
    field r c (fun i j => amp_at e i j * amp_at e2 (x + i)%nat (y + j)%nat) (fun i j => ph_at e i j + ph_at e2 (x + i)%nat (y + j)%nat) e'.
Proof.
  intros S S2 Hx Hy. eexists. split; [exact (product_ok e e2 r c R C x y _ _ _ _ S S2 Hx Hy)|]. cbn [ef_pitch ef_S0]. split; [reflexivity|]. split; [reflexivity|].
  split; cbn [ef_A ef_ph]; apply tab_image.
Qed.

(* Several products: the order does not matter. *)
Definition inside_of r c (x : efield A * (nat * nat)) : Prop := exists R C, sized (fst x) R C /\ fst (snd x) + r <= R /\ snd (snd x) + c <= C.
Definition products (e : efield A) (l : list (efield A * (nat * nat))) : res (efield A) :=
  fold_res (fun e x => ef_product A e (fst x) (Some (Z.of_nat (fst (snd x)), Z.of_nat (snd (snd x))))) e l.
Lemma products_ok l : forall (e : efield A) r c amp ph, field r c amp ph e -> (forall x, In x l -> inside_of r c x) ->
  exists e', products e l = Ok e' /\ ef_pitch A e' = ef_pitch A e /\ ef_S0 A e' = ef_S0 A e /\
    field r c (fun i j => amp i j * prod_over (fun x => amp_at (fst x) (fst (snd x) + i)%nat (snd (snd x) + j)%nat) l)
              (fun i j => ph i j + sum_over (fun x => ph_at (fst x) (fst (snd x) + i)%nat (snd (snd x) + j)%nat) l) e'.
Proof.
  induction l as [|x l IH]; intros e r c amp ph F H.
  - exists e. split; [reflexivity|]. split; [reflexivity|]. split; [reflexivity|]. destruct F as [Fa Fp].
    split; (eapply image_ext; [eassumption|]); intros i j _ _; cbn; ring.
  - destruct (H x (or_introl eq_refl)) as (R & C & S2 & Hx & Hy). unfold products. cbn [fold_res].
    rewrite (product_ok e (fst x) r c R C _ _ amp ph _ _ F S2 Hx Hy). cbn [bind].
    match goal with |- exists e', fold_res _ ?e1 l = Ok e' /\ _ =>
      destruct (IH e1 r c _ _ (conj (tab_image r c _) (tab_image r c _)) (fun y Hy => H y (or_intror Hy))) as (e' & E & P & S & Fa & Fp) end.
    exists e'. split; [exact E|]. split; [exact P|]. split; [exact S|]. split; (eapply image_ext; [eassumption|]); intros i j _ _; cbn [sum_over prod_over]; ring.
Qed.
Lemma prod_over_perm {X} (f : X -> A) l l' : Permutation l l' -> prod_over f l = prod_over f l'.
Proof. induction 1; cbn [prod_over]; try congruence. ring. Qed.
Lemma sum_over_perm {X} (f : X -> A) l l' : Permutation l l' -> sum_over f l = sum_over f l'.
Proof. induction 1; cbn [sum_over]; try congruence. ring. Qed.
Theorem C79_products (e : efield A) r c l : sized e r c -> (forall x, In x l -> inside_of r c x) ->
  exists e', products e l = Ok e' /\ ef_pitch A e' = ef_pitch A e /\ ef_S0 A e' = ef_S0 A e /\
    field r c (fun i j => amp_at e i j * prod_over (fun x => amp_at (fst x) (fst (snd x) + i)%nat (snd (snd x) + j)%nat) l)
              (fun i j => ph_at e i j + sum_over (fun x => ph_at (fst x) (fst (snd x) + i)%nat (snd (snd x) + j)%nat) l) e'.
Proof. intros S H. exact (products_ok l e r c _ _ S H). Qed.
Theorem C79_products_order (e : efield A) r c l l' : sized e r c -> (forall x, In x l -> inside_of r c x) -> Permutation l l' ->
  exists e', products e l = Ok e' /\ products e l' = Ok e'.
Proof.
  intros S H P. destruct (C79_products e r c l S H) as (e1 & E1 & P1 & S1 & A1 & F1).
  destruct (C79_products e r c l' S) as (e2 & E2 & P2 & S2 & A2 & F2).
  { intros x Hx. apply H. now apply (Permutation_in _ (Permutation_sym P)). }
  exists e1. split; [exact E1|]. rewrite E2. f_equal. destruct e1 as [a1 f1 p1 s1], e2 as [a2 f2 p2 s2]. cbn [ef_A ef_ph ef_pitch ef_S0] in *. f_equal; try congruence.
  - eapply image_eq; [exact A2|]. eapply image_ext; [exact A1|]. intros i j _ _. cbv beta. f_equal. now apply prod_over_perm.
  - eapply image_eq; [exact F2|]. eapply image_ext; [exact F1|]. intros i j _ _. cbv beta. f_equal. now apply sum_over_perm.
Qed.

(* A square part of a field *)
Theorem C79_sub_square (e : efield A) R C (x y n : nat) : sized e R C -> x + n <= R -> y + n <= C ->
  exists e', ef_sub A e (Z.of_nat x) (Z.of_nat x + Z.of_nat n) (Z.of_nat y) (Z.of_nat y + Z.of_nat n) = Ok e' /\
    ef_pitch A e' = ef_pitch A e /\ ef_S0 A e' = ef_S0 A e /\ field n n (fun i j => amp_at e (x + i)%nat (y + j)%nat) (fun i j => ph_at e (x + i)%nat (y + j)%nat) e'.
Proof.
  intros [Ha Hp] Hx Hy. unfold ef_sub, new_ef. replace (Z.of_nat x + Z.of_nat n - Z.of_nat x)%Z with (Z.of_nat n) by lia. replace (Z.of_nat y + Z.of_nat n - Z.of_nat y)%Z with (Z.of_nat n) by lia.
  replace (Z.of_nat n <? 0)%Z with false by (symmetry; apply Z.ltb_ge; lia). cbn [orb bind]. rewrite Nat2Z.id.
  rewrite (sub2_image R C (amp_at e)) by (assumption || lia). cbn [bind ef_A]. rewrite (assign2_image n n _ _ _ _ (tab_image n n _) (tab_image n n _)). cbn [bind].
  rewrite (sub2_image R C (ph_at e)) by (assumption || lia). cbn [bind ef_ph]. rewrite (assign2_image n n _ _ _ _ (tab_image n n _) (tab_image n n _)). cbn [bind].
  eexists. split; [reflexivity|]. split; [reflexivity|]. split; [reflexivity|]. split; apply tab_image.
Qed.
(* A part that is not square is never given. *)
Theorem C79_sub_rectangle (e : efield A) R C (x n y m : nat) : sized e R C -> x + n <= R -> y + m <= C -> n <> m ->
  ef_sub A e (Z.of_nat x) (Z.of_nat x + Z.of_nat n) (Z.of_nat y) (Z.of_nat y + Z.of_nat m) = Err ValueError.
Proof.
  intros [Ha Hp] Hx Hy N. unfold ef_sub, new_ef. replace (Z.of_nat x + Z.of_nat n - Z.of_nat x)%Z with (Z.of_nat n) by lia. replace (Z.of_nat y + Z.of_nat m - Z.of_nat y)%Z with (Z.of_nat m) by lia.
  replace (Z.of_nat n <? 0)%Z with false by (symmetry; apply Z.ltb_ge; lia). replace (Z.of_nat m <? 0)%Z with false by (symmetry; apply Z.ltb_ge; lia). cbn [orb bind]. rewrite !Nat2Z.id.
  rewrite (sub2_image R C (amp_at e)) by (assumption || lia). cbn [bind ef_A]. unfold assign2, inplace2. rewrite !tab_r. cbn [tab a_c]. unfold fits1.
  replace ((Nat.eqb n m || Nat.eqb n 1) && (Nat.eqb m n || Nat.eqb m 1)) with false; [reflexivity|]. symmetry.
  destruct (Nat.eqb_spec n m), (Nat.eqb_spec n 1), (Nat.eqb_spec m n), (Nat.eqb_spec m 1); cbn; (reflexivity || lia).
Qed.

Context (ofn : nat -> A) (HC : counts ofn).
Lemma ofn_sum n : ofn n = sumn n (fun _ => 1). Proof. apply (proj1 HC). Qed.
(* The masked area of a field of amplitude one or zero is that of its pixels with light. *)
Theorem C79_area (e : efield A) r c : sized e r c ->
  ef_masked_area A e = (ef_pitch A e * ef_pitch A e) * flux r c (amp_at e) /\
  ((forall i j, i < r -> j < c -> amp_at e i j = 1) -> ef_masked_area A e = ef_area A ofn e).
Proof.
  intros [Ha Hp]. unfold ef_masked_area, ef_area, ef_rows, ef_cols. rewrite (total_image r c (amp_at e)) by exact Ha. split; [reflexivity|].
  intros H1. rewrite (image_r _ _ _ _ Ha), (image_c _ _ _ _ Ha). rewrite (ofn_mul HF ofn HC).
  replace (sumn r (fun i => sumn c (fun j => amp_at e i j))) with (ofn r * ofn c); [ring|].
  rewrite <- (sumn_const HF ofn HC). apply sumn_ext. intros i Hi. rewrite ofn_sum. apply sumn_ext. intros j Hj. symmetry. now apply H1.
Qed.

(* The array for display: the phase minus its mean, if there is light everywhere. *)
Variable lit : A -> bool.
Lemma filter_all {X} (p : X -> bool) l : (forall x, In x l -> p x = true) -> filter p l = l.
Proof. induction l as [|x l IH]; intros H; [reflexivity|]. cbn. rewrite (H x (or_introl eq_refl)). f_equal. apply IH. intros y Hy. apply H. now right. Qed.
Lemma vsum_app (u v : vec A) : vsum (u ++ v) = vsum u + vsum v.
Proof.
  rewrite !fold_left_sumn, app_length. rewrite (sumn_app A HF). f_equal; apply sumn_ext; intros i Hi; [now rewrite app_nth1|].
  rewrite app_nth2 by lia. f_equal. lia.
Qed.
Lemma vsum_flat {X} (f : X -> vec A) l : vsum (flat_map f l) = sum_over (fun x => vsum (f x)) l.
Proof. induction l as [|x l IH]; [reflexivity|]. cbn [flat_map sum_over]. now rewrite vsum_app, IH. Qed.
Lemma sum_over_app {X} (f : X -> A) u v : sum_over f (u ++ v) = sum_over f u + sum_over f v.
Proof. induction u as [|x u IH]; cbn [app sum_over]; [ring|]. rewrite IH. ring. Qed.
Lemma sum_over_flat {X Y} (f : Y -> A) (g : X -> list Y) l : sum_over f (flat_map g l) = sum_over (fun x => sum_over f (g x)) l.
Proof. induction l as [|x l IH]; [reflexivity|]. cbn [flat_map sum_over]. now rewrite sum_over_app, IH. Qed.
Lemma sum_over_seq (f : nat -> A) n : sum_over f (seq 0 n) = sumn n f.
Proof.
  enough (H : forall n a, sum_over f (seq a n) = sumn n (fun i => f (a + i)%nat)) by exact (H n 0%nat). clear n.
  intros n. induction n as [|n IH]; intros a; [reflexivity|]. cbn [seq sum_over]. rewrite IH. change (S n) with (1 + n)%nat. rewrite (sumn_app A HF). cbn [sumn].
  rewrite Nat.add_0_r. replace (0 + f a) with (f a) by ring. f_equal. apply sumn_ext. intros i _. f_equal. lia.
Qed.
Lemma sum_over_const {X} (x : A) (l : list X) : sum_over (fun _ => x) l = ofn (length l) * x.
Proof. induction l as [|y l IH]; cbn [sum_over length]; rewrite ofn_sum; [cbn; ring|]. rewrite IH, ofn_sum. cbn [sumn]. ring. Qed.
Theorem C79_display (e : efield A) r c : sized e r c -> 0 < r -> 0 < c -> (forall i j, i < r -> j < c -> lit (amp_at e i j) = true) ->
  image r c (fun i j => ph_at e i j - flux r c (ph_at e) / ofn (r * c)%nat) (ef_display A ofn lit e).
Proof.
  intros [Ha Hp] Hr Hc L. unfold ef_display, ef_rows, ef_cols. rewrite (image_r _ _ _ _ Ha), (image_c _ _ _ _ Ha).
  set (fr := tab A r c (fun i j => if lit _ then _ else _)). assert (If : image r c (ph_at e) fr).
  { eapply image_ext; [apply tab_image|]. intros i j Hi Hj. cbv beta. rewrite (image_ent r c (amp_at e) _ i j Ha Hi Hj), (L i j Hi Hj).
    rewrite (image_ent r c (ph_at e) _ i j Hp Hi Hj). ring. }
  assert (Ix : lit_rows A lit (ef_A A e) = flat_map (fun i => repeat i c) (seq 0 r)).
  { unfold lit_rows. rewrite (image_r _ _ _ _ Ha). rewrite !flat_map_concat_map. f_equal. apply map_ext_in. intros i Hi. apply in_seq in Hi.
    assert (Li : length (nth i (a_rows (ef_A A e)) []) = c). { destruct Ha as (R & _ & Lx & _). apply Lx, nth_In. unfold a_r in R. lia. }
    rewrite filter_all.
    - rewrite <- Li. generalize (nth i (a_rows (ef_A A e)) []). intros w. induction w as [|q w IHw]; [reflexivity|]. cbn. now f_equal.
    - intros x Hx. apply In_nth with (d := 0) in Hx as (j & Hj & <-). rewrite Li in Hj. apply (L i j); [lia|exact Hj]. }
  rewrite Ix. eapply image_ext; [apply tab_image|]. intros i j Hi Hj. cbv beta.
  assert (Ex : existsb (Nat.eqb i) (flat_map (fun i0 => repeat i0 c) (seq 0 r)) = true).
  { apply existsb_exists. exists i. split; [|apply Nat.eqb_refl]. apply in_flat_map. exists i. split; [apply in_seq; lia|]. destruct c; [lia|]. left. reflexivity. }
  rewrite Ex, (image_ent r c (ph_at e) fr i j If Hi Hj). f_equal. unfold mean. rewrite vsum_flat.
  assert (Rs : forall k, k < r -> vsum (nth k (a_rows fr) []) = sumn c (ph_at e k)).
  { intros k Hk. destruct If as (R & _ & Lx & E). unfold a_r in R. rewrite fold_left_sumn, Lx by (apply nth_In; lia). apply sumn_ext. intros q Hq. now apply E. }
  assert (Ls : length (flat_map (fun i0 => nth i0 (a_rows fr) []) (flat_map (fun i0 => repeat i0 c) (seq 0 r))) = (r * c * c)%nat).
  { destruct If as (R & _ & Lx & _). unfold a_r in R.
    assert (Q : forall l, (forall k, In k l -> k < r) -> length (flat_map (fun i0 => nth i0 (a_rows fr) []) (flat_map (fun i0 => repeat i0 c) l)) = (length l * c * c)%nat).
    { induction l as [|k l IH]; intros Hl; [reflexivity|]. cbn [flat_map length]. rewrite flat_map_app, app_length, IH by (intros; apply Hl; now right).
      assert (Hk : k < r) by (apply Hl; now left).
      assert (Rk : forall m, length (flat_map (fun i0 => nth i0 (a_rows fr) []) (repeat k m)) = (m * c)%nat).
      { induction m as [|m IHm]; [reflexivity|]. cbn [repeat flat_map]. rewrite app_length, IHm, Lx by (apply nth_In; lia). lia. }
      rewrite Rk. lia. }
    rewrite Q by (intros k Hk; apply in_seq in Hk; lia). now rewrite seq_length. }
  rewrite Ls, sum_over_flat, sum_over_seq.
  replace (sumn r (fun x => sum_over (fun x0 => vsum (nth x0 (a_rows fr) [])) (repeat x c))) with (flux r c (ph_at e) * ofn c).
  2:{ unfold flux. rewrite <- (sumn_scale_r A HF). apply sumn_ext. intros k Hk. rewrite <- Rs by exact Hk. set (w := vsum _).
      assert (Q : forall m, sum_over (fun x0 => vsum (nth x0 (a_rows fr) [])) (repeat k m) = ofn m * w).
      { induction m as [|m IHm]; cbn [repeat sum_over]; rewrite ofn_sum; [cbn; ring|]. rewrite IHm, ofn_sum. cbn [sumn]. fold w. ring. }
      rewrite Q. ring. }
  rewrite (ofn_mul HF ofn HC (r * c)%nat c). rewrite (ofn_mul HF ofn HC r c). field. repeat split; apply (proj2 HC); assumption.
Qed.
End G.

Definition img (l : list (list Z)) : arr2 qc := mkA2 (length (hd [] l)) (map (map qi) l).
Definition see2 (a : arr2 qc) : list (list Q) := map (map this) (a_rows a).
Definition see_ef (r : res (efield qc)) : res (list (list Q) * list (list Q) * Q * Q) :=
  e <- r ;; Ok (see2 (ef_A qc e), see2 (ef_ph qc e), this (ef_pitch qc e), this (ef_S0 qc e)).
Definition qn' (n : nat) : qc := Q2Qc (inject_Z (Z.of_nat n)).
Definition qlit (x : qc) : bool := qlt 0%Qc x.
Definition big : efield qc := mkEF qc (img [[1; 1; 0]; [1; 0; 1]; [0; 1; 1]]%Z) (img [[1; 2; 3]; [4; 5; 6]; [7; 8; 9]]%Z) (qf 1 2) (qi 5).
Definition small : efield qc := mkEF qc (img [[1; 1]; [1; 2]]%Z) (img [[10; 20]; [30; 40]]%Z) (qi 2) (qi 7).
Definition wide : efield qc := mkEF qc (img [[1; 1; 1]; [1; 1; 1]]%Z) (img [[1; 2; 3]; [4; 5; 9]]%Z) (qi 1) (qi 0).
Example C79_example :
  see_ef (ef_product qc small big (Some (1, 1)%Z)) = Ok ([[0; 1]; [1; 2]]%Q, [[15; 26]; [38; 49]]%Q, 2%Q, 7%Q) /\
  see_ef (ef_sub qc big 0 2 1 3) = Ok ([[1; 0]; [0; 1]]%Q, [[2; 3]; [5; 6]]%Q, (1 # 2)%Q, 5%Q) /\
  ef_sub qc big 0 2 0 3 = Err ValueError /\
  see_ef (ef_resize qc small 3 2 None) = Ok ([[1; 1; 1]; [1; 1; 1]]%Q, [[0; 0; 0]; [0; 0; 0]]%Q, 2%Q, 7%Q) /\
  this (ef_masked_area qc big) = (3 # 2)%Q /\ this (ef_area qc qn' big) = (9 # 4)%Q /\
  see2 (ef_display qc qn' qlit wide) = [[-3; -2; -1]; [0; 1; 5]]%Q.
Proof. vm_compute. repeat split. Qed.

(* Claim: reset gives amplitude one and phase zero whatever the field contains.  A value that
   is not a number stays. *)
Theorem C79_reset_refuted : exists (e : efield extar), sized e 1 1 /\ ef_ph extar (ef_reset extar e) = mkA2 (X:=extar) 1 [[NaN]] /\ ef_A extar (ef_reset extar e) = mkA2 (X:=extar) 1 [[NaN]].
Proof.
  exists (mkEF extar (mkA2 (X:=extar) 1 [[NaN]]) (mkA2 (X:=extar) 1 [[NaN]]) (Fin 1%Qc) (Fin 1%Qc)). split; [|split; reflexivity].
  split; (split; [reflexivity|]; split; [reflexivity|]; split; [intros x [<-|[]]; reflexivity|reflexivity]).
Qed.
(* Claim: the default of the argument subrect of product means all of the other field. *)
Theorem C79_product_default_refuted : exists (e e2 : efield qc), ef_rows qc e = ef_rows qc e2 /\ ef_cols qc e = ef_cols qc e2 /\ ef_product qc e e2 None = Err TypeError.
Proof. now exists big, big. Qed.
(* Claim: the product with a smaller field is rejected.  With the position that the propagation
   uses for a layer one or two pixels smaller, the corner pixel of the layer is applied
   everywhere. *)
Theorem C79_small_refuted : exists e l : efield qc, ef_rows qc l < ef_rows qc e /\ ef_cols qc l < ef_cols qc e /\
  see_ef (ef_product qc e l (Some (-1, -1)%Z)) = Ok ([[2; 2; 0]; [2; 0; 2]; [0; 2; 2]]%Q, [[41; 42; 43]; [44; 45; 46]; [47; 48; 49]]%Q, (1 # 2)%Q, 5%Q).
Proof. exists big, small. split; [cbv; lia|]. split; [cbv; lia|]. vm_compute. reflexivity. Qed.
(* Claim: a part given as a list of pixels contains those pixels.  The last row and column are
   lost. *)
Theorem C79_sub_idx_refuted : exists e : efield qc, ef_rows qc e = 3 /\ ef_cols qc e = 3 /\ see_ef (ef_sub_idx qc e [0; 1; 2; 3; 4; 5; 6; 7; 8]%Z) = Ok ([[1; 1]; [1; 0]]%Q, [[1; 2]; [4; 5]]%Q, (1 # 2)%Q, 5%Q).
Proof. exists big. repeat split; vm_compute; reflexivity. Qed.
(* Claim: the array for display is the phase of the pixels with light minus their mean, and
   zero elsewhere.  Here the pixels with light have phases 1 and 3. *)
Theorem C79_display_refuted : exists e : efield qc, see2 (ef_A qc e) = [[1; 0]; [1; 0]]%Q /\ see2 (ef_ph qc e) = [[1; 2]; [3; 4]]%Q /\
  see2 (ef_display qc qn' qlit e) = [[0; -1]; [2; -1]]%Q.
Proof. exists (mkEF qc (img [[1; 0]; [1; 0]]%Z) (img [[1; 2]; [3; 4]]%Z) (qi 1) (qi 0)). vm_compute. repeat split. Qed.

Print Assumptions C79_reset.
Print Assumptions C79_resize.
Print Assumptions C79_product.
Print Assumptions C79_products.
Print Assumptions C79_products_order.
Print Assumptions C79_sub_square.
Print Assumptions C79_sub_rectangle.
Print Assumptions C79_area.
Print Assumptions C79_display.
Print Assumptions C79_reset_refuted.
Print Assumptions C79_product_default_refuted.
Print Assumptions C79_small_refuted.
Print Assumptions C79_sub_idx_refuted.
Print Assumptions C79_display_refuted.
