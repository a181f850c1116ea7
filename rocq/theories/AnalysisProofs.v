From Coq Require Import List ZArith Bool Arith Lia QArith Qcanon Sorted.
From Verif Require Import PyBase PyLemmas Arith ArithLemmas FilterSpec SumLemmas NpModel NpSpec NpProofs NpSegments FitsModel RebinModel RebinProofs CutModel CutSpec CutProofs VecModel VecProofs DmModel DmSpec DmProofs FieldModel FieldSpec FieldProofs QcTac AnalysisModel AnalysisSpec.
Import ListNotations.
Local Open Scope ar_scope.

Section G.
Context {A : arith}.
Variable nz : A -> bool.

Lemma in_places (mask : arr2 A) i j : In (i, j) (places A nz mask) <-> (i < a_r mask)%nat /\ (j < a_c mask)%nat /\ nz (ent A mask i j) = true.
Proof.
  unfold places. rewrite in_flat_map. split.
  - intros (k & Hk & H). apply in_map_iff in H as (l & E & H). injection E as <- <-. apply filter_In in H as [H1 H2]. apply in_seq in Hk, H1. repeat split; auto; lia.
  - intros (Hi & Hj & H). exists i. split; [apply in_seq; lia|]. apply in_map_iff. exists j. split; [reflexivity|]. apply filter_In. split; [apply in_seq; lia|exact H].
Qed.

Lemma sorted_app (l1 l2 : list (nat * nat)) : StronglySorted before l1 -> StronglySorted before l2 -> (forall p q, In p l1 -> In q l2 -> before p q) -> StronglySorted before (l1 ++ l2).
Proof.
  induction 1 as [|x l1 S IH F]; intros S2 H; [exact S2|]. cbn. constructor; [apply IH; auto; intros p q Hp Hq; apply H; [now right|exact Hq]|].
  apply Forall_app. split; [exact F|]. apply Forall_forall. intros q Hq. apply H; [now left|exact Hq].
Qed.
Lemma sorted_nth (l : list (nat * nat)) : StronglySorted before l -> forall a b d, (a < b)%nat -> (b < length l)%nat -> before (nth a l d) (nth b l d).
Proof.
  induction 1 as [|x l S IH F]; intros a b d Hab Hb; [cbn in Hb; lia|]. destruct b as [|b]; [lia|]. cbn in Hb. destruct a as [|a]; cbn [nth].
  - rewrite Forall_forall in F. apply F. apply nth_In. lia.
  - apply IH; lia.
Qed.
Lemma places_sorted (mask : arr2 A) : StronglySorted before (places A nz mask).
Proof.
  unfold places. generalize (a_r mask) as n. assert (G : forall n s, StronglySorted before (flat_map (fun i => map (fun j => (i, j)) (filter (fun j => nz (ent A mask i j)) (seq 0 (a_c mask)))) (seq s n))).
  { induction n as [|n IH]; intros s; [constructor|]. cbn [seq flat_map]. apply sorted_app; [|apply IH|].
    - generalize 0%nat (a_c mask). intros b m. revert b. induction m as [|m IHm]; intros b; [constructor|]. cbn [seq filter]. destruct (nz _); [|apply IHm]. cbn [map]. constructor; [apply IHm|].
      apply Forall_forall. intros q Hq. apply in_map_iff in Hq as (j & <- & Hj). apply filter_In in Hj as [Hj _]. apply in_seq in Hj. right. cbn. lia.
    - intros p q Hp Hq. apply in_map_iff in Hp as (j & <- & _). apply in_flat_map in Hq as (i & Hi & Hq). apply in_map_iff in Hq as (j' & <- & _). apply in_seq in Hi. left. cbn. lia. }
  intros n. apply G.
Qed.
Lemma places_spec (mask : arr2 A) r c : a_r mask = r -> a_c mask = c -> pixels_of (fun i j => nz (ent A mask i j)) r c (places A nz mask).
Proof. intros <- <-. split; [apply in_places|]. apply sorted_nth. apply places_sorted. Qed.
Lemma places_nodup (mask : arr2 A) : NoDup (places A nz mask).
Proof.
  pose proof (places_sorted mask) as S. induction S as [|x l S IH F]; [constructor|]. constructor; [|exact IH]. intros H. rewrite Forall_forall in F. specialize (F x H). destruct F as [F|[_ F]]; lia.
Qed.

Lemma at_places_ok (a : arr2 A) ps : (forall p, In p ps -> (fst p < a_r a)%nat /\ (snd p < a_c a)%nat) -> at_places A a ps = Ok (map (fun p => ent A a (fst p) (snd p)) ps).
Proof.
  intros H. unfold at_places. apply map_res_pure. intros p Hp. destruct (H p Hp) as [H1 H2]. apply Nat.ltb_lt in H1, H2. now rewrite H1, H2.
Qed.
Lemma value_at_nth ps : forall (v : vec A) d k q, NoDup ps -> length v = length ps -> (k < length ps)%nat -> value_at A (List.combine ps v) d (fst (nth k ps q)) (snd (nth k ps q)) = nth k v 0.
Proof.
  induction ps as [|p ps IH]; intros v d k q N L Hk; [cbn in Hk; lia|]. destruct v as [|x v]; [discriminate L|]. cbn [List.combine value_at]. inversion N as [|? ? N1 N2]; subst. destruct k as [|k]; cbn [nth].
  - now rewrite !Nat.eqb_refl.
  - cbn in Hk, L. destruct (Nat.eqb_spec (fst p) (fst (nth k ps q))) as [E1|E1]; [|apply IH; auto; lia]. destruct (Nat.eqb_spec (snd p) (snd (nth k ps q))) as [E2|E2]; [|apply IH; auto; lia].
    exfalso. apply N1. assert (p = nth k ps q) as -> by (destruct p, (nth k ps q); cbn in *; congruence). apply nth_In. lia.
Qed.
Lemma put_get (a : arr2 A) ps (v : vec A) : NoDup ps -> (forall p, In p ps -> (fst p < a_r a)%nat /\ (snd p < a_c a)%nat) -> length v = length ps ->
  exists b, put_places A a ps v = Ok b /\ a_r b = a_r a /\ a_c b = a_c a /\ at_places A b ps = Ok v.
Proof.
  intros N H L. unfold put_places. assert (B : forallb (fun p => (fst p <? a_r a)%nat && (snd p <? a_c a)%nat) ps = true).
  { apply forallb_forall. intros p Hp. destruct (H p Hp) as [H1 H2]. apply Nat.ltb_lt in H1, H2. now rewrite H1, H2. }
  rewrite B, L, Nat.eqb_refl. eexists. split; [reflexivity|]. match goal with |- a_r ?t = _ /\ _ => set (b := t) end.
  assert (I := tab_image (A:=A) (a_r a) (a_c a) (fun i j => value_at A (List.combine ps v) (ent A a i j) i j)). fold b in I. pose proof I as (Ir & Ic & _). split; [exact Ir|]. split; [exact Ic|].
  rewrite at_places_ok by (intros p Hp; rewrite Ir, Ic; now apply H). f_equal. apply nth_ext with (d := 0) (d' := 0); [rewrite map_length; lia|]. intros k Hk. rewrite map_length in Hk.
  rewrite nth_indep with (d' := (fun p => ent A b (fst p) (snd p)) (0%nat, 0%nat)) by (rewrite map_length; exact Hk). rewrite (map_nth (fun p => ent A b (fst p) (snd p))).
  destruct (H _ (nth_In ps (0%nat, 0%nat) Hk)) as [H1 H2]. rewrite (image_ent (A:=A) _ _ _ _ _ _ I H1 H2). apply value_at_nth; auto.
Qed.

Hypothesis HF : is_field A.
Lemma modes_ok K n P (w : arr2 A) ph : image K n P w -> length ph = K ->
  vecmat (a_c w) ph (a_rows w) = Ok (map (coefficient K (fun k => nth k ph 0) P) (seq 0 n)).
Proof.
  intros (Ir & Ic & L & E) Hl. rewrite vecmat_ok by (unfold a_r in Ir; congruence). rewrite Ic. f_equal. apply map_ext_in. intros j Hj. apply in_seq in Hj. unfold pixel, coefficient.
  assert (Lm : length (map (fun r => nth j r 0) (a_rows w)) = K) by (rewrite map_length; exact Ir).
  rewrite (dot_sumn A ph _ K Hl Lm). apply sumn_ext. intros k Hk. f_equal. rewrite nth_indep with (d' := (fun r => nth j r 0) []) by lia. rewrite (map_nth (fun r => nth j r 0)). apply E; lia.
Qed.

Let HF' : field_theory (@zer A) one add mul sub opp dvd inv eq := HF.
Add Field fA18 : HF'.
(* swapping two sums with a factor *)
Lemma coefficient_blend n K (F P : nat -> nat -> A) (c : nat -> A) j : inverts n K F P -> (j < n)%nat -> coefficient K (blend n c F) P j = c j.
Proof.
  intros H Hj. unfold coefficient, blend. transitivity (sumn n (fun i => c i * sumn K (fun k => F i k * P k j))).
  - rewrite (sumn_ext K _ (fun k => sumn n (fun i => c i * (F i k * P k j)))) by (intros k _; rewrite <- (sumn_scale_r A HF); apply sumn_ext; intros i _; ring).
    rewrite (sumn_swap A HF). apply sumn_ext. intros i _. apply (sumn_scale A HF).
  - rewrite (sumn_single A HF n j); [|exact Hj|intros i Hi N; rewrite (H i j Hi Hj); unfold delta; destruct (Nat.eqb_spec i j) as [E|E]; [contradiction|ring]].
    rewrite (H j j Hj Hj). unfold delta. rewrite Nat.eqb_refl. ring.
Qed.
Lemma residual_orth n K (F P : nat -> nat -> A) (ph : nat -> A) j : pseudo n K F P -> (j < n)%nat -> sumn K (fun k => (ph k - blend n (coefficient K ph P) F k) * F j k) = 0.
Proof.
  intros [H1 H2] Hj. rewrite (sumn_ext K _ (fun k => ph k * F j k - blend n (coefficient K ph P) F k * F j k)) by (intros; ring). rewrite (sumn_sub A HF).
  enough (E : sumn K (fun k => blend n (coefficient K ph P) F k * F j k) = sumn K (fun k => ph k * F j k)) by (rewrite E; ring).
  transitivity (sumn K (fun k => sumn K (fun l => ph l * (sumn n (fun i => P l i * F i k) * F j k)))).
  - apply sumn_ext. intros k Hk. unfold blend, coefficient. rewrite <- (sumn_scale_r A HF).
    rewrite (sumn_ext n _ (fun i => sumn K (fun l => ph l * P l i * F i k * F j k))) by (intros i _; rewrite <- !(sumn_scale_r A HF); reflexivity).
    rewrite (sumn_swap A HF). apply sumn_ext. intros l Hl. rewrite <- (sumn_scale_r A HF), <- (sumn_scale A HF). apply sumn_ext. intros i Hi. ring.
  - rewrite (sumn_swap A HF). apply sumn_ext. intros l Hl. rewrite (sumn_scale A HF). f_equal. rewrite <- (H1 j l Hj Hl). apply sumn_ext. intros k Hk. rewrite (H2 l k Hl Hk). ring.
Qed.
End G.
Local Open Scope Qc_scope.
Lemma sum_nonneg n (f : nat -> Qc) : (forall k, (k < n)%nat -> 0 <= f k) -> 0 <= sumn (A:=qc) n f.
Proof.
  induction n as [|n IH]; intros H; [discriminate|]. cbn [sumn]. change (0 + 0 <= sumn (A:=qc) n f + f n). apply Qcplus_le_compat; [apply IH; intros; apply H; lia|apply H; lia].
Qed.
Lemma sq_nonneg (x : Qc) : 0 <= x * x.
Proof. unfold Qcle. rewrite this_mul. change (this 0) with 0%Q. destruct (this x) as [a b]. unfold Qle, Qmult. cbn. nia. Qed.
Lemma least_squares n K (F P : nat -> nat -> Qc) (ph c : nat -> Qc) : pseudo (A:=qc) n K F P ->
  misfit K ph (blend (A:=qc) n (coefficient (A:=qc) K ph P) F) <= misfit K ph (blend (A:=qc) n c F).
Proof.
  intros H. set (m := coefficient (A:=qc) K ph P). set (r := fun k => ph k - blend (A:=qc) n m F k). set (d := fun k => blend (A:=qc) n (fun j => m j - c j) F k).
  assert (D : forall k, ph k - blend (A:=qc) n c F k = r k + d k).
  { intros k. unfold r, d. assert (E : blend (A:=qc) n (fun j => m j - c j) F k = blend (A:=qc) n m F k - blend (A:=qc) n c F k).
    { unfold blend. change Qcminus with (@sub qc). rewrite <- (sumn_sub qc qc_field). apply sumn_ext. intros j _. change (@mul qc) with Qcmult. change (@sub qc) with Qcminus. qceq; ring. }
    rewrite E. qceq; ring. }
  assert (X : sumn (A:=qc) K (fun k => r k * d k) = 0).
  { unfold d, blend. rewrite (sumn_ext (A:=qc) K _ (fun k => sumn (A:=qc) n (fun j => (m j - c j) * (r k * F j k)))).
    2:{ intros k _. change Qcmult with (@mul qc). rewrite <- (sumn_scale qc qc_field). apply sumn_ext. intros j _. change (@mul qc) with Qcmult. qceq; ring. }
    rewrite (sumn_swap qc qc_field). apply (sumn_zero qc qc_field). intros j Hj. change Qcmult with (@mul qc). rewrite (sumn_scale qc qc_field). unfold r. 
    pose proof (residual_orth (A:=qc) qc_field n K F P ph j H Hj) as O. cbn beta. fold m in O. change Qcminus with (@sub qc). rewrite O. change (@mul qc) with Qcmult. change (@zer qc) with 0. qceq; ring. }
  assert (S : misfit K ph (blend (A:=qc) n c F) = misfit K ph (blend (A:=qc) n m F) + sumn (A:=qc) K (fun k => d k * d k)).
  { unfold misfit. rewrite (sumn_ext (A:=qc) K _ (fun k => (r k * r k + d k * d k) + (1 + 1) * (r k * d k))) by (intros k _; rewrite D; qceq; ring).
    transitivity (sumn (A:=qc) K (fun k => r k * r k) + sumn (A:=qc) K (fun k => d k * d k) + (1 + 1) * sumn (A:=qc) K (fun k => r k * d k)).
    - change Qcplus with (@add qc). rewrite !(sumn_add qc qc_field). change Qcmult with (@mul qc). rewrite (sumn_scale qc qc_field). reflexivity.
    - rewrite X. change (sumn (A:=qc) K (fun k => (ph k - blend (A:=qc) n m F k) * (ph k - blend (A:=qc) n m F k))) with (sumn (A:=qc) K (fun k => r k * r k)). generalize (sumn (A:=qc) K (fun k => r k * r k)) (sumn (A:=qc) K (fun k => d k * d k)). intros x y. qceq; ring. }
  rewrite S. rewrite <- Qcplus_0_r at 1. apply Qcplus_le_compat; [apply Qcle_refl|]. apply sum_nonneg. intros k _. apply sq_nonneg.
Qed.
Lemma sorted_of (l : list (nat * nat)) : (forall a b d, (a < b)%nat -> (b < length l)%nat -> before (nth a l d) (nth b l d)) -> StronglySorted before l.
Proof.
  induction l as [|x l IH]; intros H; [constructor|]. constructor.
  - apply IH. intros a b d Ha Hb. exact (H (S a) (S b) d ltac:(lia) ltac:(cbn; lia)).
  - apply Forall_forall. intros q Hq. apply In_nth with (d := x) in Hq as (k & Hk & <-). exact (H 0%nat (S k) x ltac:(lia) ltac:(cbn; lia)).
Qed.
Lemma before_irr p : ~ before p p.
Proof. intros [H|[_ H]]; lia. Qed.
Lemma before_asym p q : before p q -> before q p -> False.
Proof. unfold before. lia. Qed.
Lemma sorted_unique l1 : forall l2, StronglySorted before l1 -> StronglySorted before l2 -> (forall p, In p l1 <-> In p l2) -> l1 = l2.
Proof.
  induction l1 as [|x l1 IH]; intros l2 S1 S2 H.
  - destruct l2 as [|y l2]; [reflexivity|]. destruct (proj2 (H y) (or_introl eq_refl)).
  - destruct l2 as [|y l2]; [destruct (proj1 (H x) (or_introl eq_refl))|]. inversion S1 as [|? ? S1' F1]; inversion S2 as [|? ? S2' F2]; subst. rewrite Forall_forall in F1, F2.
    assert (x = y) as <-. { destruct (proj1 (H x) (or_introl eq_refl)) as [E|E]; [auto|]. destruct (proj2 (H y) (or_introl eq_refl)) as [E'|E']; [auto|]. destruct (before_asym _ _ (F2 x E) (F1 y E')). }
    f_equal. apply IH; auto. intros p. split; intros Hp.
    + destruct (proj1 (H p) (or_intror Hp)) as [<-|E]; [destruct (before_irr _ (F1 _ Hp))|exact E].
    + destruct (proj2 (H p) (or_intror Hp)) as [<-|E]; [destruct (before_irr _ (F2 _ Hp))|exact E].
Qed.
Lemma pixels_unique {A : arith} (nz : A -> bool) (mask : arr2 A) r c l : a_r mask = r -> a_c mask = c -> pixels_of (fun i j => nz (ent A mask i j)) r c l -> l = places A nz mask.
Proof.
  intros Hr Hc [H S]. apply sorted_unique; [now apply sorted_of|apply places_sorted|]. intros [i j]. rewrite H, in_places, Hr, Hc. reflexivity.
Qed.
