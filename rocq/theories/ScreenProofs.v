From Coq Require Import List ZArith Bool Arith QArith Qcanon Qround Lqa Lia.
From Verif Require Import PyBase PyLemmas Arith FilterSpec OpticalModel ExtModel NpModel FitsModel RebinModel RebinSpec RebinProofs CutModel CutSpec CutProofs VecModel SlopecModel SlopecSpec SumLemmas QcTac
  FieldModel FieldSpec FieldProofs InterpModel InterpSpec InterpProofs PropModel AtmoModel AtmoSpec AtmoProofs ScreenModel ScreenSpec.
Import ListNotations.
Local Open Scope Qc_scope.

Lemma fname_eqb_true a b : fname_eqb a b = true <-> a = b.
Proof.
  unfold fname_eqb. destruct a, b. cbn. rewrite !andb_true_iff, !eqb_true_iff, !Z.eqb_eq. split; [intros (((((-> & ->) & ->) & ->) & ->) & ->); reflexivity|]. intros E. injection E as -> -> -> -> -> ->. repeat split.
Qed.
Lemma qround_qz z : qround (qz z) = z.
Proof.
  unfold qround. rewrite (qfloor_unique (qz z) z); [|apply Qcle_refl|qclra]. replace (qlt (qz z - qz z) (1 / (1 + 1))) with true; [reflexivity|]. symmetry. apply qlt_true.
  rewrite this_sub. rewrite this_div. change (this 1 / this (1 + 1))%Q with (1 # 2)%Q. lra.
Qed.

Section D.
Variable calc : recipe -> arr2 Qc.
Definition made_of (rs : list recipe) (d : directory) : Prop := forall n a, find_file d n = Some a -> exists q, In q rs /\ n = name_of false false q /\ a = calc q.
Lemma get_one rs d r : distinct_names rs -> In r rs -> made_of rs d -> fst (get_screen calc d r) = calc r /\ made_of rs (snd (get_screen calc d r)).
Proof.
  intros Hd Hr Hm. unfold get_screen.
  destruct (find_file d (name_of false false r)) eqn:E1; [destruct (Hm _ _ E1) as (q & Hq & En & ->); destruct (Hd r q Hr Hq) as [X _]; now rewrite (X En)|].
  destruct (find_file d (name_of false true r)) eqn:E2; [destruct (Hm _ _ E2) as (q & Hq & En & ->); destruct (Hd r q Hr Hq) as [_ X]; now rewrite (X En)|].
  destruct (find_file d (name_of true false r)) eqn:E3; [destruct (Hm _ _ E3) as (q & Hq & En & ->); discriminate En|].
  destruct (find_file d (name_of true true r)) eqn:E4; [destruct (Hm _ _ E4) as (q & Hq & En & ->); discriminate En|].
  split; [reflexivity|]. cbn [snd]. intros n a. cbn [find_file]. destruct (fname_eqb _ n) eqn:T; [|apply Hm]. apply fname_eqb_true in T as <-. intros H. injection H as <-. exists r. auto.
Qed.
Lemma get_many rs l : forall d, distinct_names rs -> (forall r, In r l -> In r rs) -> made_of rs d -> fst (get_screens calc d l) = map calc l /\ made_of rs (snd (get_screens calc d l)).
Proof.
  induction l as [|r l IH]; intros d Hd Hl Hm; [split; [reflexivity|exact Hm]|]. cbn [get_screens fst snd map]. destruct (get_one rs d r Hd (Hl r (or_introl eq_refl)) Hm) as [A B].
  destruct (IH _ Hd (fun x Hx => Hl x (or_intror Hx)) B) as [C D]. split; [now rewrite A, C|exact D].
Qed.
End D.

(* blocks of rows *)
Lemma image_rows R C f a x n : image (A:=qc) R C f a -> (x + n <= R)%nat ->
  sel_rows qc a (slice2 (Z.of_nat x) (Z.of_nat x + Z.of_nat n)) = Ok (tab qc n C (fun i j => f (x + i)%nat j)).
Proof.
  intros I Hx. pose proof I as (Ir & Ic & L & E). unfold sel_rows. unfold a_r in Ir. rewrite take_slice2 by (rewrite Ir; exact Hx). cbn [bind]. f_equal.
  apply (image_eq (A:=qc) n C (fun i j => f (x + i)%nat j)); [|exact (tab_image (A:=qc) _ _ _)].
  split; [unfold a_r; cbn [a_rows]; rewrite firstn_length, skipn_length; lia|]. split; [exact Ic|]. cbn [a_rows]. split.
  - intros r Hr. apply L. apply In_nth with (d := []) in Hr as (k & Hk & <-). rewrite firstn_length, skipn_length in Hk. rewrite nth_firstn by lia. rewrite nth_skipn. apply nth_In. lia.
  - intros i j Hi Hj. rewrite nth_firstn by exact Hi. rewrite nth_skipn. apply E; lia.
Qed.

Lemma share_ok mx per (squares : list (arr2 Qc)) (F : nat -> nat -> nat -> Qc) R C : (0 < per)%nat -> (mx * per <= R)%nat ->
  forall n i next block, (forall k (a : arr2 Qc), nth_error squares k = Some a -> image (A:=qc) R C (F k) a) -> (i + n <= length squares * per)%nat ->
  next = ((i + per - 1) / per)%nat -> ((i mod per <> 0)%nat -> block = i mod per)%nat ->
  share mx per squares next block (seq i n) = Ok (map (fun k => tab qc mx C (fun r c => F (k / per)%nat (mx * (k mod per) + r)%nat c)) (seq i n)).
Proof.
  intros Hp Hm. induction n as [|n IH]; intros i next block Hs Hl Hn Hb; [reflexivity|]. cbn [seq share map].
  pose proof (Nat.mod_upper_bound i per ltac:(lia)) as Mb. pose proof (Nat.div_mod i per ltac:(lia)) as Dm.
  set (nb := if Nat.eqb (i mod per) 0 then (S next, 0%nat) else (next, block)).
  assert (E1 : (fst nb = S (i / per))%nat /\ (snd nb = i mod per)%nat).
  { unfold nb. destruct (Nat.eqb_spec (i mod per) 0) as [Z|Z]; cbn [fst snd].
    - split; [|lia]. f_equal. rewrite Hn. rewrite Dm at 1. rewrite Z. replace (per * (i / per) + 0 + per - 1)%nat with ((per - 1) + (i / per) * per)%nat by nia. rewrite Nat.div_add by lia. rewrite Nat.div_small by lia. lia.
    - split; [|now apply Hb]. rewrite Hn. rewrite Dm at 1. replace (per * (i / per) + i mod per + per - 1)%nat with ((i mod per - 1) + (S (i / per)) * per)%nat by nia. rewrite Nat.div_add by lia. rewrite Nat.div_small by lia. lia. }
  destruct E1 as [E1 E2]. rewrite E1, E2. replace (S (i / per) - 1)%nat with (i / per)%nat by lia.
  assert (Hlt : (i / per < length squares)%nat) by (apply Nat.div_lt_upper_bound; nia).
  destruct (nth_error squares (i / per)) as [a|] eqn:Ea; [|apply nth_error_None in Ea; lia].
  unfold rows_of. replace (Z.of_nat (mx * (i mod per + 1))) with (Z.of_nat (mx * (i mod per)) + Z.of_nat mx)%Z by nia.
  match goal with |- context [sel_rows ?V a ?s] => replace (sel_rows V a s) with (@Ok (arr2 Qc) (tab qc mx C (fun r c => F (i / per)%nat (mx * (i mod per) + r)%nat c))) by (symmetry; exact (image_rows R C (F (i / per)%nat) a (mx * (i mod per)) mx (Hs _ _ Ea) ltac:(nia))) end. cbn [bind].
  rewrite (IH (S i)); [reflexivity|exact Hs|lia| |].
  - assert (Q : (S i + per - 1 = i mod per + S (i / per) * per)%nat) by nia. rewrite Q. rewrite Nat.div_add by lia. rewrite (Nat.div_small (i mod per) per) by lia. lia.
  - assert (Q : (S i = S (i mod per) + i / per * per)%nat) by nia. assert (M : ((S i) mod per = S (i mod per) mod per)%nat) by (rewrite Q at 1; apply Nat.mod_add; lia). rewrite M. intros H.
    destruct (Nat.eq_dec (S (i mod per)) per) as [Z|Z]; [rewrite Z, Nat.mod_same in H by lia; lia|]. rewrite (Nat.mod_small (S (i mod per)) per) by lia. reflexivity.
Qed.

Lemma sum_const n x : sumn (A:=qc) n (fun _ => x) = qnat n * x.
Proof. induction n as [|n IH]; [change (qnat 0) with 0; cbn [sumn]; qceq; ring|]. cbn [sumn]. rewrite IH, qnat_S. qceq. ring. Qed.
Lemma qnat_mul m n : qnat (m * n) = qnat m * qnat n.
Proof. apply Qc_iff. rewrite this_mul, !this_nat, Nat2Z.inj_mul, inject_Z_mult. reflexivity. Qed.
Lemma qnat_nz n : (0 < n)%nat -> qnat n <> 0.
Proof. intros H E. pose proof (qnat_lt 0 n H) as L. rewrite E in L. discriminate L. Qed.
Lemma flux_const r c x : flux (A:=qc) r c (fun _ _ => x) = qnat (r * c) * x.
Proof. unfold flux. rewrite (sumn_ext (A:=qc) r _ (fun _ => qnat c * x)) by (intros; apply sum_const). rewrite sum_const, qnat_mul. qceq. ring. Qed.
Lemma flux_mirror r c f : flux (A:=qc) r c (mirror c f) = flux (A:=qc) r c f.
Proof. unfold flux, mirror. apply (sumn_ext (A:=qc)). intros i _. symmetry. exact (sumn_rev qc qc_field c (fun j => f i j)). Qed.
Lemma flux_lin r c (f : nat -> nat -> Qc) (a b : Qc) : flux (A:=qc) r c (fun i j => f i j * a - b) = flux (A:=qc) r c f * a - qnat (r * c) * b.
Proof.
  rewrite <- flux_const. unfold flux. rewrite <- (sumn_scale_r qc qc_field), <- (sumn_sub qc qc_field). apply (sumn_ext (A:=qc)). intros i _.
  rewrite <- (sumn_scale_r qc qc_field), <- (sumn_sub qc qc_field). reflexivity.
Qed.
Lemma flux_scl r c (f : nat -> nat -> Qc) (a : Qc) : flux (A:=qc) r c (fun i j => f i j * a) = flux (A:=qc) r c f * a.
Proof. exact (flux_scale (A:=qc) qc_field r c a f). Qed.

Lemma normal_image root nm i c r n f a : (0 < r)%nat -> (0 < n)%nat -> image (A:=qc) r n f a ->
  image (A:=qc) r n (fun y x => (root c * nm) * ((if Nat.odd i then mirror n f else f) y x - mean2 r n f)) (normal root nm i c a).
Proof.
  intros Hr Hn I. unfold normal. pose proof (each_image (A:=qc) (fun x => x * root c) _ _ _ _ I) as I1. cbv beta in I1.
  pose proof (total_image (A:=qc) _ _ _ _ I1) as T. pose proof (image_r (A:=qc) _ _ _ _ I) as R. pose proof (image_c (A:=qc) _ _ _ _ I) as C.
  change (@a_r (car qc)) with (@a_r Qc) in R. change (@a_c (car qc)) with (@a_c Qc) in C.
  set (m := total qc _ / _). assert (M : m = mean2 r n f * root c).
  { unfold m. rewrite R, C, T. change qn with qnat. transitivity (flux (A:=qc) r n (fun i j => f i j * root c) / qnat (r * n)); [reflexivity|]. rewrite flux_scl. unfold mean2. field. apply qnat_nz. nia. }
  pose proof (each_image (A:=qc) (fun x => (x - m) * nm) _ _ _ _ I1) as I2. cbv beta in I2.
  assert (I3 : image (A:=qc) r n (fun y x => root c * nm * (f y x - mean2 r n f)) (each qc (fun x => (x - m) * nm) (each qc (fun x => x * root c) a))).
  { apply (image_ext (A:=qc) _ _ _ _ _ I2). intros y x _ _. cbv beta. rewrite M. qceq. ring. }
  destruct (Nat.odd i); [|exact I3].
  match goal with |- context [@a_r ?T ?e] => assert (R3 : @a_r T e = r) by exact (image_r (A:=qc) _ _ _ _ I3); assert (C3 : @a_c T e = n) by exact (image_c (A:=qc) _ _ _ _ I3); rewrite R3, C3 end.
  apply (image_ext (A:=qc) _ _ _ _ _ (tab_image (A:=qc) _ _ _)). intros y x Hy Hx. exact (image_ent (A:=qc) r n _ _ y (n - 1 - x) I3 Hy ltac:(lia)).
Qed.
Lemma mean_mirror r c f : mean2 r c (mirror c f) = mean2 r c f.
Proof. unfold mean2. now rewrite flux_mirror. Qed.
Lemma copy_centred r c k (f : nat -> nat -> Qc) m : (0 < r)%nat -> (0 < c)%nat -> m = mean2 r c f -> centred_copy r c k f (fun y x => k * (f y x - m)).
Proof.
  intros Hr Hc ->. split.
  - rewrite (flux_ext (A:=qc) r c _ (fun y x => f y x * k - mean2 r c f * k)) by (intros; qceq; ring). rewrite flux_lin. unfold mean2. qceq. field. apply qnat_nz. nia.
  - intros. ring.
Qed.
Lemma spread_copy r c k (f : nat -> nat -> Qc) m : m = mean2 r c f -> flux (A:=qc) r c (fun y x => (k * (f y x - m)) * (k * (f y x - m))) = k * k * spread r c f.
Proof. intros ->. unfold spread. rewrite (flux_ext (A:=qc) r c _ (fun y x => ((f y x - mean2 r c f) * (f y x - mean2 r c f)) * (k * k))) by (intros; qceq; ring). rewrite flux_scl. qceq. ring. Qed.
Lemma spread_mirror r c f : spread r c (mirror c f) = spread r c f.
Proof. unfold spread. rewrite mean_mirror. exact (flux_mirror r c (fun i j => (f i j - mean2 r c f) * (f i j - mean2 r c f))). Qed.
