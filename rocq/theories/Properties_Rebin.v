(* C59, C60, C66, C72: averaging over blocks, pixel indices, binning, area resampling. *)
From Coq Require Import List ZArith Bool Arith Lia Field Field_theory QArith Qcanon.
From Verif Require Import PyBase PyLemmas Arith ArithLemmas FilterSpec SumLemmas FitsModel FitsSpec RebinModel RebinSpec RebinProofs
  Properties_Filter Properties_Calib.
Import ListNotations.
Local Open Scope ar_scope.

Section P.
Context {A : arith} (HF : is_field A).
Let HF' : field_theory 0 1 add mul sub opp dvd inv (@eq A) := HF.
Add Field fA12 : HF'.
Context (ofn : nat -> A) (HC : counts ofn).
Context (mx : A -> A -> A) (eps : A).

Lemma flux_one_one (f : nat -> nat -> A) : flux 1 1 f / ofn (1 * 1)%nat = f 0%nat 0%nat.
Proof.
  destruct HC as [E N]. assert (N1 := N 1%nat Nat.lt_0_1). rewrite (E (1 * 1)%nat). rewrite (E 1%nat) in N1. unfold flux. cbn [sumn Nat.mul Nat.add] in *.
  assert (Z : (1 : A) <> 0) by (intros Z; apply N1; rewrite Z; ring). field. exact Z.
Qed.

(* ---- C59 ---- *)

(* Every output pixel is the mean of its block, if the number of output columns is at most the
   number of input rows. *)
Theorem C59_blocks (a : arr2 A) m n b c : rect a -> (0 < m)%nat -> (0 < n)%nat -> (0 < b)%nat -> (0 < c)%nat ->
  a_r a = (m * b)%nat -> a_c a = (n * c)%nat -> (n <= a_r a)%nat \/ (b = 1 /\ c = 1)%nat ->
  exists r, rebin_mean A ofn a m n = Ok r /\ rect r /\ a_r r = m /\ a_c r = n /\
    frame m n (fun i j => flux b c (fun x y => ent A a (i * b + x) (j * c + y)) / ofn (b * c)%nat) (a_rows r).
Proof.
  intros R Hm Hn Hb Hc Er Ec Hw. unfold rebin_mean. rewrite Er, Ec.
  destruct ((m * b =? m) && (n * c =? n)) eqn:S.
  - apply andb_prop in S as [S1 S2]. apply Nat.eqb_eq in S1, S2. assert (b = 1 /\ c = 1)%nat as [-> ->] by nia.
    exists a. split; [reflexivity|]. split; [exact R|]. split; [lia|]. split; [lia|]. rewrite Nat.mul_1_r in Er, Ec.
    split; [exact Er|]. split; [intros i Hi; rewrite (proj2 R); [exact Ec|apply nth_In; unfold a_r in Er; lia]|].
    intros i j Hi Hj. rewrite flux_one_one. rewrite !Nat.mul_1_r, !Nat.add_0_r. reflexivity.
  - assert (Hw' : (n <= m * b)%nat).
    { destruct Hw as [H|[-> ->]]; [lia|]. rewrite !Nat.mul_1_r, !Nat.eqb_refl in S. discriminate. }
    replace (m <=? m * b) with true by (symmetry; apply Nat.leb_le; nia). replace (n <=? m * b) with true by (symmetry; apply Nat.leb_le; nia).
    cbn [andb]. replace (m =? 0) with false by (symmetry; apply Nat.eqb_neq; lia).
    replace (m * b)%nat with (b * m)%nat by lia. rewrite Nat.mod_mul, Nat.div_mul by lia. cbn [Nat.eqb negb].
    replace (n =? 0) with false by (symmetry; apply Nat.eqb_neq; lia).
    replace (n * c)%nat with (c * n)%nat by lia. rewrite Nat.mod_mul, Nat.div_mul by lia. cbn [Nat.eqb negb].
    eexists. split; [reflexivity|]. split; [now apply tab_rect|]. split; [apply tab_r|]. split; [reflexivity|].
    destruct (tab_frame m n (fun i j => mean A ofn (map (fun r => mean A ofn (map (fun s => ent A a (i * b + r) (j * c + s)) (seq 0 c))) (seq 0 b)))) as (F1 & F2 & F3).
    split; [exact F1|]. split; [exact F2|]. intros i j Hi Hj. rewrite F3 by assumption.
    apply (mean_mean HF ofn HC (fun r s => ent A a (i * b + r) (j * c + s))); assumption.
Qed.

(* The mean of the frame is preserved: the sum times the number of pixels per block. *)
Theorem C59_mean (a : arr2 A) m n b c r : rect a -> (0 < m)%nat -> (0 < n)%nat -> (0 < b)%nat -> (0 < c)%nat ->
  a_r a = (m * b)%nat -> a_c a = (n * c)%nat -> rebin_mean A ofn a m n = Ok r ->
  total A r * ofn (b * c)%nat = total A a /\ total A r / ofn (m * n)%nat = total A a / ofn (a_r a * a_c a)%nat.
Proof.
  intros R Hm Hn Hb Hc Er Ec E.
  assert (Hw : (n <= a_r a)%nat \/ (b = 1 /\ c = 1)%nat).
  { unfold rebin_mean in E. rewrite Er, Ec in E. destruct ((m * b =? m) && (n * c =? n)) eqn:S.
    - apply andb_prop in S as [S1 S2]. apply Nat.eqb_eq in S1, S2. right. nia.
    - destruct (n <=? m * b) eqn:L; [left; apply Nat.leb_le in L; lia|]. rewrite andb_false_r in E.
      destruct ((m * b <=? m) && (m * b <=? n)); discriminate. }
  destruct (C59_blocks a m n b c R Hm Hn Hb Hc Er Ec Hw) as (r' & E' & Rr & Sr & Sc & (_ & _ & F)). rewrite E in E'. injection E' as <-.
  assert (G : total A r * ofn (b * c)%nat = total A a).
  { rewrite (total_flux r Rr), (total_flux a R), Sr, Sc, Er, Ec. rewrite <- (flux_blocks HF m n b c).
    rewrite <- (flux_scale HF). apply flux_ext. intros i j Hi Hj. unfold ent at 1. rewrite F by assumption.
    field. apply (proj2 HC). nia. }
  split; [exact G|]. rewrite <- G, Er, Ec. replace (m * b * (n * c))%nat with (m * n * (b * c))%nat by lia. rewrite (ofn_mul HF ofn HC (m * n)).
  field. split; apply (proj2 HC); nia.
Qed.

(* Non-integer factors and enlargements are refused. *)
Theorem C59_refused (a : arr2 A) m n : (0 < m)%nat -> (0 < n)%nat -> ~ (a_r a = m /\ a_c a = n) ->
  (a_r a mod m <> 0 \/ a_c a mod n <> 0 \/ a_r a < m)%nat -> rebin_mean A ofn a m n = Err ValueError.
Proof.
  intros Hm Hn D H. unfold rebin_mean.
  assert (S : ((a_r a =? m) && (a_c a =? n)) = false).
  { apply andb_false_iff. destruct (Nat.eq_dec (a_r a) m) as [E|E]; [right|left]; apply Nat.eqb_neq; auto. }
  rewrite S. destruct ((m <=? a_r a) && (n <=? a_r a)) eqn:L; [|match goal with |- (if ?c then _ else _) = _ => destruct c; reflexivity end].
  apply andb_prop in L as [L1 L2]. apply Nat.leb_le in L1.
  replace (m =? 0) with false by (symmetry; apply Nat.eqb_neq; lia). replace (n =? 0) with false by (symmetry; apply Nat.eqb_neq; lia).
  destruct (a_r a mod m =? 0) eqn:M1; cbn [negb]; [|reflexivity]. destruct (a_c a mod n =? 0) eqn:M2; cbn [negb]; [|reflexivity].
  apply Nat.eqb_eq in M1, M2. lia.
Qed.

(* Whatever is accepted has integer factors in both directions. *)
Theorem C59_accepted (a : arr2 A) m n r : rebin_mean A ofn a m n = Ok r ->
  a_r r = m /\ a_c r = n /\ exists b c, a_r a = (m * b)%nat /\ a_c a = (n * c)%nat.
Proof.
  unfold rebin_mean. destruct ((a_r a =? m) && (a_c a =? n)) eqn:S.
  - intros E. injection E as <-. apply andb_prop in S as [S1 S2]. apply Nat.eqb_eq in S1, S2. split; [exact S1|]. split; [exact S2|].
    exists 1%nat, 1%nat. lia.
  - destruct ((m <=? a_r a) && (n <=? a_r a)); [|match goal with |- (if ?c then _ else _) = _ -> _ => destruct c; discriminate end].
    destruct (m =? 0) eqn:M0; [discriminate|]. destruct (a_r a mod m =? 0) eqn:M1; [|discriminate]. cbn [negb].
    destruct (n =? 0) eqn:N0; [discriminate|]. destruct (a_c a mod n =? 0) eqn:N1; [|discriminate]. cbn [negb].
    intros E. injection E as <-. split; [apply tab_r|]. split; [reflexivity|]. apply Nat.eqb_eq in M1, N1. apply Nat.eqb_neq in M0, N0.
    exists (a_r a / m)%nat, (a_c a / n)%nat. split; apply Nat.div_exact; assumption.
Qed.

(* Enlarging by integer factors repeats pixels. *)
Theorem C59_sample (a : arr2 A) p q : rect a -> (0 < a_c a)%nat -> (0 < p)%nat -> (0 < q)%nat ->
  exists r, rebin_sample A a (a_r a * p) (a_c a * q) = Ok r /\ rect r /\ a_r r = (a_r a * p)%nat /\ a_c r = (a_c a * q)%nat /\
    forall i j, (i < a_r a * p)%nat -> (j < a_c a * q)%nat -> ent A r i j = ent A a (i / p) (j / q).
Proof.
  intros R Hc Hp Hq. assert (Hr : (0 < a_r a)%nat) by (apply (proj1 R)). unfold rebin_sample.
  destruct ((a_r a =? a_r a * p) && (a_c a =? a_c a * q)) eqn:S.
  - apply andb_prop in S as [S1 S2]. apply Nat.eqb_eq in S1, S2. assert (p = 1 /\ q = 1)%nat as [-> ->] by nia.
    exists a. split; [reflexivity|]. split; [exact R|]. split; [lia|]. split; [lia|]. intros i j _ _. now rewrite !Nat.div_1_r.
  - replace (a_r a * p =? 0) with false by (symmetry; apply Nat.eqb_neq; nia). replace (a_c a * q =? 0) with false by (symmetry; apply Nat.eqb_neq; nia).
    cbn [orb]. eexists. split; [reflexivity|]. split; [apply tab_rect; nia|]. split; [apply tab_r|]. split; [reflexivity|].
    intros i j Hi Hj. rewrite tab_ent by assumption. f_equal.
    + rewrite (Nat.mul_comm i). apply Nat.div_mul_cancel_l; lia.
    + rewrite (Nat.mul_comm j). apply Nat.div_mul_cancel_l; lia.
Qed.

(* Averaging undoes an integer enlargement. *)
Theorem C59_sample_then_mean (a : arr2 A) p q r : rect a -> (0 < a_c a)%nat -> (0 < p)%nat -> (0 < q)%nat -> (a_c a <= a_r a * p)%nat ->
  rebin_sample A a (a_r a * p) (a_c a * q) = Ok r -> rebin_mean A ofn r (a_r a) (a_c a) = Ok a.
Proof.
  intros R Hc Hp Hq Hw E. assert (Hr : (0 < a_r a)%nat) by (apply (proj1 R)).
  destruct (C59_sample a p q R Hc Hp Hq) as (r' & E' & Rr & Sr & Sc & H). rewrite E in E'. injection E' as <-.
  destruct (C59_blocks r (a_r a) (a_c a) p q Rr Hr Hc Hp Hq Sr Sc ltac:(left; lia)) as (t & -> & Rt & Str & Stc & (_ & _ & F)). f_equal.
  apply rect_ext; auto. rewrite Str, Stc. intros i j Hi Hj. unfold ent at 1. rewrite F by assumption.
  rewrite (flux_ext _ _ _ (fun _ _ => ent A a i j)).
  - unfold flux. rewrite (sumn_ext _ _ (fun _ => ofn q * ent A a i j)) by (intros; apply (sumn_const HF ofn HC)).
    rewrite (sumn_const HF ofn HC), (ofn_mul HF ofn HC). field. split; apply (proj2 HC); assumption.
  - intros x y Hx Hy. rewrite H by nia. f_equal.
    + rewrite Nat.div_add_l by lia. rewrite (Nat.div_small x p Hx). lia.
    + rewrite Nat.div_add_l by lia. rewrite (Nat.div_small y q Hy). lia.
Qed.

(* ---- C66 ---- *)

(* Binning by b: every pixel is the mean of its b x b block, so the flux is divided by b^2. *)
Theorem C66_binning (i : arr2 A) b pm pn : rect i -> (1 < b)%nat -> (0 < pm)%nat -> (0 < pn)%nat ->
  a_r i = (pm * b)%nat -> a_c i = (pn * b)%nat -> (pn <= a_r i)%nat ->
  exists r, apply_binning A ofn i b pm pn = Ok r /\
    frame pm pn (fun x y => flux b b (fun u v => ent A i (x * b + u) (y * b + v)) / ofn (b * b)%nat) (a_rows r) /\
    total A r * ofn (b * b)%nat = total A i.
Proof.
  intros R Hb Hm Hn Er Ec Hw. unfold apply_binning. replace (1 <? b) with true by (symmetry; apply Nat.ltb_lt; exact Hb).
  assert (E1 : (a_r i / b = pm)%nat) by (rewrite Er; apply Nat.div_mul; lia).
  assert (E2 : (a_c i / b = pn)%nat) by (rewrite Ec; apply Nat.div_mul; lia). rewrite E1, E2.
  destruct (C59_blocks i pm pn b b R Hm Hn ltac:(lia) ltac:(lia) Er Ec (or_introl Hw)) as (r & E & Rr & Sr & Sc & F).
  rewrite E. cbn [bind]. rewrite Sr, Sc, !Nat.eqb_refl. cbn [andb]. exists r. split; [reflexivity|]. split; [exact F|].
  exact (proj1 (C59_mean i pm pn b b r R Hm Hn ltac:(lia) ltac:(lia) Er Ec E)).
Qed.

(* Without binning the frame is copied. *)
Theorem C66_no_binning (i : arr2 A) b : (b <= 1)%nat -> apply_binning A ofn i b (a_r i) (a_c i) = Ok i.
Proof.
  intros H. unfold apply_binning. replace (1 <? b) with false by (symmetry; apply Nat.ltb_ge; exact H). cbn [bind]. now rewrite !Nat.eqb_refl.
Qed.

(* Sensors with more binned columns than rows cannot be binned. *)
Theorem C66_wide (i : arr2 A) b pm pn : (1 < b)%nat -> (0 < a_r i)%nat -> (a_r i < a_c i / b)%nat -> apply_binning A ofn i b pm pn = Err ValueError.
Proof.
  intros Hb Hr Hw. unfold apply_binning. replace (1 <? b) with true by (symmetry; apply Nat.ltb_lt; exact Hb). unfold rebin_mean.
  assert (D : (a_r i / b < a_r i)%nat) by (apply Nat.div_lt; lia).
  replace (a_r i =? a_r i / b) with false by (symmetry; apply Nat.eqb_neq; lia). cbn [andb].
  replace (a_c i / b <=? a_r i) with false by (symmetry; apply Nat.leb_gt; lia). rewrite andb_false_r.
  match goal with |- context [if ?c then Err ValueError else Err ValueError] => destruct c; reflexivity end.
Qed.

(* ---- C72 ---- *)

Ltac side_conds := repeat match goal with |- _ /\ _ => split end; solve [assumption | match goal with N : forall n, (0 < n)%nat -> _ |- _ => apply N; assumption end].

Lemma lcm_ok a b : (0 < a)%nat -> (0 < b)%nat -> lcm a b = Ok (Nat.lcm a b).
Proof.
  intros Ha Hb. unfold lcm. assert (G : Nat.gcd a b <> 0%nat) by (intros E; apply Nat.gcd_eq_0 in E; lia).
  replace (Nat.gcd a b =? 0) with false by (symmetry; now apply Nat.eqb_neq). f_equal. unfold Nat.lcm.
  apply Nat.divide_div_mul_exact; [exact G|apply Nat.gcd_divide_r].
Qed.
Lemma lcm_factors a b : (0 < a)%nat -> (0 < b)%nat ->
  exists p q, (0 < p)%nat /\ (0 < q)%nat /\ Nat.lcm a b = (a * p)%nat /\ Nat.lcm a b = (b * q)%nat.
Proof.
  intros Ha Hb. destruct (Nat.divide_lcm_l a b) as [p Hp], (Nat.divide_lcm_r a b) as [q Hq].
  assert (N : Nat.lcm a b <> 0%nat) by (intros E; apply Nat.lcm_eq_0 in E; lia).
  exists p, q. repeat split; try lia; nia.
Qed.

(* the part of the fine grid (q x q' fine pixels per output pixel, p x p' per input pixel)
   covered by an output pixel *)
Definition covered (a : arr2 A) (p p' q q' i j : nat) : A := flux q q' (fun x y => ent A a ((i * q + x) / p) ((j * q' + y) / p')).

Lemma fine_grid (a : arr2 A) m n p q p' q' : rect a -> (0 < a_c a)%nat -> (0 < m)%nat -> (0 < n)%nat ->
  (0 < p)%nat -> (0 < q)%nat -> (0 < p')%nat -> (0 < q')%nat ->
  Nat.lcm (a_r a) m = (a_r a * p)%nat -> Nat.lcm (a_r a) m = (m * q)%nat ->
  Nat.lcm (a_c a) n = (a_c a * p')%nat -> Nat.lcm (a_c a) n = (n * q')%nat ->
  (m = Nat.lcm (a_r a) m \/ a_c a <= Nat.lcm (a_r a) m)%nat -> (n = Nat.lcm (a_c a) n \/ n <= m)%nat ->
  exists r, (t1 <- rebin_sample A a (Nat.lcm (a_r a) m) (a_c a) ;; t2 <- rebin_mean A ofn t1 m (a_c a) ;;
             t3 <- rebin_sample A t2 m (Nat.lcm (a_c a) n) ;; rebin_mean A ofn t3 m n) = Ok r /\
    rect r /\ a_r r = m /\ a_c r = n /\
    forall i j, (i < m)%nat -> (j < n)%nat -> ent A r i j = covered a p p' q q' i j / ofn (q * q')%nat.
Proof.
  intros R Hc Hm Hn Hp Hq Hp' Hq' Lp Lq Lp' Lq' C1 C2.
  destruct (C59_sample a p 1 R Hc Hp Nat.lt_0_1) as (t1 & E1 & R1 & r1 & c1 & H1). rewrite Nat.mul_1_r in *. rewrite <- Lp in E1. rewrite E1. cbn [bind].
  assert (W2 : (a_c a <= a_r t1 \/ (q = 1 /\ 1 = 1))%nat).
  { rewrite r1. destruct C1 as [C|C]; [right; nia|left; lia]. }
  assert (Er : a_r t1 = (m * q)%nat) by lia. assert (Ec : a_c t1 = (a_c a * 1)%nat) by lia.
  destruct (C59_blocks t1 m (a_c a) q 1 R1 Hm Hc Hq Nat.lt_0_1 Er Ec W2) as (t2 & E2 & R2 & r2 & c2 & (_ & _ & F2)). rewrite E2. cbn [bind].
  assert (Hc2 : (0 < a_c t2)%nat) by lia.
  destruct (C59_sample t2 1 p' R2 Hc2 Nat.lt_0_1 Hp') as (t3 & E3 & R3 & r3 & c3 & H3). rewrite Nat.mul_1_r, r2, c2 in *. rewrite <- Lp' in E3. rewrite E3. cbn [bind].
  assert (W4 : (n <= a_r t3 \/ (1 = 1 /\ q' = 1))%nat) by (rewrite r3; destruct C2 as [C|C]; [right; nia|left; lia]).
  assert (Er3 : a_r t3 = (m * 1)%nat) by lia. assert (Ec3 : a_c t3 = (n * q')%nat) by lia.
  destruct (C59_blocks t3 m n 1 q' R3 Hm Hn Nat.lt_0_1 Hq' Er3 Ec3 W4) as (t4 & E4 & R4 & r4 & c4 & (_ & _ & F4)).
  exists t4. split; [exact E4|]. split; [exact R4|]. split; [exact r4|]. split; [exact c4|]. intros i j Hi Hj.
  unfold ent at 1. rewrite F4 by assumption. unfold covered.
  assert (Lc : (n * q' = a_c a * p')%nat) by lia.
  rewrite (flux_ext _ _ _ (fun x y => flux q 1 (fun u v => ent A a ((i * q + u) / p) ((j * q' + y) / p')) * inv (ofn q))).
  - rewrite (flux_scale HF). unfold flux at 1 3. cbn [sumn].
    rewrite (ofn_mul HF ofn HC 1 q'), (ofn_mul HF ofn HC q q').
    replace (sumn q' (fun j0 => flux q 1 (fun u v => ent A a ((i * q + u) / p) ((j * q' + j0) / p'))))
      with (sumn q (fun x => sumn q' (fun y => ent A a ((i * q + x) / p) ((j * q' + y) / p')))).
    + generalize (sumn q (fun x => sumn q' (fun y => ent A a ((i * q + x) / p) ((j * q' + y) / p')))). intros z.
      assert (N1 := proj2 HC 1%nat Nat.lt_0_1). destruct HC as [E N]. assert (Z1 : ofn 1%nat = 1) by (rewrite E; cbn [sumn]; ring).
      rewrite Z1 in *. field. side_conds.
    + rewrite (sumn_swap A HF). apply sumn_ext. intros y _. unfold flux. apply sumn_ext. intros x _. cbn [sumn]. ring.
  - intros x y Hx Hy. assert (x = 0%nat) by lia. subst x. rewrite Nat.mul_1_r, Nat.add_0_r.
    rewrite H3 by nia. rewrite Nat.div_1_r. unfold ent at 1.
    assert (D : ((j * q' + y) / p' < a_c a)%nat) by (apply Nat.div_lt_upper_bound; nia).
    rewrite F2 by assumption. rewrite ?(ofn_mul HF ofn HC q 1).
    assert (Z1 : ofn 1%nat = 1) by (rewrite (proj1 HC); cbn [sumn]; ring). rewrite ?Z1.
    rewrite (flux_ext _ _ _ (fun u v => ent A a ((i * q + u) / p) ((j * q' + y) / p'))).
    + generalize (flux q 1 (fun u _ : nat => ent A a ((i * q + u) / p) ((j * q' + y) / p'))). intros z.
      assert (N := proj2 HC q Hq). assert (N1 := proj2 HC 1%nat Nat.lt_0_1). rewrite Z1 in N1. field. side_conds.
    + intros u v Hu Hv. assert (v = 0%nat) by lia. subst v. rewrite Nat.mul_1_r, Nat.add_0_r. rewrite H1 by nia. now rewrite Nat.div_1_r.
Qed.

(* sum over the fine grid *)
Lemma fine_total (a : arr2 A) m n p p' q q' : rect a -> (0 < p)%nat -> (0 < p')%nat ->
  (a_r a * p = m * q)%nat -> (a_c a * p' = n * q')%nat -> flux m n (covered a p p' q q') = ofn (p * p')%nat * total A a.
Proof.
  intros R Hp Hp' E E'. unfold covered.
  rewrite (flux_blocks HF m n q q' (fun k l => ent A a (k / p) (l / p'))), <- E, <- E', <- (flux_blocks HF (a_r a) (a_c a) p p').
  rewrite (total_flux a R). rewrite (flux_ext _ _ _ (fun i j => ent A a i j * ofn (p * p')%nat)).
  - rewrite (flux_scale HF). ring.
  - intros i j Hi Hj. rewrite (flux_ext _ _ _ (fun _ _ => ent A a i j)).
    + unfold flux. rewrite (sumn_ext _ _ (fun _ => ofn p' * ent A a i j)) by (intros; apply (sumn_const HF ofn HC)).
      rewrite (sumn_const HF ofn HC), (ofn_mul HF ofn HC). ring.
    + intros x y Hx Hy. f_equal; (rewrite Nat.div_add_l by lia); (rewrite Nat.div_small by assumption); lia.
Qed.

(* Area resampling: with p fine pixels per input pixel and q per output pixel in each direction,
   every output pixel receives the flux of the parts of the input pixels it covers, and the sum
   is the requested total.  [mx S eps = S] says that the sum S before scaling is not below the
   smallest accepted value. *)
Theorem C72_area (a : arr2 A) m n set_total : rect a -> (0 < a_c a)%nat -> (0 < m)%nat -> (0 < n)%nat ->
  ~ (a_r a = m /\ a_c a = n) ->
  (m = Nat.lcm (a_r a) m \/ a_c a <= Nat.lcm (a_r a) m)%nat -> (n = Nat.lcm (a_c a) n \/ n <= m)%nat ->
  total A a <> 0 ->
  (forall p q p' q', Nat.lcm (a_r a) m = (a_r a * p)%nat -> Nat.lcm (a_r a) m = (m * q)%nat ->
     Nat.lcm (a_c a) n = (a_c a * p')%nat -> Nat.lcm (a_c a) n = (n * q')%nat ->
     let S := ofn (p * p')%nat * total A a / ofn (q * q')%nat in mx S eps = S) ->
  let tot := match set_total with Some t => t | None => total A a end in
  exists r p q p' q', Nat.lcm (a_r a) m = (a_r a * p)%nat /\ Nat.lcm (a_r a) m = (m * q)%nat /\
    Nat.lcm (a_c a) n = (a_c a * p')%nat /\ Nat.lcm (a_c a) n = (n * q')%nat /\
    toccd A ofn mx eps a m n set_total = Ok r /\
    frame m n (fun i j => covered a p p' q q' i j / ofn (p * p')%nat * (tot / total A a)) (a_rows r) /\
    total A r = tot.
Proof.
  intros R Hc Hm Hn D C1 C2 NZ Hmx tot. assert (Hr : (0 < a_r a)%nat) by (apply (proj1 R)).
  destruct (lcm_factors (a_r a) m Hr Hm) as (p & q & Hp & Hq & Lp & Lq). destruct (lcm_factors (a_c a) n Hc Hn) as (p' & q' & Hp' & Hq' & Lp' & Lq').
  destruct (fine_grid a m n p q p' q' R Hc Hm Hn Hp Hq Hp' Hq' Lp Lq Lp' Lq' C1 C2) as (t & Et & Rt & Sr & Sc & H).
  assert (Ep : (a_r a * p = m * q)%nat) by lia. assert (Ep' : (a_c a * p' = n * q')%nat) by lia.
  assert (Tt : total A t = ofn (p * p')%nat * total A a / ofn (q * q')%nat).
  { rewrite <- (fine_total a m n p p' q q' R Hp Hp' Ep Ep'). rewrite (total_flux t Rt), Sr, Sc.
    rewrite (flux_ext _ _ _ (fun i j => covered a p p' q q' i j * inv (ofn (q * q')%nat))).
    - rewrite (flux_scale HF). symmetry. apply (Fdiv_def HF).
    - intros i j Hi Hj. rewrite H by assumption. apply (Fdiv_def HF). }
  assert (Npp : ofn (p * p')%nat <> 0) by (apply (proj2 HC); nia). assert (Nqq : ofn (q * q')%nat <> 0) by (apply (proj2 HC); nia).
  assert (NT : total A t <> 0).
  { rewrite Tt. intros Z. apply NZ. replace (total A a) with ((ofn (p * p')%nat * total A a / ofn (q * q')%nat) * ofn (q * q')%nat / ofn (p * p')%nat) by (field; auto).
    rewrite Z. field. exact Npp. }
  assert (S : ((a_r a =? m) && (a_c a =? n)) = false).
  { apply andb_false_iff. destruct (Nat.eq_dec (a_r a) m) as [E|E]; [right|left]; apply Nat.eqb_neq; auto. }
  set (r := mkA2 (a_c t) (map (map (fun x => x / total A t * tot)) (a_rows t))).
  assert (Er : toccd A ofn mx eps a m n set_total = Ok r).
  { unfold toccd. rewrite S, (lcm_ok (a_r a) m Hr Hm), (lcm_ok (a_c a) n Hc Hn). cbn [bind].
    destruct (rebin_sample A a (Nat.lcm (a_r a) m) (a_c a)) as [t1|e]; cbn [bind] in Et |- *; [|discriminate].
    destruct (rebin_mean A ofn t1 m (a_c a)) as [t2|e]; cbn [bind] in Et |- *; [|discriminate].
    destruct (rebin_sample A t2 m (Nat.lcm (a_c a) n)) as [t3|e]; cbn [bind] in Et |- *; [|discriminate].
    rewrite Et. cbn [bind]. replace (mx (total A t) eps) with (total A t); [reflexivity|]. symmetry. rewrite Tt. exact (Hmx p q p' q' Lp Lq Lp' Lq'). }
  assert (Rr : rect r).
  { split; [unfold r; cbn [a_rows]; rewrite map_length; apply Rt|]. unfold r. cbn [a_rows a_c]. intros x Hx. apply in_map_iff in Hx as (y & <- & Hy).
    rewrite map_length. now apply (proj2 Rt). }
  assert (Hent : forall i j, (i < m)%nat -> (j < n)%nat -> ent A r i j = ent A t i j / total A t * tot).
  { intros i j Hi Hj. unfold ent, r. cbn [a_rows]. assert (Hi' : (i < length (a_rows t))%nat) by (unfold a_r in Sr; lia).
    rewrite (nth_indep _ [] (map (fun x => x / total A t * tot) [])) by (rewrite map_length; exact Hi').
    rewrite (map_nth (map (fun x => x / total A t * tot))).
    assert (Hj' : (j < length (nth i (a_rows t) []))%nat) by (rewrite (proj2 Rt) by (now apply nth_In); lia).
    rewrite (nth_indep _ 0 ((fun x => x / total A t * tot) 0)) by (rewrite map_length; exact Hj').
    now rewrite (map_nth (fun x => x / total A t * tot)). }
  assert (Sr' : a_r r = m) by (unfold r, a_r; cbn [a_rows]; rewrite map_length; exact Sr).
  assert (Sc' : a_c r = n) by exact Sc.
  exists r, p, q, p', q'. repeat (split; [assumption|]). split.
  - split; [exact Sr'|]. split; [intros i Hi; rewrite (proj2 Rr); [exact Sc'|apply nth_In; unfold a_r in Sr'; lia]|].
    intros i j Hi Hj. change (nth j (nth i (a_rows r) []) 0) with (ent A r i j). rewrite Hent, H, Tt by assumption. field. auto.
  - rewrite (total_flux r Rr), Sr', Sc'. rewrite (flux_ext _ _ _ (fun i j => ent A t i j * (tot / total A t))).
    + rewrite (flux_scale HF). replace (flux m n (ent A t)) with (total A t) by (rewrite (total_flux t Rt), Sr, Sc; reflexivity). field. exact NT.
    + intros i j Hi Hj. rewrite Hent by assumption. field. exact NT.
Qed.

(* Square frames are always accepted. *)
Theorem C72_square (a : arr2 A) m : rect a -> a_c a = a_r a -> (0 < m)%nat ->
  (m = Nat.lcm (a_r a) m \/ a_c a <= Nat.lcm (a_r a) m)%nat /\ (m = Nat.lcm (a_c a) m \/ m <= m)%nat.
Proof.
  intros R E Hm. assert (Hr : (0 < a_r a)%nat) by (apply (proj1 R)). rewrite E. split; [right|right; lia].
  destruct (lcm_factors (a_r a) m Hr Hm) as (p & q & Hp & _ & L & _). rewrite L. nia.
Qed.

(* Other shapes are refused. *)
Theorem C72_refused (a : arr2 A) m n st : (0 < a_r a)%nat -> (0 < a_c a)%nat -> (0 < m)%nat -> (0 < n)%nat ->
  ~ (m = Nat.lcm (a_r a) m \/ a_c a <= Nat.lcm (a_r a) m)%nat -> rect a ->
  toccd A ofn mx eps a m n st = Err ValueError.
Proof.
  intros Hr Hc Hm Hn C R. unfold toccd.
  destruct (lcm_factors (a_r a) m Hr Hm) as (p & q & Hp & Hq & Lp & Lq).
  assert (S : ((a_r a =? m) && (a_c a =? n)) = false).
  { apply andb_false_iff. left. apply Nat.eqb_neq. intros E. apply C. left. rewrite E, Nat.lcm_diag. reflexivity. }
  rewrite S, (lcm_ok (a_r a) m Hr Hm), (lcm_ok (a_c a) n Hc Hn). cbn [bind].
  destruct (C59_sample a p 1 R Hc Hp Nat.lt_0_1) as (t1 & E1 & R1 & r1 & c1 & _). rewrite Nat.mul_1_r, <- Lp in E1. rewrite E1. cbn [bind].
  assert (X : rebin_mean A ofn t1 m (a_c a) = Err ValueError).
  { unfold rebin_mean. rewrite r1, <- Lp. replace (Nat.lcm (a_r a) m =? m) with false by (symmetry; apply Nat.eqb_neq; intros E; apply C; left; auto).
    cbn [andb]. replace (a_c a <=? Nat.lcm (a_r a) m) with false by (symmetry; apply Nat.leb_gt; lia). rewrite andb_false_r.
    match goal with |- (if ?c then _ else _) = _ => destruct c; reflexivity end. }
  now rewrite X.
Qed.
End P.

(* ---- C60 ---- *)
Local Open Scope Z_scope.

(* Rows and columns of linear indices: in range, and they give back the index. *)
Theorem C60_unravel nr nc idxs : 0 < nc -> (forall i, In i idxs -> 0 <= i < nr * nc) ->
  exists rows cols, unravel_index_2d idxs [nr; nc] = Ok (rows, cols) /\ length rows = length idxs /\ length cols = length idxs /\
    forall k i, nth_error idxs k = Some i -> exists r c, nth_error rows k = Some r /\ nth_error cols k = Some c /\
      0 <= r < nr /\ 0 <= c < nc /\ r * nc + c = i.
Proof.
  intros Hn H. unfold unravel_index_2d. replace (nc =? 0) with false by (symmetry; apply Z.eqb_neq; lia).
  do 2 eexists. split; [reflexivity|]. split; [apply map_length|]. split; [apply map_length|]. intros k i Hk.
  exists (i / nc), (i - i / nc * nc). rewrite !nth_error_map, Hk. cbn [option_map]. split; [reflexivity|]. split; [reflexivity|].
  assert (Hi := H i (nth_error_In _ _ Hk)). assert (D := Z.div_mod i nc ltac:(lia)). assert (M := Z.mod_pos_bound i nc Hn).
  split; [split; [apply Z.div_pos; lia|apply Z.div_lt_upper_bound; lia]|]. lia.
Qed.

(* and the other way round *)
Theorem C60_ravel nr nc rc : 0 < nc -> (forall r c, In (r, c) rc -> 0 <= r < nr /\ 0 <= c < nc) ->
  unravel_index_2d (map (fun p => fst p * nc + snd p) rc) [nr; nc] = Ok (map fst rc, map snd rc).
Proof.
  intros Hn H. unfold unravel_index_2d. replace (nc =? 0) with false by (symmetry; apply Z.eqb_neq; lia). rewrite !map_map.
  assert (G : forall p, In p rc -> (fst p * nc + snd p) / nc = fst p).
  { intros [r c] Hp. destruct (H r c Hp) as [_ Hc]. cbn [fst snd]. rewrite Z.div_add_l by lia. rewrite Z.div_small by exact Hc. lia. }
  do 2 f_equal.
  - apply map_ext_in. exact G.
  - apply map_ext_in. intros p Hp. rewrite (G p Hp). lia.
Qed.

Theorem C60_dimensions idxs shape : length shape <> 2%nat -> unravel_index_2d idxs shape = Err ValueError.
Proof. intros H. destruct shape as [|a [|b [|c r]]]; try reflexivity. now elim H. Qed.
Local Close Scope Z_scope.

(* ---- witnesses ---- *)
Lemma qofn_counts : @counts qc qofn.
Proof.
  split.
  - intros n. induction n as [|n IH]; [reflexivity|]. cbn [sumn]. rewrite <- IH. unfold qofn. cbn [car qc add one].
    unfold Qcplus. apply Qc_is_canon. unfold Q2Qc. unfold this. rewrite !Qred_correct.
    rewrite Nat2Z.inj_succ, <- Z.add_1_r, inject_Z_plus. reflexivity.
  - intros n Hn. unfold qofn. cbn [car qc zer]. intros E. apply (f_equal this) in E. cbn [this Q2Qc] in E.
    assert (Q : (inject_Z (Z.of_nat n) == 0)%Q) by (rewrite <- (Qred_correct (inject_Z (Z.of_nat n))), E; reflexivity).
    unfold Qeq in Q. cbn in Q. lia.
Qed.

Definition qmx (x y : qc) : qc := if Qle_bool (this x) (this y) then y else x.
Definition fr (l : list (list Z)) : arr2 qc := mkA2 (length (nth 0 l [])) (map (map qi) l).
Definition shown2 (r : res (arr2 qc)) : option (list (list Q)) := match r with Ok a => Some (map (map this) (a_rows a)) | Err _ => None end.

(* 4 x 10 pixels to 2 x 5: both factors are 2, and the frame is refused. *)
Theorem C59_wide_refuted : exists (a : arr2 qc) m n, rect a /\ a_r a = (m * 2)%nat /\ a_c a = (n * 2)%nat /\ rebin_mean qc qofn a m n = Err ValueError.
Proof.
  exists (mkA2 10 (repeat (repeat (qi 1) 10) 4)), 2%nat, 5%nat. split; [split; [cbn; lia|intros r Hr; apply repeat_spec in Hr; subst r; reflexivity]|].
  repeat split.
Qed.
(* 5 x 5 pixels binned by 4: one pixel, the mean of all 25. *)
Theorem C66_size_refuted : exists (i : arr2 qc), a_r i = 5%nat /\ a_c i = 5%nat /\
  shown2 (apply_binning qc qofn i 4 1 1) = Some [[this (qf 25 25 : Qc)]] /\ map (map this) (a_rows i) = repeat (repeat (this (qi 1)) 5) 5.
Proof. exists (mkA2 5 (repeat (repeat (qi 1) 5) 5)). repeat split. Qed.
(* Binning does not collect the light of the block: 4 photons become 1. *)
Theorem C66_flux_refuted : exists (i : arr2 qc), this (total qc i) = 4%Q /\
  match apply_binning qc qofn i 2 1 1 with Ok r => this (total qc r) = 1%Q | Err _ => False end.
Proof. exists (fr [[1; 1]; [1; 1]]%Z). split; vm_compute; reflexivity. Qed.
(* Resampling 4 x 4 pixels to 1 x 2 fails. *)
Theorem C72_wide_refuted : exists (a : arr2 qc) m n, a_r a = 4%nat /\ a_c a = 4%nat /\ (0 < m)%nat /\ (0 < n)%nat /\
  toccd qc qofn qmx (qf 1 1000) a m n None = Err ValueError.
Proof. exists (mkA2 4 (repeat (repeat (qi 1) 4) 4)), 1%nat, 2%nat. repeat split; try lia; vm_compute; reflexivity. Qed.

Example C59_example : shown2 (rebin_mean qc qofn (fr [[1; 3; 5; 7]; [1; 3; 5; 7]]%Z) 1 2) = Some [[2%Q; 6%Q]].
Proof. vm_compute. reflexivity. Qed.
Example C72_example : shown2 (toccd qc qofn qmx (qf 1 1000) (fr [[4; 0; 2]; [0; 0; 0]; [2; 0; 1]]%Z) 2 2 None) = Some [[4%Q; 2%Q]; [2%Q; 1%Q]].
Proof. vm_compute. reflexivity. Qed.
Example C60_example : unravel_index_2d [0; 5; 7; 11]%Z [3; 4]%Z = Ok ([0; 1; 1; 2], [0; 1; 3; 3])%Z.
Proof. reflexivity. Qed.
Example C66_example : shown2 (apply_binning qc qofn (fr [[1; 2; 3; 4]; [5; 6; 7; 8]; [0; 0; 0; 0]; [4; 4; 4; 4]]%Z) 2 2 2) = Some [[this (qf 7 2); this (qf 11 2)]; [2%Q; 2%Q]].
Proof. vm_compute. reflexivity. Qed.

Print Assumptions C59_blocks.
Print Assumptions C59_mean.
Print Assumptions C59_refused.
Print Assumptions C59_accepted.
Print Assumptions C59_sample.
Print Assumptions C59_sample_then_mean.
Print Assumptions C66_binning.
Print Assumptions C66_no_binning.
Print Assumptions C66_wide.
Print Assumptions C72_area.
Print Assumptions C72_square.
Print Assumptions C72_refused.
Print Assumptions C60_unravel.
Print Assumptions C60_ravel.
Print Assumptions C60_dimensions.
Print Assumptions C59_wide_refuted.
Print Assumptions C66_size_refuted.
Print Assumptions C66_flux_refuted.
Print Assumptions C72_wide_refuted.
