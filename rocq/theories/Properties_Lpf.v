(* Properties of low-pass filters. *)
From Coq Require Import List ZArith Bool Arith Lia QArith Qcanon Lqa.
From Verif Require Import PyBase PyLemmas OpticalModel InterpModel ExtModel QcTac LpfModel.
Import ListNotations.
Local Open Scope Qc_scope.
Local Strategy 100 [qlt Qcdiv Qcinv Qcmult Qcplus Q2Qc].

(* ---------------------------------------------------------------- polynomials *)
(* the value of a polynomial, lowest power first *)
Fixpoint value (l : list Qc) (x : Qc) : Qc := match l with [] => 0 | a :: r => a + x * value r x end.
Lemma value_padd : forall a b x, value (padd a b) x = value a x + value b x.
Proof. induction a as [|p a IH]; intros [|q b] x; cbn [padd value]; try ring. rewrite IH. ring. Qed.
Lemma value_scale : forall k b x, value (map (fun y => k * y) b) x = k * value b x.
Proof. induction b as [|q b IH]; intros x; cbn [map value]; [ring|]. rewrite IH. ring. Qed.
Lemma value_conv : forall a b x, value (conv a b) x = value a x * value b x.
Proof. induction a as [|p a IH]; intros b x; cbn [conv]; [cbn [value]; ring|]. rewrite value_padd, value_scale. cbn [value]. rewrite IH. ring. Qed.
Lemma value_zeros : forall k l x, value (repeat 0 k ++ l) x = Qcpower x k * value l x.
Proof. induction k as [|k IH]; intros l x; cbn [repeat app value Qcpower]; [ring|]. rewrite IH. ring. Qed.
Lemma padd_length : forall a b, length (padd a b) = Nat.max (length a) (length b).
Proof. induction a as [|p a IH]; intros [|q b]; cbn [padd length]; try reflexivity. now rewrite IH. Qed.
Lemma conv_length : forall b, b <> [] -> forall a, a <> [] -> length (conv a b) = (length a + length b - 1)%nat.
Proof.
  intros b Hb. assert (B : (0 < length b)%nat) by (destruct b; [contradiction|cbn; lia]).
  induction a as [|p a IH]; intros Ha; [contradiction|]. cbn [conv]. rewrite padd_length, map_length. cbn [length]. destruct a as [|q a]; [cbn [conv length]; lia|].
  rewrite IH by discriminate. cbn [length]. lia.
Qed.
Lemma power_1 : forall k, Qcpower 1 k = 1.
Proof. induction k as [|k IH]; [reflexivity|]. cbn [Qcpower]. rewrite IH. ring. Qed.
Lemma two_plus : two = 1 + 1.
Proof. apply Qc_is_canon. reflexivity. Qed.
Lemma two_nz : two <> 0. Proof. discriminate. Qed.
Lemma map_res_in : forall {X Y} (f : X -> res Y) l r y, map_res f l = Ok r -> In y r -> exists x, In x l /\ f x = Ok y.
Proof.
  intros X Y f. induction l as [|x l IH]; intros r y H Hy; cbn [map_res] in H; [injection H as <-; destruct Hy|].
  inv_bind H. inv_bind H. injection H as <-. destruct Hy as [<-|Hy]; [exists x; split; [now left|assumption]|].
  match goal with K : map_res f l = Ok _ |- _ => destruct (IH _ _ K Hy) as (x' & I & F) end. exists x'. split; [now right|exact F].
Qed.

Section Props.
Context (tanpi sin2pi cos2pi : Qc -> Qc) (pole : Z -> nat -> Qc).
Notation lpf_from_fc := (lpf_from_fc tanpi pole).
Notation lpf_from_fc_and_ampl := (lpf_from_fc_and_ampl sin2pi cos2pi).
Notation low_pass := (low_pass tanpi sin2pi cos2pi pole).
Notation butterworth := (butterworth pole).

(* ---------------------------------------------------------------- refused *)
Theorem C126_refused : forall t fc a o, t <> 0 ->
  (forall n, a <> None -> o = Some n -> low_pass t fc a o = Err ValueError) /\
  (forall n, a = None -> o = Some n -> n <> 1%Z -> (n < 0 \/ n mod 2 = 1)%Z -> low_pass t fc a o = Err ValueError) /\
  (forall n f, a = None -> o = Some n -> In f fc -> 1 / t / two <= f -> low_pass t fc a o = Err ValueError) /\
  (forall l f, a = Some l -> o = None -> In f fc -> length l = length fc \/ length l = 1%nat -> 1 / t / two <= f -> low_pass t fc a o = Err ValueError) /\
  (forall l, a = Some l -> o = None -> length l <> length fc -> length l <> 1%nat -> low_pass t fc a o = Err ValueError).
Proof.
  intros t fc a o T. unfold LpfModel.low_pass. replace (is0 t) with false by (unfold is0; destruct (Qc_eq_dec t 0); [contradiction|reflexivity]).
  assert (M : forall {X Y} (g : X -> res Y) l x, (forall y e, g y = Err e -> e = ValueError) -> In x l -> g x = Err ValueError -> map_res g l = Err ValueError).
  { intros X Y g l x K. induction l as [|y l IH]; intros I G; [destruct I|]. cbn [map_res]. destruct I as [->|I]; [now rewrite G|].
    destruct (g y) as [v|e] eqn:Ey; cbn [bind]; [now rewrite IH|]. now rewrite (K _ _ Ey). }
  split; [|split; [|split; [|split]]].
  - intros n A ->. destruct a as [l|]; [reflexivity|contradiction].
  - intros n -> -> N1 N. unfold LpfModel.lpf_from_fc. rewrite (proj2 (Z.eqb_neq n 1) N1). cbn [negb andb]. destruct (Z.eqb_spec (n mod 2) 0) as [Z|Z]; [|reflexivity]. cbn [negb].
    destruct N as [N|N]; [|lia]. cbv zeta. destruct (Z.ltb_spec (2 * n + 1) 0); [reflexivity|lia].
  - intros n f -> -> I F. unfold LpfModel.lpf_from_fc. destruct (_ && _); [reflexivity|]. cbv zeta. set (w := if (n =? 1)%Z then _ else _). destruct (w <? 0)%Z; [reflexivity|].
    apply (M _ _ _ _ f); [|exact I|].
    + intros y e. destruct (qlt y _); [|congruence]. unfold placed. destruct (_ <? _)%nat; congruence.
    + now replace (qlt f (1 / t / two)) with false by (symmetry; now apply qlt_false).
  - intros l f -> -> I L F. unfold LpfModel.lpf_from_fc_and_ampl.
    assert (A : exists amp, (if (length l =? length fc)%nat then Ok l else match l with [x] => Ok (repeat x (length fc)) | _ => Err ValueError end) = Ok amp /\ length amp = length fc).
    { destruct (Nat.eqb_spec (length l) (length fc)) as [E|E]; [now exists l|]. destruct L as [L|L]; [contradiction|]. destruct l as [|x [|y l]]; try discriminate L. exists (repeat x (length fc)). split; [reflexivity|apply repeat_length]. }
    destruct A as (amp & -> & La). cbn [bind]. destruct (In_nth _ _ f I) as (i & Hi & Ei).
    apply (M _ _ _ _ (f, nth i amp 0)).
    + intros y e. destruct (qlt (fst y) _); congruence.
    + rewrite <- Ei at 1. rewrite <- combine_nth by congruence. apply nth_In. rewrite combine_length. lia.
    + cbn [fst]. now replace (qlt f (1 / t / two)) with false by (symmetry; now apply qlt_false).
  - intros l -> -> N1 N2. unfold LpfModel.lpf_from_fc_and_ampl. rewrite (proj2 (Nat.eqb_neq _ _) N1). destruct l as [|x [|y l]]; try reflexivity. contradiction.
Qed.

(* ---------------------------------------------------------------- one filter *)
Definition orders (n : Z) : Prop := n = 1%Z \/ ((0 <= n)%Z /\ (n mod 2 = 0)%Z).
(* a section of order two: in the triangle where both poles are inside the unit circle *)
Definition inside (d : list Qc) : Prop := exists b2 b1, d = [b2; b1; 1] /\ - (1) < b2 /\ b2 < 1 /\ - (1 + b2) < b1 /\ b1 < 1 + b2.
Definition product (ds : list (list Qc)) : list Qc := fold_left conv ds [1].

Lemma ck_pos : forall omega c, c * c < 1 -> 0 < 1 + two * c * omega + omega * omega.
Proof.
  intros omega c H. rewrite two_plus. replace (1 + (1 + 1) * c * omega + omega * omega) with ((omega + c) * (omega + c) + (1 - c * c)) by ring.
  assert (S : 0 <= (omega + c) * (omega + c)) by (unfold Qcle; rewrite this_mul; change (this 0) with 0%Q; nra). set (s := (omega + c) * (omega + c)) in *. set (q := c * c) in *. clearbody s q. qclra.
Qed.
Lemma pos_nz : forall x : Qc, 0 < x -> x <> 0.
Proof. intros x H ->. exact (Qclt_not_eq _ _ H eq_refl). Qed.
Lemma section_gain : forall omega c, c * c < 1 -> value (section_num omega c) 1 = value (section_den omega c) 1.
Proof.
  intros omega c H. assert (P := pos_nz _ (ck_pos omega c H)). unfold section_num, section_den. cbv zeta. cbn [value]. revert P. rewrite two_plus. intros P. field. exact P.
Qed.
Lemma section_nyquist : forall omega c, value (section_num omega c) (- (1)) = 0.
Proof. intros omega c. unfold section_num. cbv zeta. cbn [value]. rewrite two_plus. ring. Qed.

Lemma butter_fold : forall n omega m, let nd := fold_left (fun nd k => (conv (fst nd) (section_num omega (pole n k)), conv (snd nd) (section_den omega (pole n k)))) (seq 0 m) ([1], [1]) in
  length (fst nd) = (2 * m + 1)%nat /\ length (snd nd) = (2 * m + 1)%nat /\ snd nd = product (map (fun k => section_den omega (pole n k)) (seq 0 m)) /\
  ((forall k, pole n k * pole n k < 1) -> value (fst nd) 1 = value (snd nd) 1) /\ ((0 < m)%nat -> value (fst nd) (- (1)) = 0).
Proof.
  intros n omega. induction m as [|m IH].
  - cbn [seq fold_left fst snd map]. repeat split; lia.
  - rewrite seq_S, fold_left_app. cbn [plus fold_left]. cbv zeta in IH |- *. set (nd := fold_left _ (seq 0 m) _) in *. destruct IH as (L1 & L2 & P & G & N). cbn [fst snd].
    assert (F : fst nd <> []) by (intros E; rewrite E in L1; cbn in L1; lia). assert (S : snd nd <> []) by (intros E; rewrite E in L2; cbn in L2; lia).
    split; [rewrite conv_length by (try discriminate; exact F); rewrite L1; cbn [length section_num]; cbv zeta; cbn [length]; lia|].
    split; [rewrite conv_length by (try discriminate; exact S); rewrite L2; cbn [length section_den]; cbv zeta; cbn [length]; lia|].
    split; [rewrite map_app; unfold product; rewrite fold_left_app; cbn [map fold_left]; rewrite P; reflexivity|].
    split.
    + intros C. rewrite !value_conv, (G C), section_gain by apply C. reflexivity.
    + intros _. rewrite value_conv, section_nyquist. ring.
Qed.

(* for each frequency one row: order + 1 coefficients after zeros; the gain at frequency zero is one, and for even orders
   nothing of the highest frequency is left *)
Theorem C126_rows : forall fc fs n rows, orders n -> lpf_from_fc fc fs (Some n) = Ok rows -> forall r, In r rows -> exists f num den, In f fc /\ f < fs / two /\
  (num, den) = butterworth n (tanpi (f / fs)) /\ length num = S (Z.to_nat n) /\ length den = S (Z.to_nat n) /\ r_ord r = S (Z.to_nat n) /\
  (exists k, r_num r = repeat 0 k ++ num /\ r_den r = repeat 0 k ++ den /\ length (r_num r) = (if (n =? 1)%Z then 2 else 2 * Z.to_nat n + 1)%nat) /\
  ((forall k, pole n k * pole n k < 1) -> tanpi (f / fs) <> - (1) -> value (r_num r) 1 = value (r_den r) 1) /\ ((2 <= n)%Z -> value (r_num r) (- (1)) = 0).
Proof.
  intros fc fs n rows O H r Hr. unfold LpfModel.lpf_from_fc in H. destruct (_ && _) eqn:B in H; [discriminate|]. cbv zeta in H. set (w := if (n =? 1)%Z then 2%Z else (2 * n + 1)%Z) in H. destruct (w <? 0)%Z; [discriminate|].
  destruct (map_res_in _ _ _ _ H Hr) as (f & If & Ef). clear H Hr B. destruct (qlt f (fs / two)) eqn:Q; [|discriminate]. apply qlt_true in Q. exists f. set (om := tanpi (f / fs)) in *. clearbody om.
  assert (L : length (fst (butterworth n om)) = S (Z.to_nat n) /\ length (snd (butterworth n om)) = S (Z.to_nat n) /\
    ((forall k, pole n k * pole n k < 1) -> om <> - (1) -> value (fst (butterworth n om)) 1 = value (snd (butterworth n om)) 1) /\ ((2 <= n)%Z -> value (fst (butterworth n om)) (- (1)) = 0)).
  { unfold LpfModel.butterworth. destruct (Z.eqb_spec n 1) as [->|N1].
    - cbv zeta. cbn [fst snd length]. repeat split; [|lia]. intros _ NM. cbn [value]. field. intros Z. apply NM. assert (Z' : 1 + om = 0) by exact Z. transitivity (1 + om - 1); [ring|]. rewrite Z'. ring.
    - destruct O as [O|[O1 O2]]; [contradiction|]. destruct (butter_fold n om (Z.to_nat (n / 2))) as (L1 & L2 & _ & G & N).
      assert (E : (2 * Z.to_nat (n / 2) + 1 = S (Z.to_nat n))%nat) by (pose proof (Z.div_mod n 2); lia). rewrite E in L1, L2. split; [exact L1|]. split; [exact L2|]. split; [intros C _; now apply G|]. intros N2. apply N. pose proof (Z.div_mod n 2). lia. }
  destruct (butterworth n om) as [num den] eqn:EB. cbn [fst snd] in L. destruct L as (L1 & L2 & G & N). exists num, den. unfold placed in Ef. cbn [fst snd] in Ef. destruct (_ <? _)%nat eqn:B in Ef; [discriminate|].
  apply Nat.ltb_ge in B. assert (ER : r = mkRow (padded (Z.to_nat w) num) (padded (Z.to_nat w) den) (length num)) by congruence. clear Ef. rewrite ER. clear ER r. cbn [r_num r_den r_ord]. unfold padded.
  split; [exact If|]. split; [exact Q|]. split; [reflexivity|]. split; [exact L1|]. split; [exact L2|]. split; [exact L1|]. split.
  - exists (Z.to_nat w - length num)%nat. split; [reflexivity|]. rewrite L1, L2. split; [reflexivity|]. rewrite app_length, repeat_length, L1. rewrite L1 in B. unfold w in *.
    destruct (Z.eqb_spec n 1) as [->|N1]; [reflexivity|]. destruct O as [O|[O1 O2]]; [contradiction|]. lia.
  - rewrite L1, L2. split.
    + intros C NM. rewrite !value_zeros, (G C NM). reflexivity.
    + intros N2. rewrite value_zeros, (N N2). ring.
Qed.

(* for positive frequencies the filter is stable: the pole of order one is between 0 and 1, and even orders are products of
   sections with their poles inside the unit circle *)
Theorem C126_stable : forall n omega, orders n -> 0 < omega -> (forall k, (k < Z.to_nat (n / 2))%nat -> 0 < pole n k /\ pole n k < 1) ->
  (n = 1%Z -> exists p, snd (butterworth n omega) = [- p; 1] /\ 0 < p /\ p < 1) /\
  (n <> 1%Z -> exists ds, snd (butterworth n omega) = product ds /\ length ds = Z.to_nat (n / 2) /\ forall d, In d ds -> inside d).
Proof.
  intros n om O P C. split.
  - intros ->. exists (1 - om / (1 + om)). unfold LpfModel.butterworth. cbn [Z.eqb Pos.eqb snd]. split; [reflexivity|].
    assert (D : 0 < 1 + om) by qclra. assert (E : 1 - om / (1 + om) = / (1 + om)) by (field; now apply pos_nz). rewrite E.
    assert (I : / (1 + om) * (1 + om) = 1) by (apply Qcmult_inv_l; now apply pos_nz). set (i := / (1 + om)) in *. clearbody i.
    assert (J : (this i * (1 + this om) == 1)%Q) by (transitivity (this (i * (1 + om))); [rewrite this_mul, this_add; reflexivity|rewrite I; reflexivity]).
    clear E I D. unfold Qclt in *. change (this 1) with 1%Q in *. change (this 0) with 0%Q in *. split; nra.
  - intros N1. exists (map (fun k => section_den om (pole n k)) (seq 0 (Z.to_nat (n / 2)))). unfold LpfModel.butterworth. rewrite (proj2 (Z.eqb_neq _ _) N1).
    split; [apply (butter_fold n om)|]. split; [now rewrite map_length, seq_length|]. intros d Hd. apply in_map_iff in Hd. destruct Hd as (k & <- & Hk). apply in_seq in Hk.
    destruct (C k ltac:(lia)) as [C0 C1]. set (c := pole n k) in *. clearbody c. unfold section_den. cbv zeta. eexists _, _. split; [reflexivity|].
    assert (K : 0 < 1 + two * c * om + om * om).
    { rewrite two_plus. unfold Qclt in *. rewrite ?this_add, ?this_mul, ?this_add. change (this 1) with 1%Q in *. change (this 0) with 0%Q in *. nra. }
    assert (KN := pos_nz _ K).
    assert (LT : forall a b, a < b * (1 + two * c * om + om * om) -> a / (1 + two * c * om + om * om) < b).
    { intros a b L. apply Qcnot_le_lt. intros N. apply (Qcmult_le_compat_r _ _ (1 + two * c * om + om * om)) in N; [|now apply Qclt_le_weak]. replace (a / (1 + two * c * om + om * om) * (1 + two * c * om + om * om)) with a in N by (field; exact KN). exact (Qclt_not_le _ _ L N). }
    assert (GT : forall a b, b * (1 + two * c * om + om * om) < a -> b < a / (1 + two * c * om + om * om)).
    { intros a b L. apply Qcnot_le_lt. intros N. apply (Qcmult_le_compat_r _ _ (1 + two * c * om + om * om)) in N; [|now apply Qclt_le_weak]. replace (a / (1 + two * c * om + om * om) * (1 + two * c * om + om * om)) with a in N by (field; exact KN). exact (Qclt_not_le _ _ L N). }
    assert (OC : 0 < om * c) by (unfold Qclt in *; rewrite this_mul; change (this 0) with 0%Q in *; nra). assert (OO : 0 < om * om) by (unfold Qclt in *; rewrite this_mul; change (this 0) with 0%Q in *; nra).
    assert (S1 : 1 + (1 - two * c * om + om * om) / (1 + two * c * om + om * om) = (two * (1 + om * om)) / (1 + two * c * om + om * om)) by (revert KN; rewrite two_plus; intros KN; field; exact KN).
    rewrite S1. assert (S2 : - (two * (1 + om * om) / (1 + two * c * om + om * om)) = (- (two * (1 + om * om))) / (1 + two * c * om + om * om)) by (field; exact KN). rewrite S2.
    assert (DD : forall a b, a < b -> a / (1 + two * c * om + om * om) < b / (1 + two * c * om + om * om)).
    { intros a b L. apply LT. replace (b / (1 + two * c * om + om * om) * (1 + two * c * om + om * om)) with b by (field; exact KN). exact L. }
    clear S1 S2 KN. rewrite two_plus in *. replace ((1 + 1) * c * om) with (om * c + om * c) in * by ring. replace ((1 + 1) * (1 + om * om)) with (1 + 1 + om * om + om * om) by ring. replace ((1 + 1) * (om * om - 1)) with (om * om + om * om - 1 - 1) by ring.
    split; [apply GT|split; [apply LT|split; [apply DD|apply DD]]]; set (oc := om * c) in *; set (oo := om * om) in *; clearbody oc oo; clear LT GT DD.
    + replace (- (1) * (1 + (oc + oc) + oo)) with (- (1 + (oc + oc) + oo)) by ring. qclra.
    + rewrite Qcmult_1_l. qclra.
    + qclra.
    + qclra.
Qed.

(* with an amplification: one row for each frequency, gain one at frequency zero, nothing of the highest frequency *)
Theorem C126_resonant : forall fc ampl fs rows, lpf_from_fc_and_ampl fc ampl fs = Ok rows -> length rows = length fc /\
  forall r, In r rows -> exists f a, In f fc /\ In a ampl /\ f < fs / two /\ length (r_num r) = 3%nat /\ length (r_den r) = 3%nat /\ r_ord r = 3%nat /\
  (sin2pi (f / fs) / (two * a) <> - (1) -> value (r_num r) 1 = value (r_den r) 1) /\ value (r_num r) (- (1)) = 0.
Proof.
  intros fc ampl fs rows H. unfold LpfModel.lpf_from_fc_and_ampl in H. inv_bind H.
  assert (A : length a = length fc /\ forall x, In x a -> In x ampl).
  { destruct (Nat.eqb_spec (length ampl) (length fc)) as [L|L]; [injection E as <-; tauto|]. destruct ampl as [|x [|y ampl]]; try discriminate. injection E as <-. split; [apply repeat_length|]. intros y Hy. left. symmetry. exact (repeat_spec _ _ _ Hy). }
  destruct A as [La Ia]. split.
  - assert (L : forall X Y (g : X -> res Y) l ys, map_res g l = Ok ys -> length ys = length l).
    { intros X Y g. induction l as [|x l IH]; intros ys K; cbn [map_res] in K; [now injection K as <-|]. inv_bind K. inv_bind K. injection K as <-. cbn [length]. f_equal. now apply IH. }
    rewrite (L _ _ _ _ _ H), combine_length. lia.
  - intros r Hr. destruct (map_res_in _ _ _ _ H Hr) as ((f, x) & I & F). cbn [fst snd] in F. destruct (qlt f (fs / two)) eqn:Q; [|discriminate]. apply qlt_true in Q. assert (ER : r = resonant sin2pi cos2pi f fs x) by congruence. rewrite ER.
    exists f, x. split; [exact (in_combine_l _ _ _ _ I)|]. split; [apply Ia; exact (in_combine_r _ _ _ _ I)|]. split; [exact Q|]. unfold resonant. cbv zeta. cbn [r_num r_den r_ord length value].
    repeat split.
    + intros NM. set (al := sin2pi (f / fs) / (two * x)) in *. clearbody al. rewrite two_plus. field. split; [|discriminate]. intros Z. apply NM. assert (Z' : 1 + al = 0) by exact Z. transitivity (1 + al - 1); [ring|]. rewrite Z'. ring.
    + set (b := 1 + sin2pi (f / fs) / (two * x)). clearbody b. rewrite two_plus. unfold Qcdiv. set (i := / b). clearbody i. assert (W : / (1 + 1) + / (1 + 1) = 1) by (apply Qc_is_canon; reflexivity). set (h := / (1 + 1)) in *. clearbody h. set (c := cos2pi _). clearbody c.
      replace ((1 - c) * h * i + - (1) * ((1 - c) * i + - (1) * ((1 - c) * h * i + - (1) * 0))) with ((1 - c) * i * (h + h - 1)) by ring. rewrite W. ring.
Qed.
End Props.
Print Assumptions C126_refused.
Print Assumptions C126_rows.
Print Assumptions C126_stable.
Print Assumptions C126_resonant.

(* ---------------------------------------------------------------- concrete cases *)
(* the cosine of a section of order two is about 7/10; the tangent is taken as the frequency itself *)
Definition ex_pass := low_pass (fun x => x) (fun _ => 1) (fun _ => 0) (fun _ _ => Q2Qc (7 # 10)).
Definition show (r : res (list row)) : res (list (list Q * list Q * nat)) := x <- r ;; Ok (map (fun w => (map this (r_num w), map this (r_den w), r_ord w)) x).
Example C126_first_order_example : show (ex_pass 1 [Q2Qc (1 # 4)] None (Some 1%Z)) = Ok [([0; 1 # 5], [-4 # 5; 1], 2%nat)]%Q.
Proof. vm_compute. reflexivity. Qed.
Example C126_rows_example : show (ex_pass 1 [Q2Qc (1 # 5)] None (Some 2%Z)) = Ok [([0; 0; 1 # 33; 2 # 33; 1 # 33], [0; 0; 19 # 33; -16 # 11; 1], 3%nat)]%Q.
Proof. vm_compute. reflexivity. Qed.
Example C126_resonant_example : show (ex_pass 1 [Q2Qc (1 # 5); Q2Qc (1 # 4)] (Some [1]) None) = Ok [([1 # 3; 2 # 3; 1 # 3], [1 # 3; 0; 1], 3%nat); ([1 # 3; 2 # 3; 1 # 3], [1 # 3; 0; 1], 3%nat)]%Q.
Proof. vm_compute. reflexivity. Qed.
Example C126_refused_example : ex_pass 1 [Q2Qc (1 # 2)] None (Some 2%Z) = Err ValueError /\ ex_pass 1 [Q2Qc (1 # 4)] None (Some 3%Z) = Err ValueError /\ ex_pass 1 [Q2Qc (1 # 4)] (Some [1]) (Some 2%Z) = Err ValueError.
Proof. repeat split; vm_compute; reflexivity. Qed.

(* A low-pass filter with the default order and without an amplification cannot be made. *)
Theorem C126_default_refuted : exists t fc, t <> 0 /\ fc <> [] /\ (forall f, In f fc -> 0 < f /\ f < 1 / t / two) /\ forall tan s c p, low_pass tan s c p t fc None None = Err TypeError.
Proof.
  exists 1, [Q2Qc (1 # 4)]. split; [discriminate|]. split; [discriminate|]. split.
  - intros f [<-|[]]. split; reflexivity.
  - intros tan s c p. unfold low_pass. replace (is0 1) with false by reflexivity. reflexivity.
Qed.
Print Assumptions C126_default_refuted.
(* A negative frequency is accepted, and the filter is not stable: its pole is outside the unit circle. *)
Theorem C126_negative_refuted : exists f r p, f < 0 /\ ex_pass 1 [f] None (Some 1%Z) = Ok [r] /\ value (r_den r) p = 0 /\ 1 < p.
Proof.
  exists (Q2Qc (-1 # 4)). eexists. exists (Q2Qc (4 # 3)). split; [reflexivity|]. split; [vm_compute; reflexivity|]. split; [apply Qc_is_canon; vm_compute; reflexivity|reflexivity].
Qed.
Print Assumptions C126_negative_refuted.
