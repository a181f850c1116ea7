(* Properties of the refractive index of air. *)
From Coq Require Import List ZArith Bool Arith Lia QArith Qcanon Lqa.
From Verif Require Import PyBase PyLemmas OpticalModel QcTac AirModel.
Import ListNotations.
Local Open Scope Qc_scope.
Local Strategy 100 [qlt Qcdiv Qcinv Qcmult Qcplus Q2Qc].

Lemma pos_nz : forall x : Qc, 0 < x -> x <> 0.
Proof. intros x H ->. exact (Qclt_not_eq _ _ H eq_refl). Qed.
Lemma inv_pos : forall x : Qc, 0 < x -> 0 < / x.
Proof.
  intros x H. apply Qcnot_le_lt. intros L. assert (E : / x * x = 1) by (apply Qcmult_inv_l; now apply pos_nz).
  apply (Qcmult_le_compat_r _ _ x) in L; [|now apply Qclt_le_weak]. rewrite E, Qcmult_0_l in L. now apply L.
Qed.
Lemma inv_lt : forall x y : Qc, 0 < x -> x < y -> / y < / x.
Proof.
  intros x y H L. assert (HY : 0 < y) by (now apply (Qclt_trans _ x)). assert (A := inv_pos _ H). assert (B := inv_pos _ HY).
  assert (C : x * (/ x * / y) < y * (/ x * / y)) by (apply Qcmult_lt_compat_r; [|exact L]; rewrite <- (Qcmult_0_l (/ y)); now apply Qcmult_lt_compat_r).
  replace (x * (/ x * / y)) with (/ y) in C by (field; split; now apply pos_nz). replace (y * (/ x * / y)) with (/ x) in C by (field; split; now apply pos_nz). exact C.
Qed.
Lemma mul_pos : forall x y : Qc, 0 < x -> 0 < y -> 0 < x * y.
Proof. intros x y X Y. rewrite <- (Qcmult_0_l y). now apply Qcmult_lt_compat_r. Qed.
Lemma mul_lt : forall x y z : Qc, 0 < z -> x < y -> z * x < z * y.
Proof. intros x y z Z H. rewrite !(Qcmult_comm z). now apply Qcmult_lt_compat_r. Qed.

Section Props.
Context (svp : Qc -> Qc) (coeff : band -> nat -> nat -> Qc).
Notation index_at := (index_at svp coeff).
Notation get_refractive_index := (get_refractive_index svp coeff).

(* each wavelength gets its own value, in order; a single one gives a number, none an error *)
Theorem C128_shape : forall wvls t p h,
  (wvls = [] -> get_refractive_index wvls t p h = Err IndexError) /\
  (forall w, wvls = [w] -> exists x, get_refractive_index wvls t p h = Ok (Number x)) /\
  ((2 <= length wvls)%nat -> exists l, get_refractive_index wvls t p h = Ok (Vector l) /\ length l = length wvls /\
     forall i w x, nth_error wvls i = Some w -> nth_error l i = Some x -> get_refractive_index [w] t p h = Ok (Number x)).
Proof.
  intros wvls t p h. unfold AirModel.get_refractive_index. split; [intros ->; reflexivity|]. split; [intros w ->; now eexists|]. intros L.
  destruct wvls as [|a [|b r]]; cbn [length] in L; try lia. exists (map (index_at t p h) (a :: b :: r)). split; [reflexivity|]. split; [apply map_length|].
  intros i w x Hw Hx. rewrite nth_error_map, Hw in Hx. cbn in Hx. injection Hx as <-. reflexivity.
Qed.

(* dry air below 1.3 micrometres: proportional to the pressure and to the inverse of the absolute temperature *)
Lemma dry_index : forall t p w, kelvin t <> 0 -> w * q 1000000 1 < q 13 10 -> index_at t p 0 w = p / q 101325 1 * (q 28815 100 / kelvin t) * dry (w * q 1000000 1).
Proof.
  intros t p w T W. unfold AirModel.index_at. cbv zeta. replace (qlt (w * q 1000000 1) (q 13 10)) with true by (symmetry; now apply qlt_true). unfold ciddor. cbv zeta.
  set (d := dry _). set (v := water _). set (f := _ + q 56 100000000 * sq t). set (s := svp _). set (k := kelvin t) in *. clearbody d v f s k. field. repeat split; first [exact T | discriminate].
Qed.
Theorem C128_ideal_gas : forall t p t' p' w, kelvin t <> 0 -> kelvin t' <> 0 -> w * q 1000000 1 < q 13 10 ->
  index_at t p 0 w * kelvin t * p' = index_at t' p' 0 w * kelvin t' * p.
Proof.
  intros t p t' p' w T T' W. rewrite !dry_index by assumption. set (d := dry _). set (k := kelvin t) in *. set (k' := kelvin t') in *. clearbody d k k'. field. repeat split; first [assumption | discriminate].
Qed.
(* at 15 degrees and 101325 Pa it is the refractivity of standard air *)
Theorem C128_standard : forall w, w * q 1000000 1 < q 13 10 -> index_at (q 15 1) (q 101325 1) 0 w = dry (w * q 1000000 1).
Proof.
  intros w W. assert (KT : kelvin (q 15 1) = q 28815 100) by (apply Qc_is_canon; reflexivity). assert (KN : q 28815 100 <> 0) by discriminate. rewrite dry_index by (rewrite ?KT; assumption). rewrite KT. set (d := dry _). clearbody d.
  set (a := q 101325 1). set (b := q 28815 100) in *. assert (A : a <> 0) by discriminate. clearbody a b. field. split; assumption.
Qed.
(* humidity acts linearly *)
Theorem C128_humidity : forall t p h h' a w, kelvin t <> 0 -> w * q 1000000 1 < q 13 10 ->
  index_at t p (a * h + (1 - a) * h') w = a * index_at t p h w + (1 - a) * index_at t p h' w.
Proof.
  intros t p h h' a w T W. unfold AirModel.index_at. cbv zeta. replace (qlt (w * q 1000000 1) (q 13 10)) with true by (symmetry; now apply qlt_true). unfold ciddor. cbv zeta.
  set (d := dry _). set (v := water _). set (f := _ + q 56 100000000 * sq t). set (s := svp _). set (k := kelvin t) in *. clearbody d v f s k.
  unfold Qcdiv. set (c1 := / q 100 1). set (c2 := / q 101325 1). set (c3 := q 28815 100 * / k). set (c4 := / q 1333 1). set (c5 := q 29315 100 * / k). clearbody c1 c2 c3 c4 c5. ring.
Qed.

(* from 0.2 micrometres: positive, and smaller for longer wavelengths *)
Lemma dispersion : forall s s' : Qc, s < s' -> s' <= q 25 1 -> 0 < q 5792105 1 / (q 2380185 10000 - s) + q 167917 1 / (q 57362 1000 - s) /\
  q 5792105 1 / (q 2380185 10000 - s) + q 167917 1 / (q 57362 1000 - s) < q 5792105 1 / (q 2380185 10000 - s') + q 167917 1 / (q 57362 1000 - s').
Proof.
  intros s s' H B. assert (B1 : q 25 1 < q 2380185 10000) by reflexivity. assert (B2 : q 25 1 < q 57362 1000) by reflexivity.
  assert (C1 : 0 < q 5792105 1) by reflexivity. assert (C2 : 0 < q 167917 1) by reflexivity.
  set (k0 := q 2380185 10000) in *. set (k2 := q 57362 1000) in *. set (k1 := q 5792105 1) in *. set (k3 := q 167917 1) in *. set (m := q 25 1) in *. clearbody k0 k1 k2 k3 m.
  assert (P0 : 0 < k0 - s') by qclra. assert (P2 : 0 < k2 - s') by qclra. assert (Q0 : k0 - s' < k0 - s) by qclra. assert (Q2 : k2 - s' < k2 - s) by qclra.
  assert (I0 := inv_lt _ _ P0 Q0). assert (I2 := inv_lt _ _ P2 Q2).
  assert (R0 : 0 < k0 - s) by qclra. assert (R2 : 0 < k2 - s) by qclra. apply inv_pos in R0. apply inv_pos in R2.
  assert (M0 := mul_lt _ _ _ C1 I0). assert (M2 := mul_lt _ _ _ C2 I2). assert (N0 := mul_pos _ _ C1 R0). assert (N2 := mul_pos _ _ C2 R2). unfold Qcdiv.
  set (a := k1 * / (k0 - s)) in *. set (b := k3 * / (k2 - s)) in *. set (a' := k1 * / (k0 - s')) in *. set (b' := k3 * / (k2 - s')) in *. clearbody a b a' b'. split; qclra.
Qed.
Lemma dry_falls : forall w w', q 2 10 <= w -> w < w' -> 0 < dry w' /\ dry w' < dry w.
Proof.
  intros w w' H L. assert (P2 : 0 < q 2 10) by reflexivity. assert (P : 0 < w) by (now apply (Qclt_le_trans _ (q 2 10))). assert (P' : 0 < w') by (now apply (Qclt_trans _ w)).
  assert (I := inv_lt _ _ P L). assert (J := inv_pos _ P'). assert (U : / w <= q 5 1).
  { destruct (Qcle_lt_or_eq _ _ H) as [X|X]; [|rewrite <- X; discriminate]. apply Qclt_le_weak. replace (q 5 1) with (/ q 2 10) by (apply Qc_is_canon; reflexivity). now apply inv_lt. }
  assert (S1 : sq (1 / w') < sq (1 / w)).
  { unfold sq, Qcdiv. rewrite !Qcmult_1_l. apply (Qclt_trans _ (/ w' * / w)); [now apply mul_lt|]. apply Qcmult_lt_compat_r; [now apply inv_pos|exact I]. }
  assert (S2 : sq (1 / w) <= q 25 1).
  { unfold sq, Qcdiv. rewrite !Qcmult_1_l. replace (q 25 1) with (q 5 1 * q 5 1) by (apply Qc_is_canon; reflexivity).
    apply (Qcle_trans _ (q 5 1 * / w)); [apply Qcmult_le_compat_r; [exact U|apply Qclt_le_weak; now apply inv_pos]|]. rewrite Qcmult_comm. apply Qcmult_le_compat_r; [exact U|discriminate]. }
  destruct (dispersion _ _ S1 S2) as [A B]. unfold dry. cbv zeta. assert (E : 0 < q 1 100000000) by reflexivity. split; [now apply mul_pos|]. apply Qcmult_lt_compat_r; assumption.
Qed.
Theorem C128_dispersion : forall t p w w', 0 < kelvin t -> 0 < p -> q 2 10 <= w * q 1000000 1 -> w < w' -> w' * q 1000000 1 < q 13 10 ->
  0 < index_at t p 0 w' /\ index_at t p 0 w' < index_at t p 0 w.
Proof.
  intros t p w w' T P H L U. assert (M : w * q 1000000 1 < w' * q 1000000 1) by (apply Qcmult_lt_compat_r; [reflexivity|exact L]).
  rewrite !dry_index by (try (now apply pos_nz); try exact U; exact (Qclt_trans _ _ _ M U)). destruct (dry_falls _ _ H M) as [A B].
  assert (C : 0 < p / q 101325 1 * (q 28815 100 / kelvin t)).
  { apply mul_pos; unfold Qcdiv; apply mul_pos; try reflexivity; try exact P. now apply inv_pos. }
  split; [now apply mul_pos|now apply mul_lt].
Qed.

(* ---------------------------------------------------------------- above 1.3 micrometres *)
Lemma le_true : forall x y, le x y = true <-> x <= y.
Proof. intros x y. unfold le. rewrite negb_true_iff. apply qlt_false. Qed.
(* the table is the one of the range of the wavelength, if there is one, and otherwise K *)
Theorem C128_bands : forall w, (forall b, fst (range b) <= w -> w <= snd (range b) -> choose w = b) /\
  ((forall b, ~ (fst (range b) <= w /\ w <= snd (range b))) -> choose w = K).
Proof.
  intros w. split.
  - intros b A B. unfold choose. destruct (find (in_range w) [K; L; M; N; Q]) as [b'|] eqn:F.
    + apply find_some in F. destruct F as [_ F]. unfold in_range in F. apply andb_true_iff in F. destruct F as [A' B']. apply le_true in A', B'.
      assert (C1 : q 25 10 < q 28 10) by reflexivity. assert (C2 : q 42 10 < q 435 100) by reflexivity. assert (C3 : q 53 10 < q 75 10) by reflexivity. assert (C4 : q 141 10 < q 16 1) by reflexivity.
      assert (D1 : q 28 10 < q 42 10) by reflexivity. assert (D2 : q 435 100 < q 53 10) by reflexivity. assert (D3 : q 75 10 < q 141 10) by reflexivity.
      destruct b, b'; try reflexivity; exfalso; cbn [range fst snd] in *;
      generalize dependent (q 25 10); generalize dependent (q 28 10); generalize dependent (q 42 10); generalize dependent (q 435 100); generalize dependent (q 53 10); generalize dependent (q 75 10); generalize dependent (q 141 10); generalize dependent (q 16 1); intros; qclra.
    + exfalso. assert (I : In b [K; L; M; N; Q]) by (destruct b; cbn; tauto). apply (find_none _ _ F) in I. unfold in_range in I. apply andb_false_iff in I. destruct I as [I|I]; [apply le_true in A|apply le_true in B]; congruence.
  - intros H. unfold choose. destruct (find _ _) as [b|] eqn:F; [|reflexivity]. exfalso. apply find_some in F. destruct F as [_ F]. apply andb_true_iff in F. destruct F as [A B]. apply le_true in A, B. now apply (H b).
Qed.
(* at the reference wavelength and conditions of a table: its first coefficient *)
Theorem C128_reference : forall b, index_at (q 175 10) p_ref h_ref (reference b * q 1 1000000) = coeff b 0%nat 0%nat.
Proof.
  intros b. unfold AirModel.index_at. cbv zeta. replace (reference b * q 1 1000000 * q 1000000 1) with (reference b) by (rewrite <- Qcmult_assoc; replace (q 1 1000000 * q 1000000 1) with 1 by (apply Qc_is_canon; reflexivity); ring).
  replace (qlt (reference b) (q 13 10)) with false by (destruct b; reflexivity). unfold mathar. cbv zeta.
  assert (C : choose (reference b) = b) by (apply C128_bands; destruct b; discriminate). rewrite C. unfold nu_ref. replace (q 10000 1 / reference b - q 10000 1 / reference b) with 0 by ring.
  unfold state. cbv zeta. replace (kelvin (q 175 10)) with t_ref by (apply Qc_is_canon; reflexivity). replace (1 / t_ref - 1 / t_ref) with 0 by ring. replace (p_ref - p_ref) with 0 by ring. replace (h_ref - h_ref) with 0 by ring.
  unfold sq. cbn [total dot pow]. ring.
Qed.
(* elsewhere in a range: the polynomial of the paper, in the wave number and in the three conditions; the columns of the table
   are the coefficients of these powers of (1/T, H, P) *)
Definition powers : list (nat * nat * nat) := [(0,0,0); (1,0,0); (2,0,0); (0,1,0); (0,2,0); (0,0,1); (0,0,2); (1,1,0); (1,0,1); (0,1,1)]%nat.
Definition qadd (l : list Qc) : Qc := fold_right Qcplus 0 l.
Theorem C128_polynomial : forall b t p h w, fst (range b) <= w * q 1000000 1 -> w * q 1000000 1 <= snd (range b) ->
  index_at t p h w =
  qadd (map (fun i => qadd (map (fun jm => let '(j, (a, c, d)) := jm in
      coeff b i j * (pow (1 / kelvin t - 1 / t_ref) a * pow (h - h_ref) c * pow (p - p_ref) d)) (combine (seq 0 10) powers))
    * pow (q 10000 1 / (w * q 1000000 1) - q 10000 1 / reference b) i) (seq 0 6)).
Proof.
  intros b t p h w A B. unfold AirModel.index_at. cbv zeta. set (u := w * q 1000000 1) in *. clearbody u.
  replace (qlt u (q 13 10)) with false.
  2:{ symmetry. apply qlt_false. apply (Qcle_trans _ (fst (range b))); [destruct b; discriminate|exact A]. }
  unfold mathar. cbv zeta. rewrite (proj1 (C128_bands u) b A B). unfold nu_ref. set (d := q 10000 1 / u - _). clearbody d.
  unfold state, sq. cbv zeta. set (x := 1 / kelvin t - _). set (y := h - _). set (z := p - _). clearbody x y z.
  unfold powers, qadd. cbn [seq combine map fold_right total dot]. 
  assert (G : forall i, coeff b i 0%nat * 1 + (coeff b i 1%nat * x + (coeff b i 2%nat * (x * x) + (coeff b i 3%nat * y + (coeff b i 4%nat * (y * y) + (coeff b i 5%nat * z + (coeff b i 6%nat * (z * z) + (coeff b i 7%nat * (x * y) + (coeff b i 8%nat * (x * z) + (coeff b i 9%nat * (y * z) + 0))))))))) =
    coeff b i 0%nat * (pow x 0 * pow y 0 * pow z 0) + (coeff b i 1%nat * (pow x 1 * pow y 0 * pow z 0) + (coeff b i 2%nat * (pow x 2 * pow y 0 * pow z 0) + (coeff b i 3%nat * (pow x 0 * pow y 1 * pow z 0) + (coeff b i 4%nat * (pow x 0 * pow y 2 * pow z 0) + (coeff b i 5%nat * (pow x 0 * pow y 0 * pow z 1) + (coeff b i 6%nat * (pow x 0 * pow y 0 * pow z 2) + (coeff b i 7%nat * (pow x 1 * pow y 1 * pow z 0) + (coeff b i 8%nat * (pow x 1 * pow y 0 * pow z 1) + (coeff b i 9%nat * (pow x 0 * pow y 1 * pow z 1) + 0)))))))))) by (intros i; cbn [pow]; ring).
  rewrite !G. generalize (pow d 0) (pow d 1) (pow d 2) (pow d 3) (pow d 4) (pow d 5). intros.
  repeat match goal with |- context[coeff b ?i 0%nat * ?m + ?r] => generalize (coeff b i 0%nat * m + r); intros end. ring.
Qed.
(* vapour alone, at 20 degrees and 1333 Pa: the refractivity of water vapour *)
Theorem C128_vapour : forall h w, w * q 1000000 1 < q 13 10 ->
  h / q 100 1 * (q 100062 100000 + q 314 10000000000 * q 1333 1 + q 56 100000000 * q 400 1) * svp (q 29315 100) = q 1333 1 ->
  index_at (q 20 1) (q 1333 1) h w = water (w * q 1000000 1).
Proof.
  intros h w W E. unfold AirModel.index_at. cbv zeta. replace (qlt (w * q 1000000 1) (q 13 10)) with true by (symmetry; now apply qlt_true). unfold ciddor. cbv zeta.
  replace (sq (q 20 1)) with (q 400 1) by (apply Qc_is_canon; reflexivity). replace (kelvin (q 20 1)) with (q 29315 100) by (apply Qc_is_canon; reflexivity). rewrite E.
  set (v := water _). set (d := dry _). set (a := q 1333 1). set (b := q 29315 100). assert (A : a <> 0) by discriminate. assert (B : b <> 0) by discriminate. set (c := q 101325 1). assert (C : c <> 0) by discriminate. clearbody a b c v d. field. repeat split; assumption.
Qed.
End Props.
Print Assumptions C128_shape.
Print Assumptions C128_ideal_gas.
Print Assumptions C128_standard.
Print Assumptions C128_humidity.
Print Assumptions C128_dispersion.
Print Assumptions C128_bands.
Print Assumptions C128_reference.
Print Assumptions C128_polynomial.
Print Assumptions C128_vapour.

Definition ex_index := get_refractive_index (fun _ => 1) (fun b i j => q (match b with K => 100 | L => 200 | M => 300 | N => 400 | Q => 500 end + 10 * Z.of_nat i + Z.of_nat j) 1).
Example C128_reference_example : (match ex_index [q 34 10000000; q 101 10000000] (q 175 10) p_ref h_ref with Ok (Vector [a; b]) => Some (this a, this b) | _ => None end) = Some (200, 400)%Q.
Proof. vm_compute. reflexivity. Qed.
Example C128_bands_example : map (fun z => choose (q z 10)) [13; 25; 26; 28; 42; 43; 44; 60; 100; 150; 160; 280; 300]%Z = [K; K; K; L; L; K; M; K; N; K; Q; Q; K].
Proof. vm_compute. reflexivity. Qed.
(* about 0.000277 at half a micrometre *)
Example C128_standard_example : match ex_index [q 5 10000000] (q 15 1) (q 101325 1) 0 with Ok (Number a) => qlt (q 278 1000000) a && qlt a (q 280 1000000) | _ => false end = true.
Proof. vm_compute. reflexivity. Qed.
(* one more pascal and one more percent at the reference of L: columns 0, 3, 4, 5, 6 and 9 of its first row *)
Example C128_polynomial_example : match ex_index [q 34 10000000] (q 175 10) (p_ref + 1) (h_ref + 1) with Ok (Number a) => Some (this a) | _ => None end = Some 1227%Q.
Proof. vm_compute. reflexivity. Qed.
(* vapour at half a micrometre: the four terms of the formula are added *)
Example C128_vapour_example : match get_refractive_index (fun _ => q 1332 1) (fun _ _ _ => 0) [q 5 10000000] (q 20 1) (q 1333 1) (q 133300 1 / (q 1332 1 * (q 100062 100000 + q 314 10000000000 * q 1333 1 + q 56 100000000 * q 400 1))) with Ok (Number a) => Some (this a) | _ => None end
  = Some (this (q 1022 1000 * (q 295235 1000 + q 4 1 * q 26422 10000 - q 16 1 * q 32380 1000000 + q 64 1 * q 4028 1000000) * q 1 100000000)).
Proof. vm_compute. reflexivity. Qed.
(* Between the ranges, and above them, the table of K is used, far from its range: the index at 30 micrometres, above the range
   of Q, does not use the table of Q. *)
Theorem C128_nearest_refuted : exists w, snd (range Q) < w /\ choose w = K /\ snd (range K) < w.
Proof. exists (q 30 1). split; [reflexivity|]. split; [vm_compute; reflexivity|reflexivity]. Qed.
Print Assumptions C128_nearest_refuted.
