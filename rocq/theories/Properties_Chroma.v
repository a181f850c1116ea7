(* Properties of the chromatic displacement of the layers. *)
From Coq Require Import List ZArith Bool Arith Lia QArith Qcanon Lqa.
From Verif Require Import PyBase PyLemmas OpticalModel QcTac AirModel ChromaModel Properties_Air.
Import ListNotations.
Local Open Scope Qc_scope.
Local Strategy 100 [qlt Qcdiv Qcinv Qcmult Qcplus Q2Qc dry].

(* a propagation with the effect needs both values *)
Theorem C129_init : forall c, (exists c', init c = Ok c') <-> (c_on c = true -> c_ref c <> None /\ c_alt c <> None).
Proof.
  intros [on r a]. unfold init. cbn [c_on c_ref c_alt]. destruct on, r, a; split; try (intros [c' H]; discriminate H); intros H; try (now eexists); try (split; discriminate); try discriminate; destruct (H eq_refl) as [A B]; congruence.
Qed.

Section Props.
Context (svp : Qc -> Qc) (coeff : band -> nat -> nat -> Qc) (pressure : Qc -> Qc) (sec tan : Qc).
Notation shifts := (compute_chromatic_shifts svp coeff pressure sec tan).
Notation idx nm := (index_at svp coeff (q 15 1) (q 101325 1) 0 (nm * q 1 1000000000)).

Lemma n_at_ok : forall nm, n_at svp coeff nm = Ok (idx nm).
Proof. reflexivity. Qed.
Lemma shifts_on : forall r alt nm hs, nm <> r -> shifts (mkChroma true (Some r) (Some alt)) nm hs =
  Ok (combine (seq 0 (length hs)) (map (fun h => (idx r - idx nm) * sec * tan * (pressure alt * q 100 1 / (q 98 10 * q 1225 1000)) * (1 - pressure (alt + h) / pressure alt)) hs)).
Proof.
  intros r alt nm hs N. unfold compute_chromatic_shifts. cbn [c_on c_ref c_alt negb]. rewrite !n_at_ok. cbn [bind]. destruct (Qc_eq_bool nm r) eqn:E; [|reflexivity]. apply Qc_eq_bool_correct in E. contradiction.
Qed.
Lemma find_combine : forall (l : list Qc) s i x, nth_error l i = Some x -> find (fun e => Nat.eqb (fst e) (s + i)) (combine (seq s (length l)) l) = Some ((s + i)%nat, x).
Proof.
  induction l as [|a l IH]; intros s [|i] x H; try discriminate H.
  - cbn in H. injection H as ->. cbn [length seq combine find fst]. rewrite Nat.add_0_r, Nat.eqb_refl. reflexivity.
  - cbn [length seq combine find fst]. replace (Nat.eqb s (s + S i)) with false by (symmetry; apply Nat.eqb_neq; lia). rewrite Nat.add_succ_r. apply (IH (S s)). exact H.
Qed.
Lemma find_none_c : forall (l : list Qc) s k, (s + length l <= k)%nat -> find (fun e => Nat.eqb (fst e) k) (combine (seq s (length l)) l) = None.
Proof.
  induction l as [|a l IH]; intros s k H; [reflexivity|]. cbn [length seq combine find fst] in *. replace (Nat.eqb s k) with false by (symmetry; apply Nat.eqb_neq; lia). apply IH. lia.
Qed.
(* the displacement of layer i, in metres *)
Definition displaced (c : chroma) (nm : Qc) (hs : list Qc) (i : nat) (d : Qc) : Prop :=
  exists l, shifts c nm hs = Ok l /\ shift_px l i 1 = d.
Lemma displaced_on : forall r alt nm hs i h, nm <> r -> nth_error hs i = Some h ->
  displaced (mkChroma true (Some r) (Some alt)) nm hs i ((idx r - idx nm) * sec * tan * (pressure alt * q 100 1 / (q 98 10 * q 1225 1000)) * (1 - pressure (alt + h) / pressure alt)).
Proof.
  intros r alt nm hs i h N H. eexists. split; [now apply shifts_on|]. unfold shift_px. set (f := fun h0 : Qc => _). 
  assert (G := find_combine (map f hs) 0 i (f h) (map_nth_error f _ _ H)). rewrite map_length in G. cbn [Nat.add] in G. rewrite G. cbn [snd]. subst f. cbv beta. set (z := _ * (1 - _)). clearbody z. field. discriminate.
Qed.

(* no displacement: without the effect, at the reference wavelength, for other layers, at the telescope, and at the zenith *)
Theorem C129_none : forall c nm hs i d, displaced c nm hs i d ->
  (c_on c = false \/ c_ref c = Some nm \/ (length hs <= i)%nat \/ tan = 0 \/ (nth_error hs i = Some 0 /\ forall a, c_alt c = Some a -> pressure a <> 0)) -> d = 0.
Proof.
  intros [on r a] nm hs i d (l & S & D) H. cbn [c_on c_ref c_alt] in H. assert (Z : 0 / 1 = 0) by (apply Qc_is_canon; reflexivity).
  destruct on; [|unfold compute_chromatic_shifts in S; cbn in S; injection S as <-; rewrite <- D; exact Z].
  unfold compute_chromatic_shifts in S. cbn [c_on c_ref c_alt negb] in S. destruct r as [r|], a as [alt|]; try discriminate S.
  destruct (Qc_eq_bool nm r) eqn:E; [injection S as <-; rewrite <- D; exact Z|]. rewrite !n_at_ok in S. cbn [bind] in S. cbv zeta in S. injection S as <-.
  assert (N : nm <> r) by (intros ->; unfold Qc_eq_bool in E; destruct (Qc_eq_dec r r); congruence).
  revert D. unfold shift_px. set (f := fun h : Qc => _). intros D.
  destruct (nth_error hs i) as [h|] eqn:HN.
  - assert (G := find_combine (map f hs) 0 i (f h) (map_nth_error f _ _ HN)). rewrite map_length in G. cbn [Nat.add] in G. rewrite G in D. cbn [snd] in D. rewrite <- D.
    destruct H as [H|[H|[H|[H|[H P]]]]]; [discriminate H|injection H as ->; contradiction| | | ].
    + exfalso. assert (X : nth_error hs i <> None) by congruence. apply nth_error_Some in X. lia.
    + subst f. cbv beta. rewrite H. set (u := _ - _ ). set (v := pressure alt * _ / _). set (y := 1 - _). clearbody u v y. field. discriminate.
    + injection H as ->. subst f. cbv beta. specialize (P alt eq_refl). replace (alt + 0) with alt by ring. set (u := _ * _ * (_ / _)). clearbody u. set (p0 := pressure alt) in *. clearbody p0. field. split; [exact P|discriminate].
  - assert (G := find_none_c (map f hs) 0 i). rewrite map_length in G. apply nth_error_None in HN. cbn [Nat.add] in G. specialize (G HN). rewrite G in D. rewrite <- D. exact Z.
Qed.
(* the displacement of a layer: the difference of the indices in the default conditions, times the difference of the pressures (in
   millibar) at the telescope and at the layer, over the acceleration of gravity and the density of air *)
Theorem C129_formula : forall r alt nm hs i h d, displaced (mkChroma true (Some r) (Some alt)) nm hs i d -> nth_error hs i = Some h -> pressure alt <> 0 ->
  d * (q 98 10 * q 1225 1000) = (idx r - idx nm) * sec * tan * q 100 1 * (pressure alt - pressure (alt + h)).
Proof.
  intros r alt nm hs i h d H HN P. destruct (Qc_eq_dec nm r) as [->|N].
  - apply C129_none in H; [|right; left; reflexivity]. subst d. set (a := idx r). set (b := pressure alt - _). clearbody a b. ring.
  - destruct H as (l & S & D). destruct (displaced_on r alt nm hs i h N HN) as (l1 & S1 & D1). rewrite S1 in S. injection S as <-. rewrite <- D, D1.
    set (a := idx r - idx nm). set (x := pressure alt) in *. set (y := pressure (alt + h)). assert (G : q 98 10 * q 1225 1000 <> 0) by discriminate. set (g := q 98 10 * q 1225 1000) in *. set (c := q 100 1). clearbody a x y g c. field. split; assumption.
Qed.
(* exchanging the two wavelengths reverses every displacement *)
Theorem C129_opposite : forall r nm alt hs i d d', displaced (mkChroma true (Some r) (Some alt)) nm hs i d -> displaced (mkChroma true (Some nm) (Some alt)) r hs i d' -> (i < length hs)%nat -> d + d' = 0.
Proof.
  intros r nm alt hs i d d' H H' L. destruct (Qc_eq_dec nm r) as [->|N].
  - apply C129_none in H; [|right; left; reflexivity]. apply C129_none in H'; [|right; left; reflexivity]. subst. ring.
  - apply nth_error_Some in L. destruct (nth_error hs i) as [h|] eqn:HN; [|congruence]. assert (N' : r <> nm) by congruence.
    destruct (displaced_on r alt nm hs i h N HN) as (l1 & S1 & D1). destruct (displaced_on nm alt r hs i h N' HN) as (l2 & S2 & D2).
    destruct H as (l & S & D). destruct H' as (l' & S' & D'). rewrite S1 in S. rewrite S2 in S'. injection S as <-. injection S' as <-. rewrite <- D, <- D', D1, D2.
    set (a := idx r). set (b := idx nm). set (v := pressure alt * _ / _). set (y := 1 - _). clearbody a b v y. ring.
Qed.
(* away from the zenith, a source redder than the reference is displaced forwards, more in higher layers *)
Theorem C129_redder : forall r nm alt hs i d h, displaced (mkChroma true (Some r) (Some alt)) nm hs i d -> nth_error hs i = Some h ->
  q 200 1 <= r -> r < nm -> nm < q 1300 1 -> 0 < sec -> 0 < tan -> 0 < pressure alt -> pressure (alt + h) < pressure alt ->
  0 < d /\ forall j h' d', displaced (mkChroma true (Some r) (Some alt)) nm hs j d' -> nth_error hs j = Some h' -> pressure (alt + h') < pressure (alt + h) -> d < d'.
Proof.
  intros r nm alt hs i d h H HN R1 R2 R3 PS PT PA PH. assert (N : nm <> r) by (intros ->; exact (Qclt_not_eq _ _ R2 eq_refl)).
  assert (C : forall x, x * q 1 1000000000 * q 1000000 1 = x * q 1 1000) by (intros x; rewrite <- Qcmult_assoc; f_equal; apply Qc_is_canon; reflexivity).
  assert (DI : 0 < idx r - idx nm).
  { assert (KT : 0 < kelvin (q 15 1)) by reflexivity. assert (PP : 0 < q 101325 1) by reflexivity.
    destruct (C128_dispersion svp coeff (q 15 1) (q 101325 1) (r * q 1 1000000000) (nm * q 1 1000000000) KT PP) as [_ G].
    - rewrite C. replace (q 2 10) with (q 200 1 * q 1 1000) by (apply Qc_is_canon; reflexivity). apply Qcmult_le_compat_r; [exact R1|discriminate].
    - apply Qcmult_lt_compat_r; [reflexivity|exact R2].
    - rewrite C. replace (q 13 10) with (q 1300 1 * q 1 1000) by (apply Qc_is_canon; reflexivity). apply Qcmult_lt_compat_r; [reflexivity|exact R3].
    - set (a := idx r) in *. set (b := idx nm) in *. clearbody a b. qclra. }
  assert (PV : 0 < pressure alt * q 100 1 / (q 98 10 * q 1225 1000)).
  { unfold Qcdiv. apply mul_pos; [apply mul_pos; [exact PA|reflexivity]|]. apply inv_pos. reflexivity. }
  assert (P0 : 0 < (idx r - idx nm) * sec * tan * (pressure alt * q 100 1 / (q 98 10 * q 1225 1000))) by (apply mul_pos; [|exact PV]; apply mul_pos; [|exact PT]; apply mul_pos; [exact DI|exact PS]).
  assert (U : forall j h' d', displaced (mkChroma true (Some r) (Some alt)) nm hs j d' -> nth_error hs j = Some h' ->
    d' = (idx r - idx nm) * sec * tan * (pressure alt * q 100 1 / (q 98 10 * q 1225 1000)) * (1 - pressure (alt + h') / pressure alt)).
  { intros j h' d' (l & S & D) J. destruct (displaced_on r alt nm hs j h' N J) as (l1 & S1 & D1). rewrite S1 in S. injection S as <-. rewrite <- D, D1. reflexivity. }
  rewrite (U i h d H HN). clear H. assert (IA := inv_pos _ PA).
  set (b0 := _ * (pressure alt * _ / _)) in *. clearbody b0. assert (E1 : 1 = pressure alt * / pressure alt) by (symmetry; apply Qcmult_inv_r; now apply pos_nz). unfold Qcdiv. split.
  - apply mul_pos; [exact P0|]. assert (G : pressure (alt + h) * / pressure alt < pressure alt * / pressure alt) by (now apply Qcmult_lt_compat_r). rewrite <- E1 in G. set (x := pressure (alt + h) * _) in *. clearbody x. qclra.
  - intros j h' d' H' J L. rewrite (U j h' d' H' J). unfold Qcdiv. apply mul_lt; [exact P0|]. assert (G : pressure (alt + h') * / pressure alt < pressure (alt + h) * / pressure alt) by (now apply Qcmult_lt_compat_r).
    set (x := pressure (alt + h) * _) in *. set (x' := pressure (alt + h') * _) in *. clearbody x x'. qclra.
Qed.
(* the displacements do not depend on the other layers *)
Theorem C129_separate : forall c nm hs hs' i d, displaced c nm hs i d -> (i < length hs)%nat -> displaced c nm (hs ++ hs') i d.
Proof.
  intros [on r a] nm hs hs' i d (l & S & D) L. apply nth_error_Some in L. destruct (nth_error hs i) as [h|] eqn:HN; [|congruence].
  destruct on; [|exists l; split; [exact S|exact D]]. assert (S0 := S). unfold compute_chromatic_shifts in S. cbn [c_on c_ref c_alt negb] in S. destruct r as [r|], a as [alt|]; try discriminate S.
  destruct (Qc_eq_dec nm r) as [->|N].
  - exists l. split; [|exact D]. unfold compute_chromatic_shifts. cbn [c_on c_ref c_alt negb]. destruct (Qc_eq_bool r r) eqn:E; [exact S|]. unfold Qc_eq_bool in E. destruct (Qc_eq_dec r r); congruence.
  - destruct (displaced_on r alt nm hs i h N HN) as (l1 & S1 & D1). rewrite S1 in S0. injection S0 as <-. rewrite <- D, D1. apply displaced_on; [exact N|]. rewrite nth_error_app1; [exact HN|]. apply nth_error_Some. congruence.
Qed.
End Props.
Print Assumptions C129_init.
Print Assumptions C129_none.
Print Assumptions C129_formula.
Print Assumptions C129_opposite.
Print Assumptions C129_redder.
Print Assumptions C129_separate.

(* a pressure falling with the height: a source at 700 nm seen with a reference at 500 nm *)
Definition ex_pressure (h : Qc) : Qc := q 10000000 1 / (q 10000 1 + h).
Definition ex_shifts nm := compute_chromatic_shifts (fun _ => 0) (fun _ _ _ => 0) ex_pressure (q 2 1) (q 17 10) (mkChroma true (Some (q 500 1)) (Some 0)) nm [0; q 10000 1; q 30000 1].
Example C129_redder_example : match ex_shifts (q 700 1) with Ok [a; b; c] => (Qc_eq_bool (snd a) 0, qlt 0 (snd b), qlt (snd b) (snd c)) | _ => (false, false, false) end = (true, true, true).
Proof. vm_compute. reflexivity. Qed.
Example C129_none_example : ex_shifts (q 500 1) = Ok [] /\ init (mkChroma true None (Some 0)) = Err ValueError /\ init (mkChroma true (Some 1) None) = Err ValueError /\ init (mkChroma false None None) = Ok (mkChroma false None None).
Proof. repeat split; vm_compute; reflexivity. Qed.
