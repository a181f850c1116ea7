(* C87: phase screens given as a cube; C88: arrays that evolve in time *)
From Coq Require Import String List ZArith Bool Arith Lia QArith Qcanon Ascii.
From Verif Require Import PyBase PyLemmas Arith FilterSpec OpticalModel ExtModel NpModel FitsModel RebinModel RebinProofs CutModel CutSpec CutProofs VecModel SlopecModel SlopecSpec SumLemmas QcTac GenModel GenProofs CalibProofs
  FieldModel FieldSpec FieldProofs InterpModel InterpSpec InterpProofs ExtrapModel ExtrapSpec ExtrapEdge ExtrapProofs CubeModel CubeSpec CubeProofs Properties_Filter Properties_Field Properties_Interp Properties_Extrap.
Import ListNotations.
Local Open Scope nat_scope.

(* ------------------------------------------------------------------------------ C88 *)
Section Sta.
Context {V : Type}.
Variable d : V.
(* Time on the last axis: the array kept has time first, all values found again. *)
Theorem C88_last (a : nd V) s T times : nd_shape a = s ++ [T] -> length times = T ->
  exists o, sta_init V d a times (-1) = Ok o /\ sa_time o = times /\ nd_shape (sa_array o) = T :: s /\
    forall t i, t < T -> index_in s i -> at_index d (sa_array o) (t :: i) = at_index d a (i ++ [t]).
Proof.
  intros Hs Ht. unfold sta_init. cbn [Z.eqb orb negb]. destruct (nd_shape a) as [|n0 r] eqn:E; [destruct s; discriminate Hs|]. rewrite <- E in *. cbv zeta. rewrite Hs, last_last, Ht, Nat.eqb_refl. cbn [negb andb].
  destruct s as [|k s'].
  - cbn [app length Nat.ltb Nat.leb]. eexists. split; [reflexivity|]. cbn [sa_time sa_array]. split; [reflexivity|]. split; [exact Hs|]. intros t i _ Hi. inversion Hi. reflexivity.
  - replace (Nat.ltb 1 _) with true by (symmetry; apply Nat.ltb_lt; rewrite app_length; cbn; lia). eexists. split; [reflexivity|]. cbn [sa_time sa_array]. split; [reflexivity|]. split.
    + unfold last_to_first. cbn [nd_shape]. rewrite Hs, last_last, removelast_last. reflexivity.
    + intros t i Htt Hi. now apply (moved d a (k :: s') T i t).
Qed.
(* Time on the first axis: the array is kept as it is. *)
Theorem C88_first (a : nd V) s T times : nd_shape a = T :: s -> length times = T -> sta_init V d a times 0 = Ok (mkSTA a times).
Proof. intros Hs Ht. unfold sta_init. rewrite Hs, Ht. cbn. now rewrite Nat.eqb_refl. Qed.
(* Refused: other axes, no dimensions, a number of times that is not the size of the axis. *)
Theorem C88_refused (a : nd V) times axis :
  sta_init V d a times axis = Err ValueError <->
  (axis <> 0 /\ axis <> -1)%Z \/ nd_shape a = [] \/ (axis = 0%Z /\ exists n s, nd_shape a = n :: s /\ n <> length times) \/ (axis = (-1)%Z /\ exists n s, nd_shape a = s ++ [n] /\ n <> length times).
Proof.
  unfold sta_init. destruct (Z.eqb_spec axis 0) as [->|N0]; cbn [orb negb].
  - destruct (nd_shape a) as [|n s] eqn:E; [split; auto|]. cbv zeta. destruct (Nat.eqb_spec n (length times)) as [L|L]; cbn [negb Z.eqb andb].
    + split; [discriminate|]. intros [[H _]|[H|[[_ (n' & s' & H1 & H2)]|[H _]]]]; try congruence.
    + split; [|reflexivity]. intros _. right; right; left. eauto.
  - destruct (Z.eqb_spec axis (-1)) as [->|N1]; cbn [negb].
    + destruct (nd_shape a) as [|n s] eqn:E; [split; auto|]. cbv zeta. destruct (exists_last (l := n :: s) ltac:(discriminate)) as (s' & x & E'). rewrite E', last_last.
      destruct (Nat.eqb_spec x (length times)) as [L|L]; cbn [negb andb].
      * destruct (Nat.ltb _ _); (split; [discriminate|]); intros [[_ H]|[H|[[H _]|[_ (n2 & s2 & H1 & H2)]]]]; try congruence; try (destruct s'; discriminate H); apply app_inj_tail in H1 as [_ ->]; contradiction.
      * split; [|reflexivity]. intros _. right; right; right. split; [reflexivity|]. exists x, s'. auto.
    + split; [|reflexivity]. intros _. left. auto.
Qed.
(* What is written to a file is read back. *)
Theorem C88_roundtrip (a : nd V) times axis o : sta_init V d a times axis = Ok o -> sta_restore V d (sta_save V o) = Ok o.
Proof.
  intros H. assert (K : exists s, nd_shape (sa_array o) = length (sa_time o) :: s).
  { unfold sta_init in H. destruct (negb _) eqn:Ax; [discriminate H|]. destruct (nd_shape a) as [|n s] eqn:E; [discriminate H|]. rewrite <- E in *. cbv zeta in H. destruct (negb (Nat.eqb _ _)) eqn:L; [discriminate H|]. apply negb_false_iff, Nat.eqb_eq in L.
    destruct (Z.eqb_spec axis 0) as [->|N0]; cbn [Z.eqb andb] in H.
    - injection H as <-. exists s. cbn [sa_array sa_time]. rewrite E. congruence.
    - destruct (Z.eqb_spec axis (-1)) as [->|N1]; [|discriminate Ax]. cbn [andb] in H. destruct (Nat.ltb 1 (length (nd_shape a))) eqn:G.
      + injection H as <-. eexists. cbn [sa_array sa_time]. unfold last_to_first. cbn [nd_shape]. rewrite L. reflexivity.
      + injection H as <-. exists s. cbn [sa_array sa_time]. apply Nat.ltb_ge in G. rewrite E in *. destruct s; [|cbn in G; lia]. cbn in L. now rewrite L. }
  destruct K as [s K]. unfold sta_restore, sta_save. cbn [sf_version sf_array sf_time Z.eqb]. rewrite (C88_first (sa_array o) s (length (sa_time o)) (sa_time o) K eq_refl). now destruct o.
Qed.
(* New values: of the same shape as they are; with the time last instead of first, moved; the
   times are left alone; everything else is refused. *)
Theorem C88_set (o : sta V) (v : nd V) T s : nd_shape (sa_array o) = T :: s ->
  (nd_shape v = T :: s -> sta_set V d o v = Ok (mkSTA v (sa_time o))) /\
  (nd_shape v = s ++ [T] -> T :: s <> s ++ [T] -> exists o', sta_set V d o v = Ok o' /\ sa_time o' = sa_time o /\ nd_shape (sa_array o') = T :: s /\
     forall t i, t < T -> index_in s i -> at_index d (sa_array o') (t :: i) = at_index d v (i ++ [t])) /\
  (nd_shape v <> T :: s -> nd_shape v <> s ++ [T] -> sta_set V d o v = Err ValueError).
Proof.
  intros Hs. unfold sta_set. rewrite Hs. cbv zeta. split; [|split].
  - intros ->. now replace (same_shape (T :: s) (T :: s)) with true by (symmetry; now apply same_shape_eq).
  - intros Hv N. rewrite Hv. replace (same_shape (s ++ [T]) (T :: s)) with false by (symmetry; apply not_true_iff_false; rewrite same_shape_eq; congruence).
    assert (L : nd_shape (last_to_first V d v) = T :: s) by (unfold last_to_first; cbn [nd_shape]; rewrite Hv, last_last, removelast_last; reflexivity).
    rewrite last_last, L. replace (same_shape (T :: s) (T :: s)) with true by (symmetry; now apply same_shape_eq). cbn [hd]. rewrite Nat.eqb_refl, app_length. cbn [length]. replace (Nat.eqb _ _) with true by (symmetry; apply Nat.eqb_eq; lia).
    destruct s as [|k s']; [contradiction N; reflexivity|]. replace (Nat.ltb _ _) with true by (symmetry; apply Nat.ltb_lt; cbn; lia). cbn [andb]. eexists. split; [reflexivity|]. cbn [sa_time sa_array]. split; [reflexivity|]. split; [exact L|].
    intros t i Ht Hi. now apply (moved d v (k :: s') T i t).
  - intros N1 N2. replace (same_shape (nd_shape v) (T :: s)) with false by (symmetry; apply not_true_iff_false; rewrite same_shape_eq; congruence).
    destruct (same_shape (nd_shape (last_to_first V d v)) (T :: s)) eqn:E; [|now rewrite andb_false_r]. apply same_shape_eq in E. unfold last_to_first in E. cbn [nd_shape] in E. injection E as E1 E2.
    destruct (nd_shape v) as [|n r] eqn:Ev; [reflexivity|]. exfalso. apply N2. rewrite <- E1, <- E2. apply app_removelast_last. discriminate.
Qed.
(* New times: as many as before. *)
Theorem C88_times (o : sta V) t : length t = length (sa_time o) -> sta_set_time V o t = Ok (mkSTA (sa_array o) t).
Proof. intros H. unfold sta_set_time. now rewrite H, Nat.eqb_refl. Qed.

(* Files of another version are refused. *)
Theorem C88_version v (a : nd V) t : v <> 1%Z -> sta_restore V d (mkSF V v a t) = Err ValueError.
Proof. intros H. unfold sta_restore. cbn. destruct (Z.eqb_spec v 1); [contradiction|reflexivity]. Qed.
End Sta.

Definition ten (n : nat) : nd nat := mkND [2; 3] (map (fun k => n + k) [0; 1; 2; 10; 11; 12]).
Example C88_last_example : sta_init nat 0 (ten 1) [7; 8; 9] (-1) = Ok (mkSTA (mkND [3; 2] [1; 11; 2; 12; 3; 13]) [7; 8; 9]) /\ at_index 0 (ten 1) [1; 2] = 13.
Proof. split; reflexivity. Qed.
Example C88_first_example : sta_init nat 0 (ten 1) [7; 8] 0 = Ok (mkSTA (ten 1) [7; 8]). Proof. reflexivity. Qed.
Example C88_refused_example : sta_init nat 0 (ten 1) [7; 8] (-1) = Err ValueError /\ sta_init nat 0 (ten 1) [7; 8] 1 = Err ValueError. Proof. split; reflexivity. Qed.
Example C88_roundtrip_example : sta_restore nat 0 (sta_save nat (mkSTA (ten 1) [7; 8])) = Ok (mkSTA (ten 1) [7; 8]). Proof. reflexivity. Qed.
Example C88_set_example : sta_set nat 0 (mkSTA (mkND [3; 2] [0; 0; 0; 0; 0; 0]) [7; 8; 9]) (ten 5) = Ok (mkSTA (mkND [3; 2] [5; 15; 6; 16; 7; 17]) [7; 8; 9]). Proof. reflexivity. Qed.
Example C88_times_example : sta_set_time nat (mkSTA (ten 1) [7; 8]) [9; 10] = Ok (mkSTA (ten 1) [9; 10]). Proof. reflexivity. Qed.
(* Claim: new values with the time last, as given at the beginning, are kept as at the beginning. *)
Theorem C88_set_refuted : exists (a b : nd nat) times o o' fresh, sta_init nat 0 a times (-1) = Ok o /\ sta_set nat 0 o b = Ok o' /\ sta_init nat 0 b times (-1) = Ok fresh /\ at_index 0 (sa_array o') [0; 1] <> at_index 0 (sa_array fresh) [0; 1].
Proof. exists (mkND [2; 2] [0; 0; 0; 0]), (mkND [2; 2] [1; 2; 3; 4]), [7; 8]. do 3 eexists. repeat split; try reflexivity. discriminate. Qed.
(* Claim: new times are refused unless there are as many as before. *)
Theorem C88_times_refuted : exists (o : sta nat) t o', length t <> length (sa_time o) /\ sta_set_time nat o t = Ok o' /\ sa_time o' = [5; 5].
Proof. exists (mkSTA (ten 1) [7; 8]), [5]. eexists. split; [discriminate|]. split; reflexivity. Qed.

(* ------------------------------------------------------------------------------ C87 *)
Local Open Scope Qc_scope.
Definition screen (p : psc) (i : nat) : arr2 Qc := nth i (pc_screens p) (mkA2 0 []).
(* a cube of screens of r x c pixels, with increasing times *)
Definition cube (p : psc) (r c : nat) (g : nat -> nat -> nat -> Qc) : Prop :=
  length (pc_screens p) = length (pc_times p) /\ increasing (pc_times p) /\ forall i, (i < length (pc_screens p))%nat -> image (A:=qc) r c (g i) (screen p i).
(* the screens k and k+1 enclose the time *)
Definition between (p : psc) (k : nat) (now : Qc) : Prop := (S k < length (pc_times p))%nat /\ nth k (pc_times p) 0 <= now /\ now <= nth (S k) (pc_times p) 0.
(* on the straight line in time between two screens *)
Definition on_line (p : psc) (g : nat -> nat -> nat -> Qc) (k : nat) (now : Qc) (i j : nat) : Qc :=
  pc_factor p * line_at (nth k (pc_times p) 0) (nth (S k) (pc_times p) 0) (g k i j) (g (S k) i j) now.

(* Between two times the screen lies on the straight line between those given, times the factor. *)
Theorem C87_screen p r c g k t : cube p r c g -> between p k (seconds t) ->
  exists s, cur_screen p t = Ok (Some s) /\ image (A:=qc) r c (on_line p g k (seconds t)) s.
Proof.
  intros (Hl & Hi & Hg) (Hk & H0 & H1). set (now := seconds t) in *.
  assert (Im : forall f, (0 < f)%nat -> (f < length (pc_times p))%nat -> image (A:=qc) r c (fun i j => blend_at p now f i j) (tab qc (a_r (screen p (f - 1))) (a_c (screen p (f - 1))) (blend_at p now f))).
  { intros f F0 F1. pose proof (Hg (f - 1)%nat ltac:(lia)) as (R & C & _). change (@a_r (car qc)) with (@a_r Qc) in R. change (@a_c (car qc)) with (@a_c Qc) in C. rewrite R, C. apply tab_image. }
  assert (En : forall f i j, (f < length (pc_times p))%nat -> (i < r)%nat -> (j < c)%nat -> ent qc (screen p f) i j = g f i j).
  { intros f i j F Hi' Hj. apply (image_ent (A:=qc) r c (g f)); auto. apply Hg. lia. }
  pose proof (Hi k (S k) ltac:(lia) Hk) as L.
  destruct (Qclt_le_dec now (nth (S k) (pc_times p) 0)) as [E|E].
  - eexists. split; [apply (cur_at p t (S k)); auto; try lia; replace (S k - 1)%nat with k by lia; auto|]. eapply image_ext; [apply (Im (S k)); lia|].
    intros i j Hi' Hj. unfold blend_at, on_line, line_at. replace (S k - 1)%nat with k by lia. fold (screen p k) (screen p (S k)). rewrite !En by (auto; lia). qceq. field. intros Z. qclra.
  - assert (Now : now = nth (S k) (pc_times p) 0) by (apply Qcle_antisym; assumption). destruct (Nat.eq_dec (S k) (length (pc_times p) - 1)) as [La|La].
    + eexists. split; [apply (cur_at p t (S k)); auto; try lia; replace (S k - 1)%nat with k by lia; auto|]. eapply image_ext; [apply (Im (S k)); lia|].
      intros i j Hi' Hj. unfold blend_at, on_line, line_at. replace (S k - 1)%nat with k by lia. fold (screen p k) (screen p (S k)). rewrite !En by (auto; lia). qceq. field. intros Z. qclra.
    + pose proof (Hi (S k) (S (S k)) ltac:(lia) ltac:(lia)) as L2.
      eexists. split; [apply (cur_at p t (S (S k))); auto; try lia; fold now; replace (S (S k) - 1)%nat with (S k) by lia; first [left; rewrite Now; exact L2|rewrite Now; apply Qcle_refl|rewrite Now; apply Qclt_le_weak; exact L2]|]. eapply image_ext; [apply (Im (S (S k))); lia|].
      intros i j Hi' Hj. unfold blend_at, on_line, line_at. replace (S (S k) - 1)%nat with (S k) by lia. fold (screen p (S k)) (screen p (S (S k))). rewrite !En by (auto; lia). rewrite Now. qceq. field. split; intros Z; qclra.
Qed.
(* At the times given the screen is the one given, times the factor. *)
Theorem C87_sample p r c g k t : cube p r c g -> (1 < length (pc_times p))%nat -> (k < length (pc_times p))%nat -> seconds t = nth k (pc_times p) 0 ->
  exists s, cur_screen p t = Ok (Some s) /\ image (A:=qc) r c (fun i j => pc_factor p * g k i j) s.
Proof.
  intros Hc Hn Hk Ht. pose proof Hc as (_ & Hi & _). destruct (Nat.eq_dec (S k) (length (pc_times p))) as [E|E].
  - destruct k as [|k]; [lia|]. pose proof (Hi k (S k) ltac:(lia) Hk) as L. destruct (C87_screen p r c g k t Hc) as (s & Es & Is).
    { split; [lia|]. rewrite Ht. split; [now apply Qclt_le_weak|apply Qcle_refl]. }
    exists s. split; [exact Es|]. eapply image_ext; [exact Is|]. intros i j _ _. unfold on_line, line_at. rewrite Ht. qceq. field. intros Z. qclra.
  - pose proof (Hi k (S k) ltac:(lia) ltac:(lia)) as L. destruct (C87_screen p r c g k t Hc) as (s & Es & Is).
    { split; [lia|]. rewrite Ht. split; [apply Qcle_refl|now apply Qclt_le_weak]. }
    exists s. split; [exact Es|]. eapply image_ext; [exact Is|]. intros i j _ _. unfold on_line, line_at. rewrite Ht. qceq. field. intros Z. qclra.
Qed.
(* After the last time everything is refused. *)
Theorem C87_too_long p t pupilstop outs : (0 < pc_pupil p)%nat -> pc_pitch p <> 0 -> (forall u, In u (pc_times p) -> u < seconds t) -> psc_trigger p t pupilstop outs = Err ValueError.
Proof.
  intros Hm Hp H. unfold psc_trigger, psc_prepare. replace (Nat.eqb (pc_pupil p) 0) with false by (symmetry; apply Nat.eqb_neq; lia). replace (is0 (pc_pitch p)) with false by (symmetry; now apply is0_false). cbn [orb].
  unfold cur_screen. destruct (pc_times p) as [|u us] eqn:E; [reflexivity|]. replace (forallb _ _) with true; [reflexivity|]. symmetry. apply forallb_forall. intros v Hv. apply qlt_true. apply H. exact Hv.
Qed.

(* The point of a screen of n pixels seen at pixel a of m: the pitches are respected, up to a
   factor (n-1)/n, and the middle of the screen falls on pixel m/2 *)
Definition point (n m : nat) (pitch scale : Qc) (a : nat) : Qc := (qnat a - qnat m / qnat 2) * (pitch / scale) * (qnat (n - 1) / qnat n) + middle n.
Definition seen_screen (n m : nat) (pitch scale : Qc) (f : nat -> nat -> Qc) (a b : nat) : Qc :=
  if Nat.eq_dec n m then if Qc_eq_dec scale pitch then f a b else surface n n f (nearest n (point n m pitch scale a)) (nearest n (point n m pitch scale b))
  else surface n n f (nearest n (point n m pitch scale a)) (nearest n (point n m pitch scale b)).

Lemma two_q : qnat 2 = 1 + 1. Proof. apply Qc_is_canon. vm_compute. reflexivity. Qed.
Lemma point_from n m pitch scale a : (0 < n)%nat -> (0 < m)%nat -> pitch <> 0 -> scale <> 0 -> forall b,
  where_from n m None 0 0 (qnat n / qnat m * scale / pitch) a b = (nearest n (point n m pitch scale a), nearest n (point n m pitch scale b)).
Proof.
  intros Hn Hm Hp Hs b. unfold where_from, seen, point. cbn [opposite fst snd]. pose proof (qnat_pos n Hn) as Qn. pose proof (qnat_pos m Hm) as Qm.
  f_equal; f_equal; unfold middle; rewrite (qnat_sub n 1) by lia; change (qnat 1) with 1; rewrite two_q; qceq; field; repeat split; auto; discriminate.
Qed.
Lemma mag_one n pitch scale : (0 < n)%nat -> pitch <> 0 -> (qnat n / qnat n * scale / pitch = 1 <-> scale = pitch).
Proof.
  intros Hn Hp. pose proof (qnat_pos n Hn) as Qn. split.
  - intros H. transitivity (qnat n / qnat n * scale / pitch * pitch); [qceq; field; auto|rewrite H; qceq; ring].
  - intros ->. qceq. field. auto.
Qed.
Definition full (n : nat) (q : Z * Z) : bool := ((0 <=? fst q) && (fst q <? Z.of_nat n) && (0 <=? snd q) && (snd q <? Z.of_nat n))%Z.

Definition mag_of (p : psc) (n : nat) : Qc := qnat n / qnat (pc_pupil p) * pc_scale p / pc_pitch p.
(* What is computed before the outputs are written. *)
Lemma prepared p n g k t : cube p n n g -> between p k (seconds t) -> (0 < n)%nat -> (0 < pc_pupil p)%nat -> 0 < pc_pitch p -> 0 < pc_scale p -> tiny <= mag_of p n ->
  exists a, psc_prepare p t = Ok (Some a) /\ image (A:=qc) (pc_pupil p) (pc_pupil p) (seen_screen n (pc_pupil p) (pc_pitch p) (pc_scale p) (on_line p g k (seconds t))) a.
Proof.
  intros Hc Hb Hn Hm Hp Hs Hg. destruct (C87_screen p n n g k t Hc Hb) as (s & Es & Is). set (h := on_line p g k (seconds t)) in *. set (m := pc_pupil p) in *.
  assert (Np : pc_pitch p <> 0) by (intros Z; qclra). assert (Ns : pc_scale p <> 0) by (intros Z; qclra).
  unfold psc_prepare. fold m. replace (Nat.eqb m 0) with false by (symmetry; apply Nat.eqb_neq; lia). replace (is0 (pc_pitch p)) with false by (symmetry; now apply is0_false). cbn [orb]. rewrite Es. cbn [bind].
  assert (Sr : @a_r Qc s = n) by exact (image_r _ _ _ _ Is). assert (Sc : @a_c Qc s = n) by exact (image_c _ _ _ _ Is). rewrite Sr, Sc.
  unfold new_ef. replace (Z.of_nat n <? 0)%Z with false by (symmetry; apply Z.ltb_ge; lia). cbn [orb bind ef_ph ef_A ef_pitch ef_S0]. rewrite Nat2Z.id.
  rewrite (assign2_image (A:=qc) n n _ h _ s (tab_image _ _ _) Is). cbn [bind].
  assert (Bf : bin_fact p = mag_of p n).
  { unfold bin_fact, mag_of. change qn with qnat. unfold dim1. destruct Hc as (Hl & _ & Hg'). destruct Hb as (Hk & _). destruct (pc_screens p) as [|s0 ss] eqn:E; [cbn in Hl; lia|]. pose proof (Hg' 0%nat ltac:(cbn; lia)) as I0. unfold screen in I0. rewrite E in I0. cbn [nth] in I0.
    assert (S0 : @a_r Qc s0 = n) by exact (image_r _ _ _ _ I0). now rewrite S0. }
  rewrite Bf. set (e := mkEF qc _ _ _ _). assert (He : sized e n n).
  { split; cbn [ef_A ef_ph e]; eapply image_own; apply tab_image. }
  assert (Pe : forall i j, (i < n)%nat -> (j < n)%nat -> ph_at e i j = h i j) by (intros; apply (image_ent n n _ _ _ _ (tab_image (A:=qc) n n _)); assumption).
  assert (Ae : forall i j, (i < n)%nat -> (j < n)%nat -> amp_at e i j = 1) by (intros i j Hi Hj; apply (image_ent n n _ _ i j (tab_image (A:=qc) n n (fun _ _ => 1))); assumption).
  destruct (changed_dec n m None 0 0 (mag_of p n)) as [C|C].
  - destruct (C86_field n m None 0 0 (mag_of p n) (Q2Qc (1 # 1000)) false e (full n) (fun q => h (Z.to_nat (fst q)) (Z.to_nat (snd q))) Hn Hm Hg He (or_introl C)) as (o & ga & gp & Eo & So & _ & Sp & _ & _ & Ph & _).
    { intros y x. unfold full. cbn [fst snd]. rewrite !andb_true_iff, !Z.leb_le, !Z.ltb_lt. split.
      - intros H. split; [lia|]. split; [lia|]. rewrite Ae by lia. vm_compute. discriminate.
      - intros H. lia. }
    { intros y x H. unfold full in H. cbn [fst snd] in H. rewrite !andb_true_iff, !Z.leb_le, !Z.ltb_lt in H. cbn [fst snd]. symmetry. apply Pe; lia. }
    rewrite Eo. cbn [bind]. eexists. split; [reflexivity|]. destruct So as [_ So]. eapply image_ext; [exact So|]. intros a b Ha Hb'. rewrite Ph by assumption. destruct Sp as [Sp _]. rewrite (Sp C a b Ha Hb'). cbv zeta. unfold mag_of. fold m. rewrite (point_from n m (pc_pitch p) (pc_scale p) a Hn Hm Np Ns b). cbn [fst snd].
    assert (Sx : forall y x, surface n n (fun i j => extension (full n) (fun q => h (Z.to_nat (fst q)) (Z.to_nat (snd q))) (Z.of_nat i, Z.of_nat j)) y x = surface n n h y x).
    { intros y x. apply surface_ext. intros i j Hi Hj. unfold extension. replace (full n (Z.of_nat i, Z.of_nat j)) with true; [cbn [fst snd]; now rewrite !Nat2Z.id|]. symmetry. unfold full. cbn [fst snd]. rewrite !andb_true_iff, !Z.leb_le, !Z.ltb_lt. lia. }
    rewrite Sx. unfold seen_screen. destruct (Nat.eq_dec n m) as [Enm|]; [|reflexivity]. destruct (Qc_eq_dec (pc_scale p) (pc_pitch p)) as [Esp|]; [|reflexivity]. exfalso.
    unfold changed in C. unfold mag_of in C. fold m in C. rewrite <- Enm in C. rewrite (proj2 (mag_one n (pc_pitch p) (pc_scale p) Hn Np) Esp) in C. destruct C as [C|[C|[C|[C|C]]]]; now apply C.
  - pose proof (unchanged_same _ _ _ _ _ _ C) as Enm. unfold resample_ef. rewrite <- Enm. rewrite <- Enm in C. rewrite (nothing_init n None 0 0 (mag_of p n) _ e Hn He C). cbn [bind efi_interpolate fi_inner efi_out].
    eexists. split; [reflexivity|]. destruct He as [_ He]. eapply image_ext; [exact He|]. intros a b Ha Hb'. fold (ph_at e). rewrite Pe by assumption. unfold seen_screen. destruct (Nat.eq_dec n n) as [_|]; [|contradiction]. destruct (Qc_eq_dec (pc_scale p) (pc_pitch p)) as [|N]; [reflexivity|]. exfalso. apply C. right; right; right; right. intros M. apply N. apply (mag_one n); auto. unfold mag_of in M. fold m in M. now rewrite <- Enm in M.
Qed.

(* ------------------------------------------------------------------------------ outputs *)
(* a source name which, after an underscore, never says "_layer" *)
Definition plain (x : string) : Prop := forall a b, ("_" ++ x)%string <> (a ++ "_layer" ++ b)%string.
Lemma str_assoc (a b c : string) : ((a ++ b) ++ c = a ++ (b ++ c))%string. Proof. induction a as [|h a IH]; cbn; [reflexivity|]. now rewrite IH. Qed.
Lemma str_nil_r (a : string) : (a ++ "" = a)%string. Proof. induction a as [|h a IH]; cbn; [reflexivity|]. now rewrite IH. Qed.
Lemma str_length_app a b : String.length (a ++ b)%string = (String.length a + String.length b)%nat. Proof. induction a as [|h a IH]; cbn; [reflexivity|]. now rewrite IH. Qed.
Lemma prefix_split u s : String.prefix u s = true -> exists w, s = (u ++ w)%string.
Proof.
  revert s. induction u as [|c u IH]; intros s H; [now exists s|]. destruct s as [|k s]; [discriminate H|]. cbn in H. destruct (ascii_dec c k) as [->|]; [|discriminate H]. destruct (IH s H) as [w ->]. now exists w.
Qed.
(* in u ++ "_layer" nothing begins before the end of u, unless inside u *)
Lemma no_straddle u w : u <> ""%string -> (u ++ "_layer" = "_layer" ++ w)%string -> exists b, u = ("_layer" ++ b)%string.
Proof.
  intros Hu H. do 6 (destruct u as [|? u]; [try contradiction; try discriminate H|]; cbn in H; injection H as -> H; cbn). now exists u.
Qed.
Lemma replace_plain u fuel : (forall a b, u <> (a ++ "_layer" ++ b)%string) -> (String.length u < fuel)%nat -> str_replace fuel "_layer" "_ef" (u ++ "_layer") = (u ++ "_ef")%string.
Proof.
  revert fuel. induction u as [|c u IH]; intros fuel Hu Hf.
  - destruct fuel as [|f]; [lia|]. cbn. destruct f; reflexivity.
  - destruct fuel as [|f]; [cbn in Hf; lia|]. cbn [str_replace]. change ((String c u) ++ "_layer")%string with (String c (u ++ "_layer")). destruct (String.prefix "_layer" (String c (u ++ "_layer"))) eqn:P.
    + exfalso. apply prefix_split in P as [w P]. destruct (no_straddle (String c u) w ltac:(discriminate) P) as [b E]. exact (Hu ""%string b E).
    + rewrite IH; [reflexivity| |cbn in Hf; lia]. intros a b E. apply (Hu (String c a) b). rewrite E. reflexivity.
Qed.
Lemma out_plain x : plain x -> forall a b, ("out_" ++ x)%string <> (a ++ "_layer" ++ b)%string.
Proof.
  intros H a b E. do 3 (destruct a as [|? a]; [discriminate E|]; cbn in E; injection E as _ E). exact (H a b E).
Qed.
Definition name_ok (o : pair_out) : Prop := exists u, (forall a b, u <> (a ++ "_layer" ++ b)%string) /\ po_layer o = (u ++ "_layer")%string /\ po_ef o = (u ++ "_ef")%string.
Lemma tail_inj u v e : (u ++ e = v ++ e)%string -> u = v.
Proof.
  revert v. induction u as [|c u IH]; intros [|k v] H; auto.
  - exfalso. apply (f_equal String.length) in H. rewrite !str_length_app in H. cbn in H. lia.
  - exfalso. apply (f_equal String.length) in H. rewrite !str_length_app in H. cbn in H. lia.
  - cbn in H. injection H as -> H. now rewrite (IH v H).
Qed.
Lemma ef_name o o' : name_ok o -> name_ok o' -> String.eqb (po_ef o) (str_replace (String.length (po_layer o')) "_layer" "_ef" (po_layer o')) = String.eqb (po_layer o) (po_layer o').
Proof.
  intros (u & Pu & Lu & Eu) (v & Pv & Lv & Ev). rewrite Lv, Lu, Eu. rewrite replace_plain; [|exact Pv|rewrite str_length_app; cbn; lia].
  apply Bool.eq_iff_eq_true. rewrite !String.eqb_eq. split; intros H; apply tail_inj in H; now rewrite H.
Qed.

Definition fits (m : nat) (o : pair_out) : Prop := (exists f, image (A:=qc) m m f (po_amp o)) /\ match po_ph o with Some a => exists f, image (A:=qc) m m f a | None => True end.
Definition shown (ph amp : arr2 Qc) (t : Z) (o : pair_out) : pair_out := mkPair (po_layer o) (po_ef o) (Some ph) amp t t (po_S0 o).
Lemma show_ok m ph amp f g t o : fits m o -> image (A:=qc) m m f ph -> image (A:=qc) m m g amp -> CubeModel.show (Some ph) amp t o = Ok (mkPair (po_layer o) (po_ef o) (Some ph) amp t (po_te o) (po_S0 o)).
Proof.
  intros [[fa Ha] Hp] If Ig. unfold CubeModel.show. assert (Ea : assign2 qc (po_amp o) amp = Ok amp) by (rewrite (assign2_image m m fa g _ _ Ha Ig); f_equal; symmetry; now apply (image_tab m m)).
  assert (Ep : forall b h, image (A:=qc) m m h b -> assign2 qc b ph = Ok ph) by (intros b h Hb; rewrite (assign2_image m m h f _ _ Hb If); f_equal; symmetry; now apply (image_tab m m)).
  destruct (po_ph o) as [b|]; [destruct Hp as [h Hb]; rewrite (Ep b h Hb)|rewrite (Ep _ fa Ha)]; cbn [bind]; rewrite Ea; reflexivity.
Qed.
Definition touched (names : list string) (ph amp : arr2 Qc) (t : Z) (o : pair_out) : pair_out := if existsb (String.eqb (po_layer o)) names then shown ph amp t o else o.
Lemma code_step m ph amp f g t outs o : (forall x, In x outs -> fits m x /\ name_ok x) -> In (po_layer o) (map po_layer outs) -> name_ok o -> image (A:=qc) m m f ph -> image (A:=qc) m m g amp ->
  (l' <- at_layer (po_layer o) (CubeModel.show (Some ph) amp t) outs ;; stamp_ef (str_replace (String.length (po_layer o)) "_layer" "_ef" (po_layer o)) t l') = Ok (map (touched [po_layer o] ph amp t) outs).
Proof.
  intros Ho Hin No If Ig. set (half := fun x => if String.eqb (po_layer x) (po_layer o) then mkPair (po_layer x) (po_ef x) (Some ph) amp t (po_te x) (po_S0 x) else x).
  assert (E1 : at_layer (po_layer o) (CubeModel.show (Some ph) amp t) outs = Ok (map half outs)).
  { unfold at_layer, half. clear Hin. induction outs as [|x l IH]; [reflexivity|]. cbn [map_res map]. destruct (Ho x (or_introl eq_refl)) as [Fx _]. rewrite IH by (intros; apply Ho; now right). destruct (String.eqb (po_layer x) (po_layer o)); [rewrite (show_ok m ph amp f g t x Fx If Ig)|]; reflexivity. }
  rewrite E1. cbn [bind]. unfold stamp_ef. assert (Nm : forall x, In x outs -> String.eqb (po_ef (half x)) (str_replace (String.length (po_layer o)) "_layer" "_ef" (po_layer o)) = String.eqb (po_layer x) (po_layer o)).
  { intros x Hx. replace (po_ef (half x)) with (po_ef x) by (unfold half; destruct (String.eqb _ _); reflexivity). apply ef_name; [now apply Ho|exact No]. }
  replace (existsb _ (map half outs)) with true.
  - rewrite map_map. f_equal. apply map_ext_in. intros x Hx. rewrite (Nm x Hx). unfold touched, half, shown. cbn [existsb orb]. destruct (String.eqb (po_layer x) (po_layer o)); reflexivity.
  - symmetry. apply existsb_exists. apply in_map_iff in Hin as (x & Ex & Hx). exists (half x). split; [now apply in_map|]. rewrite (Nm x Hx), Ex. apply String.eqb_refl.
Qed.
Lemma code_all m ph amp f g t outs : (forall x, In x outs -> fits m x /\ name_ok x) -> image (A:=qc) m m f ph -> image (A:=qc) m m g amp -> psc_code (Some ph) amp t outs = Ok (map (shown ph amp t) outs).
Proof.
  intros Ho If Ig. unfold psc_code.
  assert (K : forall names cur, (forall n, In n names -> exists o, In o outs /\ po_layer o = n) -> map po_layer cur = map po_layer outs -> (forall x, In x cur -> fits m x /\ name_ok x) ->
     fold_res (fun l name => l' <- at_layer name (CubeModel.show (Some ph) amp t) l ;; stamp_ef (str_replace (String.length name) "_layer" "_ef" name) t l') cur names = Ok (map (touched names ph amp t) cur)).
  { induction names as [|n names IH]; intros cur Hn Hl Hc.
    - cbn [fold_res]. f_equal. rewrite <- (map_id cur) at 1. apply map_ext. reflexivity.
    - cbn [fold_res]. destruct (Hn n (or_introl eq_refl)) as (o & Oo & <-). rewrite (code_step m ph amp f g t cur o Hc ltac:(rewrite Hl; now apply in_map) (proj2 (Ho o Oo)) If Ig). cbn [bind].
      rewrite IH.
      + rewrite map_map. f_equal. apply map_ext. intros x. unfold touched. cbn [existsb]. rewrite orb_false_r. destruct (String.eqb (po_layer x) (po_layer o)) eqn:E; cbn [orb shown po_layer].
        * unfold touched. cbn [po_layer]. destruct (existsb (String.eqb (po_layer x)) names); reflexivity.
        * reflexivity.
      + intros n' Hn'. apply Hn. now right.
      + rewrite map_map, <- Hl. apply map_ext. intros x. unfold touched. destruct (existsb _ _); reflexivity.
      + intros x Hx. apply in_map_iff in Hx as (y & <- & Hy). destruct (Hc y Hy) as [Fy Ny]. unfold touched. destruct (existsb _ _); [|auto]. split; [|exact Ny]. split; cbn [po_amp po_ph shown]; eauto. }
  rewrite K; auto.
  - f_equal. apply map_ext_in. intros x Hx. unfold touched. replace (existsb _ _) with true; [reflexivity|]. symmetry. apply existsb_exists. exists (po_layer x). split; [now apply in_map|apply String.eqb_refl].
  - intros n Hn. apply in_map_iff in Hn as (o & <- & Ho'). eauto.
Qed.
Lemma names_ok sources outs : map (fun o => (po_layer o, po_ef o, po_S0 o)) outs = out_names sources -> (forall s, In s sources -> plain (fst s)) -> forall o, In o outs -> name_ok o.
Proof.
  intros H Hp o Ho. apply (in_map (fun o => (po_layer o, po_ef o, po_S0 o))) in Ho. rewrite H in Ho. unfold out_names in Ho. destruct sources as [|s l] eqn:E.
  - destruct Ho as [Ho|[]]. injection Ho as E1 E2 _. exists "out"%string. rewrite <- E1, <- E2. split; [|split; reflexivity]. intros a b C. do 4 (destruct a as [|? a]; [discriminate C|]; cbn in C; try discriminate C; injection C as _ C).
  - rewrite <- E in *. apply in_map_iff in Ho as (x & Ho & Hx). injection Ho as E1 E2 _. exists ("out_" ++ fst x)%string. split; [apply out_plain, Hp; exact Hx|]. rewrite str_assoc, str_assoc. cbn [append] in E1, E2 |- *. split; congruence.
Qed.

(* a trigger with the pupil stop of that moment *)
Definition turn (p : psc) (outs : list pair_out) (e : Z * arr2 Qc) : res (list pair_out) := psc_trigger p (fst e) (Some (snd e)) outs.
Definition covered (p : psc) (t : Z) : Prop := exists k, between p k (seconds t).
Definition setting (p : psc) (n : nat) (g : nat -> nat -> nat -> Qc) (sources : list (string * Qc)) : Prop :=
  cube p n n g /\ (0 < n)%nat /\ (0 < pc_pupil p)%nat /\ 0 < pc_pitch p /\ 0 < pc_scale p /\ tiny <= mag_of p n /\ forall s, In s sources -> plain (fst s).
(* Every trigger leaves in all outputs, layers and fields, the screen of that time seen from the
   pupil, the pupil stop, and the time; whatever was there before. *)
Theorem C87_output p n g sources hist t k stop amp : setting p n g sources -> (forall e, In e hist -> covered p (fst e) /\ exists f, image (A:=qc) (pc_pupil p) (pc_pupil p) f (snd e)) ->
  between p k (seconds t) -> image (A:=qc) (pc_pupil p) (pc_pupil p) amp stop ->
  exists outs ph, fold_res (turn p) (psc_outputs (pc_pupil p) sources) (hist ++ [(t, stop)]) = Ok outs /\
    image (A:=qc) (pc_pupil p) (pc_pupil p) (seen_screen n (pc_pupil p) (pc_pitch p) (pc_scale p) (on_line p g k (seconds t))) ph /\
    map (fun o => (po_layer o, po_ef o, po_S0 o)) outs = out_names sources /\
    forall o, In o outs -> po_ph o = Some ph /\ po_amp o = stop /\ po_tl o = t /\ po_te o = t.
Proof.
  intros (Hc & Hn & Hm & Hp & Hs & Hg & Hpl) Hh Hb Hstop. set (m := pc_pupil p) in *.
  assert (St : forall outs (e : Z * arr2 Qc) k0 f, map (fun o => (po_layer o, po_ef o, po_S0 o)) outs = out_names sources -> (forall x, In x outs -> fits m x) -> between p k0 (seconds (fst e)) -> image (A:=qc) m m f (snd e) ->
     exists ph, image (A:=qc) m m (seen_screen n m (pc_pitch p) (pc_scale p) (on_line p g k0 (seconds (fst e)))) ph /\ turn p outs e = Ok (map (shown ph (snd e) (fst e)) outs)).
  { intros outs e k0 f Hnm Hf Hb0 He. destruct (prepared p n g k0 (fst e) Hc Hb0 Hn Hm Hp Hs Hg) as (ph & Ep & Ip). exists ph. split; [exact Ip|]. unfold turn, psc_trigger. rewrite Ep. cbn [bind].
    eapply code_all; [|exact Ip|exact He]. intros x Hx. split; [auto|]. exact (names_ok sources outs Hnm Hpl x Hx). }
  assert (Keep : forall outs ph a t0, map (fun o => (po_layer o, po_ef o, po_S0 o)) outs = out_names sources -> map (fun o => (po_layer o, po_ef o, po_S0 o)) (map (shown ph a t0) outs) = out_names sources).
  { intros outs ph a t0 H. rewrite map_map. exact H. }
  assert (Fit : forall outs ph a t0 f f', image (A:=qc) m m f ph -> image (A:=qc) m m f' a -> forall x, In x (map (shown ph a t0) outs) -> fits m x).
  { intros outs ph a t0 f f' I1 I2 x Hx. apply in_map_iff in Hx as (y & <- & _). split; cbn [shown po_amp po_ph]; eauto. }
  assert (K : forall h outs, (forall e, In e h -> covered p (fst e) /\ exists f, image (A:=qc) m m f (snd e)) -> map (fun o => (po_layer o, po_ef o, po_S0 o)) outs = out_names sources -> (forall x, In x outs -> fits m x) ->
     exists outs' ph, fold_res (turn p) outs (h ++ [(t, stop)]) = Ok outs' /\ image (A:=qc) m m (seen_screen n m (pc_pitch p) (pc_scale p) (on_line p g k (seconds t))) ph /\ map (fun o => (po_layer o, po_ef o, po_S0 o)) outs' = out_names sources /\
       forall o, In o outs' -> po_ph o = Some ph /\ po_amp o = stop /\ po_tl o = t /\ po_te o = t).
  { induction h as [|e h IH]; intros outs Hh' Hnm Hf.
    - cbn [app fold_res]. destruct (St outs (t, stop) k amp Hnm Hf Hb Hstop) as (ph & Ip & ->). cbn [bind fst snd]. eexists _, ph. split; [reflexivity|]. split; [exact Ip|]. split; [now apply Keep|]. intros o Ho. apply in_map_iff in Ho as (y & <- & _). auto.
    - cbn [app fold_res]. destruct (Hh' e (or_introl eq_refl)) as [[k0 Hk0] [f He]]. destruct (St outs e k0 f Hnm Hf Hk0 He) as (ph & Ip & ->). cbn [bind]. apply IH.
      + intros e' He'. apply Hh'. now right.
      + now apply Keep.
      + eapply Fit; eauto. }
  apply K; [exact Hh| |].
  - unfold psc_outputs. rewrite map_map. cbn [po_layer po_ef po_S0]. rewrite <- (map_id (out_names sources)) at 2. apply map_ext. intros [[a b] c]. reflexivity.
  - intros x Hx. unfold psc_outputs in Hx. apply in_map_iff in Hx as (y & <- & _). split; cbn [po_amp po_ph]; eexists; apply tab_image.
Qed.
(* A cube with the size and the pitch of the pupil is shown as it is. *)
Theorem C87_same p g sources t k stop amp : setting p (pc_pupil p) g sources -> pc_scale p = pc_pitch p -> between p k (seconds t) -> image (A:=qc) (pc_pupil p) (pc_pupil p) amp stop ->
  exists outs ph, turn p (psc_outputs (pc_pupil p) sources) (t, stop) = Ok outs /\ image (A:=qc) (pc_pupil p) (pc_pupil p) (on_line p g k (seconds t)) ph /\ forall o, In o outs -> po_ph o = Some ph.
Proof.
  intros Hset Hsc Hb Hs. destruct (C87_output p (pc_pupil p) g sources [] t k stop amp Hset) as (outs & ph & E & Ip & _ & Ho); auto.
  { intros e []. }
  exists outs, ph. split; [|split].
  - cbn [app fold_res] in E. destruct (turn p _ (t, stop)) as [o'|]; [exact E|discriminate E].
  - eapply image_ext; [exact Ip|]. intros a b _ _. unfold seen_screen. destruct (Nat.eq_dec _ _) as [_|N]; [|contradiction]. destruct (Qc_eq_dec _ _) as [_|N]; [reflexivity|contradiction].
  - intros o Hin. now apply Ho.
Qed.
(* The screens of an array kept with the time first. *)
Theorem C87_slices (a : nd Qc) T r c : nd_shape a = [T; r; c] ->
  exists l, slices a = Ok l /\ length l = T /\ forall k, (k < T)%nat -> image (A:=qc) r c (fun i j => at_index 0 a [k; i; j]) (nth k l (mkA2 0 [])).
Proof.
  intros H. unfold slices. rewrite H. eexists. split; [reflexivity|]. split; [now rewrite map_length, seq_length|]. intros k Hk.
  rewrite (nth_indep _ _ (slice_at a r c 0)) by (now rewrite map_length, seq_length). rewrite (map_nth (slice_at a r c) (seq 0 T) 0%nat k), seq_nth by exact Hk. cbn [Nat.add]. eapply image_ext; [apply tab_image|].
  intros i j Hi Hj. cbn beta. unfold at_index. rewrite H. cbn [place volume]. f_equal. nia.
Qed.
(* From an array given with the time last to the phase at a time given. *)
Theorem C87_given (a : nd Qc) r c T times o l p k t : nd_shape a = [r; c; T] -> sta_init Qc 0 a times (-1) = Ok o -> slices (sa_array o) = Ok l ->
  pc_screens p = l -> pc_times p = times -> increasing times -> (1 < T)%nat -> (k < T)%nat -> seconds t = nth k times 0 ->
  exists s, cur_screen p t = Ok (Some s) /\ image (A:=qc) r c (fun i j => pc_factor p * at_index 0 a [i; j; k]) s.
Proof.
  intros Hs Ho Hl El Et Hi H1 Hk Ht. assert (LT : length times = T).
  { destruct (Nat.eq_dec T (length times)) as [E|E]; [auto|]. assert (R : sta_init Qc 0 a times (-1) = Err ValueError) by (apply C88_refused; right; right; right; split; [reflexivity|]; exists T, [r; c]; auto). rewrite Ho in R. discriminate R. }
  destruct (C88_last 0 a [r; c] T times Hs LT) as (o' & Ho' & _ & Sh & At). rewrite Ho in Ho'. injection Ho' as <-.
  destruct (C87_slices (sa_array o) T r c Sh) as (l' & El' & Ll & Il). rewrite Hl in El'. injection El' as <-.
  destruct (C87_sample p r c (fun q i j => at_index 0 a [i; j; q]) k t) as (s & Es & Is).
  - split; [congruence|]. split; [now rewrite Et|]. intros i Hi'. unfold screen. rewrite El in *. eapply image_ext; [apply Il; lia|]. intros y x Hy Hx. apply (At i [y; x]); [lia|]. repeat constructor; assumption.
  - rewrite Et. lia.
  - rewrite Et. lia.
  - now rewrite Et.
  - exists s. auto.
Qed.

(* ------------------------------------------------------------------------------ examples *)
Definition see_outs (r : res (list pair_out)) : res (list (string * option (list (list Q)) * list (list Q) * Z * Z)) :=
  l <- r ;; Ok (map (fun o => (po_layer o, option_map (fun a => map (map this) (a_rows a)) (po_ph o), map (map this) (a_rows (po_amp o)), po_tl o, po_te o)) l).
Definition see_cur (r : res (option (arr2 Qc))) : res (option (list (list Q))) := o <- r ;; Ok (option_map (fun a => map (map this) (a_rows a)) o).
(* three screens at 0, 1, 3 s, seen by a pupil of 2 pixels with the same pitch; factor 10 *)
Definition trio : psc := mkPSC 2 (qi 1) [img [[0; 1]; [2; 3]]; img [[4; 5]; [6; 7]]; img [[0; 1]; [2; 1]]]%Z [qi 0; qi 1; qi 3] (qi 1) (qi 10).
Definition sec (z : Z) : Z := (z * 1000000000)%Z.
Example C87_screen_example : see_cur (cur_screen trio 500000000) = Ok (Some [[20; 30]; [40; 50]]%Q) /\ see_cur (cur_screen trio (sec 2)) = Ok (Some [[20; 30]; [40; 40]]%Q) /\
  see_cur (cur_screen trio (sec 1)) = Ok (Some [[40; 50]; [60; 70]]%Q) /\ see_cur (cur_screen trio (sec 3)) = Ok (Some [[0; 10]; [20; 10]]%Q).
Proof. repeat split; vm_compute; reflexivity. Qed.
Example C87_too_long_example : psc_trigger trio (sec 4) (Some (img [[1; 1]; [1; 1]]%Z)) (psc_outputs 2 []) = Err ValueError. Proof. vm_compute. reflexivity. Qed.
Example C87_output_example : see_outs (turn trio (psc_outputs 2 [("a", qi 1); ("b", qi 1)]%string) (sec 2, img [[0; 1]; [1; 1]]%Z)) =
  Ok [("out_a_layer", Some [[20; 30]; [40; 40]]%Q, [[0; 1]; [1; 1]]%Q, sec 2, sec 2); ("out_b_layer", Some [[20; 30]; [40; 40]]%Q, [[0; 1]; [1; 1]]%Q, sec 2, sec 2)]%string.
Proof. vm_compute. reflexivity. Qed.
(* the setting of the theorems *)
Example C87_setting_example : exists g, setting trio 2 g [("a", qi 1)]%string /\ between trio 1 (seconds (sec 2)).
Proof.
  exists (fun k i j => ent qc (screen trio k) i j). split.
  - split; [|].
    + split; [reflexivity|]. split.
      * intros i j Hij Hj. cbn in Hj. assert (C : (i = 0 /\ j = 1 \/ i = 0 /\ j = 2 \/ i = 1 /\ j = 2)%nat) by lia. destruct C as [[-> ->]|[[-> ->]|[-> ->]]]; vm_compute; reflexivity.
      * intros i Hi. cbn in Hi. assert (C : (i = 0 \/ i = 1 \/ i = 2)%nat) by lia. assert (X : forall a : arr2 Qc, a_r a = 2%nat -> a_c a = 2%nat -> (forall x, In x (a_rows a) -> length x = 2%nat) -> image (A:=qc) 2 2 (fun i j => ent qc a i j) a) by (intros a R C' L; repeat split; auto).
        destruct C as [-> |[-> | ->]]; (apply X; [reflexivity|reflexivity|]; intros x [<-|[<-|[]]]; reflexivity).
    + split; [lia|]. split; [cbn; lia|]. split; [vm_compute; reflexivity|]. split; [vm_compute; reflexivity|]. split; [vm_compute; discriminate|]. intros s [<-|[]] a b E. cbn in E. do 3 (destruct a as [|? a]; [discriminate E|]; cbn in E; try discriminate E; injection E as _ E).
  - split; [cbn; lia|]. split; vm_compute; discriminate.
Qed.
Example C87_given_example : exists o l, sta_init Qc 0 (mkND [2; 2; 2] (map qi [1; 10; 2; 20; 3; 30; 4; 40]%Z)) [qi 0; qi 1] (-1) = Ok o /\ slices (sa_array o) = Ok l /\ map (fun a => map (map this) (a_rows a)) l = [[[1; 2]; [3; 4]]; [[10; 20]; [30; 40]]]%Q.
Proof. do 2 eexists. split; [reflexivity|]. split; [reflexivity|]. vm_compute. reflexivity. Qed.
(* Claim: before the first time the phase keeps the sign of the screens. *)
Theorem C87_before_refuted : exists p, pc_screens p = [img [[1; 1]; [1; 1]]; img [[1; 1]; [1; 1]]]%Z /\ pc_factor p = 1 /\ see_cur (cur_screen p 0) = Ok (Some [[-3; -3]; [-3; -3]]%Q).
Proof. exists (mkPSC 2 (qi 1) [img [[1; 1]; [1; 1]]; img [[1; 1]; [1; 1]]]%Z [qi 1; qi 2] (qi 1) (qi 1)). repeat split; vm_compute; reflexivity. Qed.
(* Claim: one screen alone is shown. *)
Theorem C87_single_refuted : exists p s, pc_screens p = [s] /\ pc_times p = [0] /\ cur_screen p 0 = Ok None.
Proof. eexists (mkPSC 2 (qi 1) [img [[1; 1]; [1; 1]]%Z] [0] (qi 1) (qi 1)), _. repeat split. Qed.
(* Claim: screens may be rectangles. *)
Theorem C87_rectangle_refuted : exists p g, cube p 2 3 g /\ between p 0 (seconds 0) /\ forall stop outs, psc_trigger p 0 stop outs = Err ValueError.
Proof.
  set (s := img [[1; 2; 3]; [4; 5; 6]]%Z). exists (mkPSC 2 (qi 1) [s; s] [0; qi 1] (qi 1) (qi 1)), (fun _ i j => ent qc s i j). split; [|split].
  - split; [reflexivity|]. split.
    + intros i j Hij Hj. cbn in Hj. assert (C : (i = 0 /\ j = 1)%nat) by lia. destruct C as [-> ->]. vm_compute. reflexivity.
    + intros i Hi. cbn in Hi. assert (C : (i = 0 \/ i = 1)%nat) by lia. destruct C as [-> | ->]; (split; [reflexivity|]; split; [reflexivity|]; split; [intros x [<-|[<-|[]]]; reflexivity|reflexivity]).
  - split; [cbn; lia|]. split; vm_compute; discriminate.
  - intros stop outs. unfold psc_trigger. match goal with |- context [psc_prepare ?p ?t] => assert (E : psc_prepare p t = Err ValueError) by (vm_compute; reflexivity); rewrite E end. reflexivity.
Qed.
(* Claim: sources may have any names. *)
Theorem C87_name_refuted : exists p stop, psc_trigger p 0 (Some stop) (psc_outputs 2 [("star", qi 1)]%string) <> Err KeyError /\ psc_trigger p 0 (Some stop) (psc_outputs 2 [("layer1", qi 1)]%string) = Err KeyError.
Proof. exists trio, (img [[1; 1]; [1; 1]]%Z). split; vm_compute; [discriminate|reflexivity]. Qed.
(* Claim: a cube larger than the pupil, with its pitch, is shown by its central pixels; a
   symmetric screen by a symmetric phase. *)
Theorem C87_crop_refuted : exists p s, s = img [[1; 2; 2; 1]; [1; 2; 2; 1]; [1; 2; 2; 1]; [1; 2; 2; 1]]%Z /\ p = mkPSC 2 (qi 1) [s; s] [0; qi 1] (qi 1) (qi 1) /\ see_cur (psc_prepare p 0) = Ok (Some [[7 # 4; 2]; [7 # 4; 2]]%Q).
Proof. do 2 eexists. split; [reflexivity|]. split; [reflexivity|]. vm_compute. reflexivity. Qed.

Print Assumptions C87_screen.
Print Assumptions C87_sample.
Print Assumptions C87_too_long.
Print Assumptions C87_output.
Print Assumptions C87_same.
Print Assumptions C87_slices.
Print Assumptions C87_given.
Print Assumptions C87_before_refuted.
Print Assumptions C87_single_refuted.
Print Assumptions C87_rectangle_refuted.
Print Assumptions C87_name_refuted.
Print Assumptions C87_crop_refuted.
Print Assumptions C88_last.
Print Assumptions C88_first.
Print Assumptions C88_refused.
Print Assumptions C88_roundtrip.
Print Assumptions C88_set.
Print Assumptions C88_times.
Print Assumptions C88_set_refuted.
Print Assumptions C88_times_refuted.
Print Assumptions C88_version.

(* Only arrays of three dimensions are cubes. *)
Theorem C87_not_cube (a : nd Qc) : length (nd_shape a) <> 3 -> slices a = Err IndexError.
Proof. intros H. unfold slices. destruct (nd_shape a) as [|? [|? [|? [|]]]]; try reflexivity. now cbn in H. Qed.
Print Assumptions C87_not_cube.
