From Coq Require Import String List ZArith Bool Lia.
From Verif Require Import PyBase PyLemmas ConnModel ConnSpec.
Import ListNotations.
Local Open Scope Z_scope.

Lemma dget_dset_eq {A} k (v : A) d : dget k (dset k v d) = Some v.
Proof.
  induction d as [|[k' v'] r IH]; cbn; [now rewrite String.eqb_refl|].
  destruct (String.eqb k k') eqn:E; cbn; [now rewrite String.eqb_refl|now rewrite E].
Qed.
Lemma dget_dset_neq {A} k k' (v : A) d : k <> k' -> dget k' (dset k v d) = dget k' d.
Proof.
  intros H. assert (H' : String.eqb k' k = false) by (apply String.eqb_neq; congruence).
  induction d as [|[a b] r IH]; cbn; [now rewrite H'|].
  destruct (String.eqb k a) eqn:E; cbn.
  - apply String.eqb_eq in E as <-. now rewrite H'.
  - destruct (String.eqb k' a); auto.
Qed.
Lemma dkeys_dset {A} k (v : A) d : dget k d <> None -> dkeys (dset k v d) = dkeys d.
Proof.
  induction d as [|[a b] r IH]; cbn; [congruence|].
  destruct (String.eqb k a) eqn:E; cbn.
  - apply String.eqb_eq in E as <-. reflexivity.
  - intros H. unfold dkeys in *. cbn. now rewrite IH.
Qed.
Lemma In_dget {A} k (v : A) d : NoDup (dkeys d) -> In (k, v) d -> dget k d = Some v.
Proof.
  induction d as [|[a b] r IH]; cbn; [easy|]. intros ND [E|E].
  - injection E as -> ->. now rewrite String.eqb_refl.
  - inversion_clear ND as [|? ? N1 N2]. destruct (String.eqb k a) eqn:E'; [|auto].
    apply String.eqb_eq in E' as ->. elim N1. unfold dkeys. now apply (in_map fst) in E.
Qed.

Section Proofs.
Variables A X : Type.
Notation dobj := (dobj A X).
Notation pv := (pv A X).
Notation Arr := (Arr A X).

Lemma np_assign_len (a b : list A) : length a = length b -> np_assign A a b = Ok a.
Proof. unfold np_assign. now intros ->%Nat.eqb_eq. Qed.
Lemma exact_assign_len (a b : list A) : length a = length b -> exact_assign A a b = Ok a.
Proof. unfold exact_assign. now intros ->%Nat.eqb_eq. Qed.

(* the destination can take the arrays of the source *)
Definition fits (force : bool) (dev : Z) (src dst : dict pv) : Prop :=
  forall k g l, In (k, Arr g l) src ->
  exists dv, dget k dst = Some dv /\
  (force = false -> forall gd ld, dv = Arr gd ld -> gd = (dev >=? 0) /\ length l = length ld).

Lemma transfer_fold dev src : -1 <= dev -> NoDup (dkeys src) ->
  forall dst force, fits force dev src dst ->
  exists dst' force', fold_res (transfer_attr A X dev) (dst, force) src = Ok (dst', force') /\
  dkeys dst' = dkeys dst /\
  (forall k g l, In (k, Arr g l) src -> dget k dst' = Some (Arr (dev >=? 0) l)) /\
  (forall k, (forall g l, ~ In (k, Arr g l) src) -> dget k dst' = dget k dst).
Proof.
  intros Hd. induction src as [|[k v] r IH]; intros ND dst force F.
  - exists dst, force. cbn. repeat split; easy.
  - inversion_clear ND as [|? ? N1 N2].
    assert (Hstep : exists dst1 f1, transfer_attr A X dev (dst, force) (k, v) = Ok (dst1, f1) /\
              dkeys dst1 = dkeys dst /\
              (forall g l, v = Arr g l -> dget k dst1 = Some (Arr (dev >=? 0) l)) /\
              ((forall g l, v <> Arr g l) -> dst1 = dst) /\
              (forall k', k' <> k -> dget k' dst1 = dget k' dst) /\ (force = true -> f1 = true)).
    { destruct v as [g l|a| |x]; try (exists dst, force; cbn; repeat split; easy).
      destruct (F k g l (or_introl eq_refl)) as [dv [E1 E2]].
      assert (Hk : forall w, dkeys (dset k w dst) = dkeys dst) by (intros; apply dkeys_dset; congruence).
      assert (Hgoal : forall f, (force = true -> f = true) -> exists dst1 f1, Ok (dset k (Arr (dev >=? 0) l) dst, f) = @Ok (dict pv * bool) (dst1, f1) /\
              dkeys dst1 = dkeys dst /\
              (forall g0 l0, Arr g l = Arr g0 l0 -> dget k dst1 = Some (Arr (dev >=? 0) l0)) /\
              ((forall g0 l0, Arr g l <> Arr g0 l0) -> dst1 = dst) /\
              (forall k', k' <> k -> dget k' dst1 = dget k' dst) /\ (force = true -> f1 = true)).
      { intros f Hf. exists (dset k (Arr (dev >=? 0) l) dst), f. split; [reflexivity|].
        split; [apply Hk|]. split; [intros g0 l0 E; injection E as _ <-; apply dget_dset_eq|].
        split; [intros H; elim (H g l eq_refl)|]. split; [|exact Hf]. intros k' H. now apply dget_dset_neq; congruence. }
      assert (Hre : (if dev >=? 0 then dset k (Arr true l) dst
                     else if dev =? -1 then dset k (Arr false l) dst else dst) =
                    dset k (Arr (dev >=? 0) l) dst).
      { destruct (dev >=? 0) eqn:D; [reflexivity|].
        replace (dev =? -1) with true; [reflexivity|]. symmetry. apply Z.eqb_eq.
        rewrite Z.geb_leb in D. apply Z.leb_gt in D. lia. }
      cbn [transfer_attr snd fst]. rewrite E1, Hre.
      destruct dv as [gd ld|?| |?]; cbn [is_arr negb];
        rewrite ?orb_false_r, ?orb_true_r; try (now apply Hgoal).
      destruct force; cbn [orb]; [now apply Hgoal|].
      destruct (E2 eq_refl gd ld eq_refl) as [-> HL].
      rewrite (np_assign_len _ _ HL), (exact_assign_len _ _ HL). cbn [bind].
      destruct (dev >=? 0) eqn:D.
      - destruct g; now apply Hgoal.
      - assert (Hm : dev =? -1 = true).
        { apply Z.eqb_eq. rewrite Z.geb_leb in D. apply Z.leb_gt in D. lia. }
        rewrite Hm. destruct g; now apply Hgoal. }
    destruct Hstep as (dst1 & f1 & S1 & S2 & S3 & S4 & S5 & S6).
    assert (F1 : fits f1 dev r dst1).
    { intros k' g l H. destruct (F k' g l (or_intror H)) as [dv [E1 E2]]. exists dv. split; [|intros ->; apply E2; destruct force; [symmetry; now apply S6|reflexivity]].
      rewrite S5; [exact E1|]. intros ->. apply N1. unfold dkeys. now apply (in_map fst) in H. }
    destruct (IH N2 dst1 f1 F1) as (dst' & f' & R1 & R2 & R3 & R4).
    exists dst', f'. cbn [fold_res]. rewrite S1. cbn [bind]. split; [exact R1|].
    split; [congruence|]. split.
    + intros k' g l [E|E]; [|now apply R3 with (g := g)]. injection E as -> ->.
      rewrite R4; [now apply S3 with (g := g)|].
      intros g' l' H. apply N1. unfold dkeys. now apply (in_map fst) in H.
    + intros k' H. rewrite R4; [|intros g l H'; now apply (H g l (or_intror H'))].
      destruct (string_dec k' k) as [->|Hn]; [|now apply S5].
      rewrite S4; [reflexivity|]. intros g l ->. now apply (H g l (or_introl eq_refl)).
Qed.

Lemma dset_same_none {T} k (d : dict T) v : dget k d = Some v -> dget k d <> None.
Proof. congruence. Qed.

(* transferDataTo on objects *)
Lemma transfer_ok (p c : dobj) force :
  NoDup (dkeys (d_attrs A X p)) -> -1 <= d_dev A X c ->
  (forall k l, array A X p k l -> exists dv, attr A X c k = Some dv /\
     (force = false -> forall gd ld, dv = Arr gd ld -> gd = (d_dev A X c >=? 0) /\ length l = length ld)) ->
  exists c', transferDataTo A X p c force = Ok c' /\
  d_dev A X c' = d_dev A X c /\ d_time A X c' = d_time A X p /\
  dkeys (d_attrs A X c') = dkeys (d_attrs A X c) /\
  (forall k l, array A X p k l -> attr A X c' k = Some (Arr (d_dev A X c >=? 0) l)) /\
  (forall k, (forall l, ~ array A X p k l) -> attr A X c' k = attr A X c k).
Proof.
  intros ND Hd F. destruct (transfer_fold (d_dev A X c) (d_attrs A X p) Hd ND (d_attrs A X c) force)
    as (a & f & E1 & E2 & E3 & E4).
  { intros k g l H. apply F. exists g. now apply In_dget. }
  exists (mkD A X a (d_dev A X c) (d_time A X p)). unfold transferDataTo. rewrite E1. cbn [bind fst].
  split; [reflexivity|]. split; [reflexivity|]. split; [reflexivity|]. split; [exact E2|].
  unfold attr. cbn [d_attrs]. split.
  - intros k l [g H]. apply (E3 k g l). now apply dget_In.
  - intros k H. apply E4. intros g l H'. apply (H l). exists g. now apply In_dget.
Qed.

(* a transfer of an allocated object to itself changes nothing *)
Lemma transfer_self (c : dobj) : allocated A X c ->
  exists c', transferDataTo A X c c false = Ok c' /\ d_dev A X c' = d_dev A X c /\
  d_time A X c' = d_time A X c /\ dkeys (d_attrs A X c') = dkeys (d_attrs A X c) /\
  forall k, attr A X c' k = attr A X c k.
Proof.
  intros (ND & Hd & Ha). destruct (transfer_ok c c false ND Hd) as (c' & E1 & E2 & E3 & E4 & E5 & E6).
  { intros k l [g H]. exists (Arr g l). split; [exact H|]. intros _ gd ld E. injection E as <- <-.
    split; [now apply (Ha k g l)|reflexivity]. }
  exists c'. split; [exact E1|]. split; [exact E2|]. split; [exact E3|]. split; [exact E4|].
  intros k. destruct (attr A X c k) as [[g l|a| |x]|] eqn:E.
  - rewrite (E5 k l); [|now exists g]. now rewrite (Ha k g l E).
  - rewrite E6; [exact E|]. intros l [g H]. congruence.
  - rewrite E6; [exact E|]. intros l [g H]. congruence.
  - rewrite E6; [exact E|]. intros l [g H]. congruence.
  - rewrite E6; [exact E|]. intros l [g H]. congruence.
Qed.

Lemma array_dec (p : dobj) k : (exists l, array A X p k l) \/ (forall l, ~ array A X p k l).
Proof.
  destruct (attr A X p k) as [[g l|a| |x]|] eqn:E; [left; exists l; now exists g|right..];
    intros l' [g' H]; congruence.
Qed.

(* the copy kept by an input that lives on another device *)
Definition mirrors (dev : Z) (c p : dobj) : Prop :=
  d_dev A X c = dev /\ NoDup (dkeys (d_attrs A X c)) /\
  d_time A X c = d_time A X p /\
  (forall k, attr A X c k = None <-> attr A X p k = None) /\
  (forall k l, array A X p k l -> attr A X c k = Some (Arr (dev >=? 0) l)) /\
  (forall k l, array A X c k l -> array A X p k l).

Lemma copy_mirrors dev (p : dobj) : -1 <= dev -> allocated A X p ->
  exists c, copyTo A X p dev = Ok c /\ mirrors dev c p /\
  (forall k, (forall l, ~ array A X p k l) -> attr A X c k = attr A X p k).
Proof.
  intros Hd (ND & Hp & Ha). unfold copyTo. destruct (dev =? d_dev A X p) eqn:E.
  - apply Z.eqb_eq in E. exists p. split; [reflexivity|]. split; [|reflexivity].
    split; [congruence|]. split; [exact ND|]. split; [reflexivity|]. split; [reflexivity|].
    split; [|easy]. intros k l [g H]. rewrite E, <- (Ha k g l H). exact H.
  - destruct (transfer_ok p (mkD A X (d_attrs A X p) dev (d_time A X p)) true ND Hd)
      as (c & E1 & E2 & E3 & E4 & E5 & E6).
    { intros k l [g H]. exists (Arr g l). split; [exact H|discriminate]. }
    cbn [d_dev d_attrs] in *. exists c. split; [exact E1|]. split; [|exact E6].
    split; [exact E2|]. split; [now rewrite E4|]. split; [exact E3|].
    split; [|split; [exact E5|]].
    + intros k. destruct (array_dec p k) as [[l Hl]|Hn].
      * rewrite (E5 k l Hl). destruct Hl as [g H]. split; congruence.
      * rewrite (E6 k Hn). reflexivity.
    + intros k l [g H]. destruct (array_dec p k) as [[l' Hl]|Hn].
      * rewrite (E5 k l' Hl) in H. injection H as _ <-. exact Hl.
      * rewrite (E6 k Hn) in H. elim (Hn l). now exists g.
Qed.

Lemma transfer_mirrors dev (c p p' : dobj) : -1 <= dev ->
  mirrors dev c p -> steady A X p p' -> NoDup (dkeys (d_attrs A X p')) ->
  exists c', transferDataTo A X p' c false = Ok c' /\ mirrors dev c' p' /\
  (forall k, (forall l, ~ array A X p' k l) -> attr A X c' k = attr A X c k).
Proof.
  intros Hd (M1 & M2 & M3 & M4 & M5 & M6) (S1 & S2 & S3) ND.
  destruct (transfer_ok p' c false ND) as (c' & E1 & E2 & E3 & E4 & E5 & E6).
  { now rewrite M1. }
  { intros k l [g H]. destruct (attr A X c k) as [dv|] eqn:E.
    - exists dv. split; [reflexivity|]. intros _ gd ld ->.
      assert (Hp : array A X p k ld) by (apply M6; now exists gd).
      pose proof (M5 k ld Hp) as Q. rewrite E in Q. injection Q as ->. rewrite M1.
      split; [reflexivity|]. destruct (S3 k ld Hp) as (l' & [g' H'] & HL). congruence.
    - apply M4, S2 in E. congruence. }
  rewrite M1 in *. exists c'. split; [exact E1|]. split; [|exact E6].
  split; [exact E2|]. split; [now rewrite E4|]. split; [exact E3|]. split; [|split; [exact E5|]].
  - intros k. destruct (array_dec p' k) as [[l Hl]|Hn].
    + rewrite (E5 k l Hl). destruct Hl as [g H]. split; congruence.
    + rewrite (E6 k Hn). now rewrite M4, S2.
  - intros k l [g H]. destruct (array_dec p' k) as [[l' Hl]|Hn].
    + rewrite (E5 k l' Hl) in H. injection H as _ <-. exact Hl.
    + rewrite (E6 k Hn) in H. assert (Hp : array A X p k l) by (apply M6; now exists g).
      destruct (S3 k l Hp) as (l' & H' & _). elim (Hn l' H').
Qed.

Lemma mirrors_up dev c p : mirrors dev c p -> up_to_date A X c p.
Proof.
  intros (M1 & M2 & M3 & M4 & M5 & M6). split; [|exact M3].
  intros k l H. exists (dev >=? 0). now apply M5.
Qed.

(* the successive fetches of an input on another device *)
Lemma fetch_rest dev ps : -1 <= dev -> Forall (allocated A X) ps ->
  Forall (fun p => d_dev A X p <> dev) ps ->
  forall c p, mirrors dev c p -> chain (steady A X) (p :: ps) ->
  exists cs, fetch_all A X dev ps (Some c) = Ok cs /\ Forall2 (mirrors dev) cs ps /\
  forall k, Forall (fun p => forall l, ~ array A X p k l) ps ->
            Forall (fun c' => attr A X c' k = attr A X c k) cs.
Proof.
  intros Hd. induction ps as [|p' ps IH]; intros Ha Hn c p M H.
  - exists []. split; [reflexivity|]. split; [constructor|]. constructor.
  - inversion_clear Ha as [|? ? A1 A2]. inversion_clear Hn as [|? ? N1 N2].
    destruct H as [S H]. destruct (transfer_mirrors dev c p p' Hd M S) as (c' & E1 & M' & E2); [apply A1|].
    destruct (IH A2 N2 c' p' M' H) as (cs & F1 & F2 & F3).
    exists (c' :: cs). cbn [fetch_all]. unfold item_get.
    rewrite (proj2 (Z.eqb_neq _ _) N1), E1. cbn [bind]. rewrite F1. cbn [bind].
    split; [reflexivity|]. split; [now constructor|].
    intros k Hk. inversion_clear Hk as [|? ? K1 K2]. constructor; [now apply E2|].
    eapply Forall_impl; [|apply (F3 k K2)]. cbn. intros c'' ->. now apply E2.
Qed.

Theorem fetch_ok dev p ps : -1 <= dev -> Forall (allocated A X) (p :: ps) ->
  chain (steady A X) (p :: ps) ->
  exists cs, fetch_all A X dev (p :: ps) None = Ok cs /\
  Forall2 (up_to_date A X) cs (p :: ps) /\
  (d_dev A X p <> dev ->
   forall k, Forall (fun p => forall l, ~ array A X p k l) (p :: ps) ->
             Forall (fun c => attr A X c k = attr A X p k) cs).
Proof.
  intros Hd Ha Hs.
  assert (Hdev : Forall (fun q => d_dev A X q = d_dev A X p) (p :: ps)).
  { constructor; [reflexivity|]. clear Ha. revert p Hs. induction ps as [|q r IH]; intros p Hs; [constructor|].
    destruct Hs as [S Hs]. constructor; [apply S|]. eapply Forall_impl; [|apply (IH q Hs)].
    cbn. intros z ->. apply S. }
  destruct (Z.eq_dec (d_dev A X p) dev) as [E|E].
  - exists (p :: ps). split; [|split].
    + assert (G : forall c, fetch_all A X dev (p :: ps) c = Ok (p :: ps)).
      { clear Ha Hs. induction (p :: ps) as [|q r IH]; [reflexivity|].
        inversion_clear Hdev as [|? ? D1 D2]. intros c. cbn [fetch_all]. unfold item_get.
        rewrite D1, E, Z.eqb_refl. cbn [bind]. rewrite (IH D2). reflexivity. }
      apply G.
    + clear. induction (p :: ps); constructor; [|assumption]. split; [auto|reflexivity].
    + easy.
  - inversion_clear Ha as [|? ? A1 A2]. destruct (copy_mirrors dev p Hd A1) as (c & E1 & M & E2).
    inversion_clear Hdev as [|? ? D1 D2].
    destruct (fetch_rest dev ps Hd A2) with (c := c) (p := p) as (cs & F1 & F2 & F3); auto.
    { eapply Forall_impl; [|exact D2]. cbn. congruence. }
    exists (c :: cs). cbn [fetch_all]. unfold item_get at 1. rewrite (proj2 (Z.eqb_neq _ _) E).
    rewrite E1. cbn [bind]. rewrite F1. cbn [bind]. split; [reflexivity|]. split.
    + constructor; [now apply mirrors_up with dev|]. clear -F2. induction F2; constructor; auto.
      now apply mirrors_up with dev.
    + intros _ k Hk. inversion_clear Hk as [|? ? K1 K2]. constructor; [now apply E2|].
      eapply Forall_impl; [|apply (F3 k K2)]. cbn. intros c'' ->. now apply E2.
Qed.

(* ------------------------------------------------------------------ messages *)
Section Wire.
Variable vn : string.
Notation gv := (get_value A X vn).

Lemma gv_attr d v : attr A X d vn = Some v -> gv d = v.
Proof. unfold get_value, attr. now intros ->. Qed.

(* what the receiver's copy has in common with the object sent last *)
Definition tracks (dev : Z) (c p : dobj) : Prop :=
  allocated A X c /\ d_dev A X c = dev /\ d_time A X c = d_time A X p /\
  same_value A X (gv c) (gv p) /\ (gv p = PyNone A X -> mirrors dev c p).

Lemma mirrors_alloc dev c p : -1 <= dev -> mirrors dev c p -> allocated A X c.
Proof.
  intros Hd (M1 & M2 & M3 & M4 & M5 & M6). split; [exact M2|]. split; [lia|].
  intros k g l H. assert (Hp : array A X p k l) by (apply M6; now exists g).
  rewrite (M5 k l Hp) in H. congruence.
Qed.

Lemma mirrors_value dev c p : mirrors dev c p ->
  (forall k, (forall l, ~ array A X p k l) -> k = vn -> attr A X c k = attr A X p k) ->
  sendable A X (gv p) -> same_value A X (gv c) (gv p).
Proof.
  intros (M1 & M2 & M3 & M4 & M5 & M6) H S.
  destruct (array_dec p vn) as [[l Hl]|Hn].
  - pose proof (gv_attr _ _ (M5 vn l Hl)) as ->. destruct Hl as [g Hg]. now rewrite (gv_attr _ _ Hg).
  - pose proof (H vn Hn eq_refl) as Q. unfold get_value in *. unfold attr in Q. rewrite Q.
    destruct (dget vn (d_attrs A X p)) as [[g l|a| |x]|]; cbn; auto.
Qed.

Lemma gv_not_array p k : gv p = PyNone A X -> k = vn -> forall l, ~ array A X p k l.
Proof. intros H -> l [g E]. apply gv_attr in E. congruence. Qed.

Lemma allocated_set (c : dobj) v t w : allocated A X c -> attr A X c vn = Some w ->
  (forall g l, v = Arr g l -> g = (d_dev A X c >=? 0)) ->
  allocated A X (mkD A X (dset vn v (d_attrs A X c)) (d_dev A X c) t).
Proof.
  intros (A1 & A2 & A3) E H. split; [|split; [exact A2|]]; cbn [d_attrs d_dev].
  - rewrite dkeys_dset; [exact A1|]. unfold attr in E. congruence.
  - intros k g l. unfold attr. cbn [d_attrs]. destruct (string_dec vn k) as [<-|N].
    + rewrite dget_dset_eq. intros Q. injection Q as ->. now apply (H g l).
    + rewrite dget_dset_neq by congruence. apply A3.
Qed.

(* one message *)
Lemma message_ok dev c p p' : -1 <= dev -> tracks dev c p ->
  allocated A X p' -> steady A X p p' -> vstep A X (gv p) (gv p') ->
  exists m c', send A X vn false p' (negb (is_none A X (gv p))) = Ok (m, negb (is_none A X (gv p'))) /\
  receive A X vn dev m (Some c) = Ok c' /\ tracks dev c' p' /\
  (forall k, k <> vn -> (gv p = PyNone A X -> forall l, ~ array A X p' k l) -> attr A X c' k = attr A X c k).
Proof.
  intros Hd (T1 & T2 & T3 & T4 & T5) Ha Hs Hv. unfold send.
  destruct (gv p) as [g l|a| |x] eqn:Ep; destruct (gv p') as [g' l'|a'| |x'] eqn:Ep'; cbn in Hv; try easy;
    cbn [is_none negb orb bind].
  - (* array, raw *)
    destruct (gv c) as [gc lc|?| |?] eqn:Ec; cbn in T4; try easy. subst lc.
    assert (Ec' : attr A X c vn = Some (Arr gc l)).
    { unfold get_value in Ec. unfold attr. destruct (dget vn (d_attrs A X c)); congruence. }
    pose (c1 := mkD A X (dset vn (Arr gc l') (d_attrs A X c)) (d_dev A X c) (d_time A X p')).
    assert (Ac1 : allocated A X c1).
    { apply (allocated_set c _ _ _ T1 Ec'). intros g0 l0 Q. injection Q as <- <-.
      now apply (proj2 (proj2 T1)) with vn l. }
    destruct (transfer_self c1 Ac1) as (c' & E1 & E2 & E3 & E4 & E5).
    eexists _, c'. split; [reflexivity|]. cbn [receive]. rewrite Ec. unfold fill. rewrite Hv, Nat.leb_refl.
    rewrite <- Hv. rewrite skipn_all, app_nil_r. cbn [bind]. split; [exact E1|].
    assert (Ev : attr A X c' vn = Some (Arr gc l')) by (rewrite E5; apply dget_dset_eq).
    split; [split; [|split; [|split; [|split]]]|].
    + split; [rewrite E4; apply Ac1|]. rewrite E2. split; [apply Ac1|].
      intros k g0 l0 H. rewrite E5 in H. exact (proj2 (proj2 Ac1) k g0 l0 H).
    + rewrite E2. exact T2.
    + exact E3.
    + rewrite (gv_attr _ _ Ev), Ep'. reflexivity.
    + rewrite Ep'. discriminate.
    + intros k Hk _. rewrite E5. unfold attr. cbn [c1 d_attrs]. now apply dget_dset_neq; congruence.
  - (* scalar, raw *)
    destruct (gv c) as [gc lc|ac| |?] eqn:Ec; cbn in T4; try easy. subst ac.
    assert (Ec' : attr A X c vn = Some (Scal A X a)).
    { unfold get_value in Ec. unfold attr. destruct (dget vn (d_attrs A X c)); congruence. }
    pose (c1 := mkD A X (dset vn (Scal A X a') (d_attrs A X c)) (d_dev A X c) (d_time A X p')).
    assert (Ac1 : allocated A X c1).
    { apply (allocated_set c _ _ _ T1 Ec'). discriminate. }
    destruct (transfer_self c1 Ac1) as (c' & E1 & E2 & E3 & E4 & E5).
    eexists _, c'. split; [reflexivity|]. cbn [receive]. rewrite Ec. split; [exact E1|].
    assert (Ev : attr A X c' vn = Some (Scal A X a')) by (rewrite E5; apply dget_dset_eq).
    split; [split; [|split; [|split; [|split]]]|].
    + split; [rewrite E4; apply Ac1|]. rewrite E2. split; [apply Ac1|].
      intros k g0 l0 H. rewrite E5 in H. exact (proj2 (proj2 Ac1) k g0 l0 H).
    + rewrite E2. exact T2.
    + exact E3.
    + rewrite (gv_attr _ _ Ev), Ep'. reflexivity.
    + rewrite Ep'. discriminate.
    + intros k Hk _. rewrite E5. unfold attr. cbn [c1 d_attrs]. now apply dget_dset_neq; congruence.
  - (* no value yet, pickle, array *)
    specialize (T5 eq_refl). assert (Ec : gv c = PyNone A X) by (destruct (gv c); easy).
    destruct (transfer_mirrors dev c p p' Hd T5 Hs (proj1 Ha)) as (c' & E1 & M & E2).
    eexists _, c'. split; [reflexivity|]. cbn [receive]. rewrite Ec. split; [exact E1|].
    split; [split; [|split; [|split; [|split]]]|].
    + now apply mirrors_alloc with dev p'.
    + apply M.
    + apply M.
    + apply (mirrors_value _ _ _ M); [|rewrite Ep'; exact I].
      intros k Hk ->. elim (Hk l'). exists g'. unfold attr. unfold get_value in Ep'.
      destruct (dget vn (d_attrs A X p')); congruence.
    + rewrite Ep'. discriminate.
    + intros k Hk Hn. apply E2. now apply Hn.
  - (* no value, pickle *)
    specialize (T5 eq_refl). assert (Ec : gv c = PyNone A X) by (destruct (gv c); easy).
    destruct (transfer_mirrors dev c p p' Hd T5 Hs (proj1 Ha)) as (c' & E1 & M & E2).
    assert (Hn : forall l, ~ array A X p' vn l) by now apply gv_not_array.
    assert (Ec' : gv c' = PyNone A X).
    { unfold get_value in *. unfold attr in E2. now rewrite (E2 vn Hn). }
    eexists _, c'. split; [reflexivity|]. cbn [receive]. rewrite Ec. split; [exact E1|].
    split; [split; [|split; [|split; [|split]]]|].
    + now apply mirrors_alloc with dev p'.
    + apply M.
    + apply M.
    + now rewrite Ec', Ep'.
    + intros _. exact M.
    + intros k Hk Hn'. apply E2. now apply Hn'.
Qed.

Lemma messages_ok dev ps : -1 <= dev -> Forall (allocated A X) ps ->
  forall c p, tracks dev c p -> chain (fun p p' => steady A X p p' /\ vstep A X (gv p) (gv p')) (p :: ps) ->
  exists ms cs, send_rest A X vn ps (negb (is_none A X (gv p))) = Ok ms /\
  receive_all A X vn dev ms (Some c) = Ok cs /\ Forall2 (tracks dev) cs ps.
Proof.
  intros Hd. induction ps as [|p' ps IH]; intros Ha c p T H.
  - exists [], []. repeat split. constructor.
  - inversion_clear Ha as [|? ? A1 A2]. destruct H as [[S V] H].
    destruct (message_ok dev c p p' Hd T A1 S V) as (m & c' & E1 & E2 & T' & _).
    destruct (IH A2 c' p' T' H) as (ms & cs & E3 & E4 & E5).
    exists (m :: ms), (c' :: cs). cbn [send_rest receive_all]. rewrite E1. cbn [bind fst snd].
    rewrite E3, E2. cbn [bind]. rewrite E4. split; [reflexivity|]. split; [reflexivity|]. now constructor.
Qed.

Theorem wire_ok dev p ps : -1 <= dev -> Forall (allocated A X) (p :: ps) -> sendable A X (gv p) ->
  chain (fun p p' => steady A X p p' /\ vstep A X (gv p) (gv p')) (p :: ps) ->
  exists ms cs, send_all A X vn p ps = Ok ms /\ receive_all A X vn dev ms None = Ok cs /\
  Forall2 (fun c q => same_value A X (gv c) (gv q) /\ d_time A X c = d_time A X q) cs (p :: ps).
Proof.
  intros Hd Ha Hv H. inversion_clear Ha as [|? ? A1 A2].
  destruct (copy_mirrors dev p Hd A1) as (c & E1 & M & E2).
  assert (T : tracks dev c p).
  { split; [now apply mirrors_alloc with dev p|]. split; [apply M|]. split; [apply M|].
    split; [|intros _; exact M]. apply (mirrors_value _ _ _ M); [|exact Hv]. intros k Hk _. now apply E2. }
  destruct (messages_ok dev ps Hd A2 c p T H) as (ms & cs & F1 & F2 & F3).
  exists (MPickle A X p :: ms), (c :: cs). unfold send_all, send. cbn [orb negb bind fst snd].
  rewrite F1. cbn [bind receive_all receive]. rewrite E1. cbn [bind]. rewrite F2. cbn [bind].
  split; [reflexivity|]. split; [reflexivity|]. constructor.
  - destruct T as (_ & _ & T3 & T4 & _). now split.
  - clear -F3. induction F3 as [|a b l l' T F IH]; constructor; [|exact IH]. destruct T as (_ & _ & T3 & T4 & _). now split.
Qed.

(* if only the value and the time change, the receiver sees exactly the object sent *)
Lemma messages_faithful dev ps : -1 <= dev -> Forall (allocated A X) ps ->
  forall c p, tracks dev c p -> d_dev A X p = dev -> allocated A X p ->
  (forall k, attr A X c k = attr A X p k) ->
  chain (fun p p' => steady A X p p' /\ vstep A X (gv p) (gv p') /\ only_value A X vn p p') (p :: ps) ->
  exists ms cs, send_rest A X vn ps (negb (is_none A X (gv p))) = Ok ms /\
  receive_all A X vn dev ms (Some c) = Ok cs /\
  Forall2 (fun c q => (forall k, attr A X c k = attr A X q k) /\ d_time A X c = d_time A X q) cs ps.
Proof.
  intros Hd. induction ps as [|p' ps IH]; intros Ha c p T Hdev Hap Hc H.
  - exists [], []. repeat split. constructor.
  - inversion_clear Ha as [|? ? A1 A2]. destruct H as [(S & V & O) H].
    destruct (message_ok dev c p p' Hd T A1 S V) as (m & c' & E1 & E2 & T' & E6).
    assert (Hdev' : d_dev A X p' = dev) by (rewrite <- Hdev; apply O).
    assert (Hc' : forall k, attr A X c' k = attr A X p' k).
    { intros k. destruct (string_dec k vn) as [->|N].
      - assert (Q : same_value A X (gv c') (gv p')) by (destruct T' as (_ & _ & _ & T4 & _); exact T4).
        assert (N1 : attr A X p' vn = None -> attr A X c' vn = attr A X p' vn).
        { intros Q1. assert (Q2 : attr A X p vn = None) by now apply S.
          assert (Q3 : gv p = PyNone A X).
          { unfold attr in Q2. unfold get_value. now rewrite Q2. }
          assert (Q5 : gv p' = PyNone A X).
          { unfold attr in Q1. unfold get_value. now rewrite Q1. }
          destruct T' as (_ & _ & _ & _ & M). specialize (M Q5).
          destruct M as (_ & _ & _ & M4 & _). rewrite Q1. now apply M4. }
        destruct (attr A X p' vn) as [v|] eqn:Ev; [|now apply N1].
        pose proof (gv_attr _ _ Ev) as Gv. rewrite Gv in Q.
        destruct (attr A X c' vn) as [w|] eqn:Ew.
        + pose proof (gv_attr _ _ Ew) as Gw. rewrite Gw in Q.
          destruct w as [g l|a| |x], v as [g' l'|a'| |x']; cbn in Q; try easy; [|congruence].
          subst. rewrite (proj2 (proj2 (proj1 T')) vn g l' Ew), (proj2 (proj2 A1) vn g' l' Ev).
          destruct T' as (_ & T2 & _). congruence.
        + assert (Gw : gv c' = PyNone A X) by (unfold get_value; unfold attr in Ew; now rewrite Ew).
          rewrite Gw in Q. destruct v as [g' l'|a'| |x']; cbn in Q; try easy.
          destruct T' as (_ & _ & _ & _ & M). specialize (M Gv). destruct M as (_ & _ & _ & M4 & _).
          apply M4 in Ew. congruence.
      - destruct O as [O1 O2]. rewrite (O2 k N), <- Hc.
        destruct (attr A X p' k) as [[g l|a| |x]|] eqn:Ek;
          try (apply E6; [exact N|]; intros _ l' [g' H']; congruence).
        (* another array: resent while pickling, kept otherwise *)
        destruct (gv p) eqn:Egp;
          try (apply E6; [exact N|]; discriminate).
        assert (Q := E2). revert Q. destruct T as (T1 & T2 & T3 & T4 & T5). specialize (T5 Egp).
        assert (Ec : gv c = PyNone A X) by (rewrite Egp in T4; destruct (gv c); easy).
        unfold send in E1. cbn in E1. injection E1 as <-. unfold receive. rewrite Ec.
        destruct (transfer_mirrors dev c p p' Hd T5 S (proj1 A1)) as (c'' & E3 & M & _).
        intros Q. rewrite E3 in Q. injection Q as ->. destruct M as (_ & _ & _ & _ & M5 & _).
        rewrite (M5 k l (ex_intro _ g Ek)), Hc, <- (O2 k N), Ek.
        rewrite (proj2 (proj2 A1) k g l Ek), Hdev'. reflexivity. }
    destruct (IH A2 c' p' T' Hdev' A1 Hc' H) as (ms & cs & E3 & E4 & E5).
    exists (m :: ms), (c' :: cs). cbn [send_rest receive_all]. rewrite E1. cbn [bind fst snd].
    rewrite E3, E2. cbn [bind]. rewrite E4. split; [reflexivity|]. split; [reflexivity|].
    constructor; [|exact E5]. split; [exact Hc'|]. destruct T' as (_ & _ & T3 & _). exact T3.
Qed.

Theorem wire_faithful p ps : Forall (allocated A X) (p :: ps) -> sendable A X (gv p) ->
  chain (fun p p' => steady A X p p' /\ vstep A X (gv p) (gv p') /\ only_value A X vn p p') (p :: ps) ->
  exists ms cs, send_all A X vn p ps = Ok ms /\ receive_all A X vn (d_dev A X p) ms None = Ok cs /\
  Forall2 (fun c q => (forall k, attr A X c k = attr A X q k) /\ d_time A X c = d_time A X q) cs (p :: ps).
Proof.
  intros Ha Hv H. inversion_clear Ha as [|? ? A1 A2].
  assert (Hd : -1 <= d_dev A X p) by apply A1.
  destruct (copy_mirrors (d_dev A X p) p Hd A1) as (c & E1 & M & E2).
  assert (Ecp : c = p) by (unfold copyTo in E1; rewrite Z.eqb_refl in E1; congruence). subst c.
  assert (T : tracks (d_dev A X p) p p).
  { split; [exact A1|]. split; [reflexivity|]. split; [reflexivity|]. split; [|intros _; exact M].
    destruct (gv p); cbn; easy. }
  destruct (messages_faithful (d_dev A X p) ps Hd A2 p p T eq_refl A1 (fun _ => eq_refl) H)
    as (ms & cs & F1 & F2 & F3).
  exists (MPickle A X p :: ms), (p :: cs). unfold send_all, send. cbn [orb negb bind fst snd].
  rewrite F1. cbn [bind receive_all receive]. rewrite E1. cbn [bind]. rewrite F2. cbn [bind].
  split; [reflexivity|]. split; [reflexivity|]. constructor; [|exact F3]. split; reflexivity.
Qed.
End Wire.
End Proofs.

(* ------------------------------------------------------------------ inputs *)
Section Inputs.
Variable Obj : Type.
Variable isinstance : Obj -> string -> bool.
Notation append := (append Obj isinstance).

Fixpoint arg_ind' (P : arg Obj -> Prop) (H1 : forall o, P (AObj Obj o))
  (H2 : forall l, Forall P l -> P (AList Obj l)) (x : arg Obj) : P x :=
  match x with
  | AObj _ o => H1 o
  | AList _ l => H2 l ((fix go (l : list (arg Obj)) : Forall P l := match l with [] => Forall_nil _
                                   | y :: r => Forall_cons _ (arg_ind' P H1 H2 y) (go r) end) l)
  end.

Lemma leaves_total x : exists l, leaves Obj x l.
Proof.
  induction x as [o|l IH] using arg_ind'; [exists [o]; constructor|].
  induction IH as [|x r [a Ha] _ [b Hb]]; [exists []; constructor|].
  exists (a ++ b). now constructor.
Qed.
Lemma leaves_fun x : forall l l', leaves Obj x l -> leaves Obj x l' -> l = l'.
Proof.
  induction x as [o|l IH] using arg_ind'; intros a b Ha Hb.
  - inversion Ha; inversion Hb; congruence.
  - revert a b Ha Hb. induction IH as [|x r H _ IH]; intros a b Ha Hb.
    + inversion Ha; inversion Hb; congruence.
    + inversion Ha; inversion Hb; subst. f_equal; auto.
Qed.

Notation item i := (in_items Obj i).

Lemma append_ok x : forall l i, leaves Obj x l ->
  (Forall (fun o => isinstance o (in_type Obj i) = true) l ->
   append x i = Ok (mkIn Obj (in_type Obj i) (in_optional Obj i) (item i ++ l))) /\
  (Exists (fun o => isinstance o (in_type Obj i) = false) l -> append x i = Err ValueError).
Proof.
  induction x as [o|l IH] using arg_ind'; intros z i Hl.
  - inversion Hl; subst. cbn. split; intros H.
    + apply Forall_inv in H. now rewrite H.
    + apply Exists_cons in H as [H|H]; [now rewrite H|inversion H].
  - cbn [ConnModel.append]. revert z i Hl. induction IH as [|x r H _ IH]; intros z i Hl.
    + inversion Hl; subst. split; [|intros H; inversion H]. intros _. rewrite app_nil_r. now destruct i.
    + inversion Hl; subst. destruct (H a i H2) as [P1 P2]. split.
      * intros F. apply Forall_app in F as [F1 F2]. rewrite (P1 F1). cbn [bind].
        rewrite (proj1 (IH b _ H4)); [|exact F2]. cbn. now rewrite app_assoc.
      * intros F. apply Exists_app in F. destruct (append x i) as [i'|e] eqn:E; cbn [bind].
        -- destruct F as [F|F]; [specialize (P2 F); congruence|].
           assert (Q : in_type Obj i' = in_type Obj i).
           { destruct (Forall_Exists_dec (fun o => isinstance o (in_type Obj i) = true)
               (fun o => bool_dec _ _) a) as [Fa|Fa].
             - specialize (P1 Fa). injection P1 as ->. reflexivity.
             - assert (Fa' : Exists (fun o => isinstance o (in_type Obj i) = false) a).
               { eapply Exists_impl; [|exact Fa]. cbn. intros o. now destruct (isinstance o (in_type Obj i)). }
               specialize (P2 Fa'). congruence. }
           apply (IH b i' H4). now rewrite Q.
        -- f_equal. destruct (Forall_Exists_dec (fun o => isinstance o (in_type Obj i) = true)
               (fun o => bool_dec _ _) a) as [Fa|Fa].
           ++ specialize (P1 Fa). congruence.
           ++ assert (Fa' : Exists (fun o => isinstance o (in_type Obj i) = false) a).
              { eapply Exists_impl; [|exact Fa]. cbn. intros o. now destruct (isinstance o (in_type Obj i)). }
              specialize (P2 Fa'). congruence.
Qed.

Definition run_op (o : iop Obj) (i : inputs Obj) : res (inputs Obj) :=
  match o with OSet _ x => set Obj isinstance x i | OApp _ x => append x i end.
Definition run_ops (ops : list (iop Obj)) (i : inputs Obj) : res (inputs Obj) :=
  fold_res (fun i o => run_op o i) i ops.

Lemma list_get_items i : list_get Obj i = item i.
Proof. unfold list_get. cbn. induction (item i) as [|o r IH]; [reflexivity|]. cbn. now f_equal. Qed.

(* all operations succeed exactly when all objects have the declared type *)
Lemma run_ops_ok ops : forall i,
  (forall o l, In o ops -> leaves Obj (iop_arg Obj o) l -> Forall (fun x => isinstance x (in_type Obj i) = true) l) ->
  exists z, connected Obj (item i) ops z /\
            run_ops ops i = Ok (mkIn Obj (in_type Obj i) (in_optional Obj i) z).
Proof.
  induction ops as [|o ops IH]; intros i H.
  - exists (item i). split; [constructor|]. now destruct i.
  - destruct (leaves_total (iop_arg Obj o)) as [l Hl].
    pose proof (H o l (or_introl eq_refl) Hl) as F.
    destruct o as [x|x]; cbn [iop_arg] in *; unfold run_ops; cbn [fold_res run_op].
    + unfold set. rewrite (proj1 (append_ok x l (mkIn Obj (in_type Obj i) (in_optional Obj i) []) Hl) F). cbn [bind app in_items].
      destruct (IH (mkIn Obj (in_type Obj i) (in_optional Obj i) l)) as (z & Z1 & Z2).
      { intros o' l' Hi. apply H. now right. }
      exists z. split; [now apply cn_set with l|exact Z2].
    + rewrite (proj1 (append_ok x l i Hl) F). cbn [bind].
      destruct (IH (mkIn Obj (in_type Obj i) (in_optional Obj i) (item i ++ l))) as (z & Z1 & Z2).
      { intros o' l' Hi. apply H. now right. }
      exists z. split; [now apply cn_app with l|exact Z2].
Qed.
Lemma run_ops_err ops : forall i o l,
  In o ops -> leaves Obj (iop_arg Obj o) l -> Exists (fun x => isinstance x (in_type Obj i) = false) l ->
  run_ops ops i = Err ValueError.
Proof.
  induction ops as [|o' ops IH]; intros i o l Hi Hl He; [easy|].
  unfold run_ops; cbn [fold_res].
  destruct (leaves_total (iop_arg Obj o')) as [l' Hl'].
  assert (D : run_op o' i = Err ValueError \/ exists i', run_op o' i = Ok i' /\ in_type Obj i' = in_type Obj i).
  { destruct (Forall_Exists_dec (fun o => isinstance o (in_type Obj i) = true)
               (fun o => bool_dec _ _) l') as [Fa|Fa].
    - right. destruct o' as [x|x]; cbn [run_op iop_arg] in *.
      + unfold set. eexists. split; [apply (proj1 (append_ok x l' (mkIn Obj (in_type Obj i) (in_optional Obj i) []) Hl') Fa)|reflexivity].
      + eexists. split; [apply (proj1 (append_ok x l' i Hl') Fa)|reflexivity].
    - left. assert (Fa' : Exists (fun o => isinstance o (in_type Obj i) = false) l').
      { eapply Exists_impl; [|exact Fa]. cbn. intros y. now destruct (isinstance y (in_type Obj i)). }
      destruct o' as [x|x]; cbn [run_op iop_arg] in *.
      + unfold set. now apply (proj2 (append_ok x l' (mkIn Obj (in_type Obj i) (in_optional Obj i) []) Hl')).
      + now apply (proj2 (append_ok x l' i Hl')). }
  destruct Hi as [->|Hi].
  - assert (E : run_op o i = Err ValueError).
    { destruct o as [x|x]; cbn [run_op iop_arg] in *.
      + unfold set. now apply (proj2 (append_ok x l (mkIn Obj (in_type Obj i) (in_optional Obj i) []) Hl)).
      + now apply (proj2 (append_ok x l i Hl)). }
    now rewrite E.
  - destruct D as [->|(i' & -> & Ht)]; [reflexivity|]. cbn [bind].
    apply (IH i' o l Hi Hl). now rewrite Ht.
Qed.
End Inputs.
