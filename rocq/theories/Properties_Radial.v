(* C104: radial profiles, width at half maximum, encircled energy. *)
From Coq Require Import List ZArith Bool Arith QArith Qcanon Qround Lqa Lia Sorted.
From Verif Require Import PyBase PyLemmas Arith OpticalModel NpModel SlopecModel InterpModel ScreenModel SlopecSpec FilterSpec SumLemmas QcTac SlopecProofs ShWeights MaskProofs GeomProofs RadialModel RadialSpec RadialProofs.
Import ListNotations.
Local Open Scope Qc_scope.

(* The profile has one entry for each whole distance at which there are pixels, in increasing order: the number of
   pixels, the mean of the image and the mean of the distance over the ring of width one. *)
Theorem C104_profile : forall root h w img cy cx p r n, (forall x, 0 <= root x) -> compute_radial_profile root h w img cy cx = (p, r, n) ->
  let dist := distance root (match cy with Some c => c | None => middle h end) (match cx with Some c => c | None => middle w end) in
  exists bins, StronglySorted lt bins /\ length p = length bins /\ length r = length bins /\ length n = length bins /\
  (forall i j, (i < h)%nat -> (j < w)%nat -> exists b, In b bins /\ qnat b <= dist i j /\ dist i j < qnat (S b)) /\
  forall t, (t < length bins)%nat -> let b := nth t bins 0%nat in let c := nth t n 0%nat in
    (0 < c)%nat /\ qnat c = flux h w (ring dist b (fun _ _ => 1)) /\ nth t p 0 * qnat c = flux h w (ring dist b img) /\
    nth t r 0 * qnat c = flux h w (ring dist b dist) /\ qnat b <= nth t r 0 /\ nth t r 0 < qnat (S b).
Proof.
  intros root h w img cy cx p r n R H dist. unfold compute_radial_profile, profile_of in H. injection H as <- <- <-.
  assert (D : dist_of root h w cy cx = dist) by (unfold dist_of, dist, centre; destruct cy, cx; reflexivity).
  set (l := samples root h w img cy cx) in *. exists (valid_bins l). split; [apply valid_sorted|]. rewrite !map_length. split; [reflexivity|]. split; [reflexivity|]. split; [reflexivity|]. split.
  - intros i j I J. set (q := (dist i j, img i j)). assert (Q : In q l) by (apply samples_in; exists i, j; rewrite D; auto).
    exists (bin q). assert (P : 0 <= fst q) by (cbn; apply R). rewrite <- !qn_qnat. destruct (proj1 (bin_spec q _ P) eq_refl) as [A B]. split; [|split; [exact A|exact B]].
    apply valid_in. unfold count. assert (I2 : In q (in_bin (bin q) l)) by (apply in_bin_in; auto). destruct (in_bin (bin q) l); [contradiction|cbn; lia].
  - intros t T b c. assert (V : In b (valid_bins l)) by (apply nth_In; exact T). apply valid_in in V.
    unfold c. rewrite !(nth_map _ _ _ 0%nat) by exact T. fold b. fold (count b l). rewrite <- !qn_qnat. split; [exact V|]. rewrite <- D.
    assert (M : forall f : Qc * Qc -> Qc, mean (map f (in_bin b l)) * qn (count b l) = lsum (map f (in_bin b l))) by (intros f; unfold count; rewrite <- (map_length f); apply mean_times; now rewrite map_length).
    split; [apply bin_count; exact R|]. split; [rewrite M; exact (bin_sum root h w img cy cx b snd R)|]. split; [rewrite M; exact (bin_sum root h w img cy cx b fst R)|].
    apply mean_upper; [exact V|]. intros q Q. apply in_bin_in in Q as [Q B]. apply bin_spec in B; [exact B|]. apply samples_in in Q as [i [j [_ [_ ->]]]]. cbn. apply R.
Qed.
Print Assumptions C104_profile.

(* nothing is lost: the counts add up to the pixels, the values times the counts to the image *)
Theorem C104_total : forall root h w img cy cx p r n, compute_radial_profile root h w img cy cx = (p, r, n) ->
  list_sum n = (h * w)%nat /\ sum (map (fun x => fst x * qnat (snd x)) (combine p n)) = flux h w img.
Proof.
  intros root h w img cy cx p r n H. unfold compute_radial_profile, profile_of in H. injection H as <- <- <-. set (l := samples root h w img cy cx) in *. split.
  - assert (Q : qn (list_sum (map (fun k => length (in_bin k l)) (valid_bins l))) = qn (h * w)).
    { transitivity (lsum (map (fun k => lsum (map (fun _ => 1) (in_bin k l))) (valid_bins l))).
      - generalize (valid_bins l) as v. induction v as [|k v IH]; [reflexivity|]. cbn [map list_sum lsum fold_right]. rewrite <- IH, lsum_const. replace (1 * qn (length (in_bin k l))) with (qn (length (in_bin k l))) by ring. fold (list_sum (map (fun k0 => length (in_bin k0 l)) v)).
        apply Qc_iff. rewrite this_add. unfold qn. rewrite !this_q. rewrite Nat2Z.inj_add, inject_Z_plus. reflexivity.
      - rewrite valid_total, lsum_const. unfold l. rewrite samples_length. ring. }
    apply Qc_iff in Q. unfold qn in Q. rewrite !this_q in Q. apply (proj1 (inject_Z_injective _ _)) in Q. now apply Nat2Z.inj.
  - rewrite <- lsum_sum. transitivity (lsum (map (fun k => lsum (map snd (in_bin k l))) (valid_bins l))); [|rewrite valid_total; unfold l; apply samples_sum].
    f_equal. rewrite <- energy_bins. unfold times. generalize (valid_bins l) as v. induction v as [|k v IH]; [reflexivity|]. cbn [map combine fst snd]. f_equal. exact IH.
Qed.
Print Assumptions C104_total.

(* the distances increase *)
Theorem C104_distances : forall root h w img cy cx p r n, (forall x, 0 <= root x) -> compute_radial_profile root h w img cy cx = (p, r, n) -> increasing r.
Proof.
  intros root h w img cy cx p r n R H i I. destruct (C104_profile root h w img cy cx p r n R H) as [bins [S [_ [L [_ [_ B]]]]]]. rewrite L in I.
  destruct (B i ltac:(lia)) as [_ [_ [_ [_ [_ A]]]]]. destruct (B (Datatypes.S i) I) as [_ [_ [_ [_ [C _]]]]]. pose proof (sorted_nth _ S i (Datatypes.S i) ltac:(lia) I) as M.
  assert (Q := qn_le (Datatypes.S (nth i bins 0%nat)) (nth (Datatypes.S i) bins 0%nat) ltac:(lia)). exact (Qclt_le_trans _ _ _ A (Qcle_trans _ _ _ Q C)).
Qed.
Print Assumptions C104_distances.

(* the mean stays between the extremes of the image *)
Theorem C104_bounds : forall root h w img cy cx p r n a b, compute_radial_profile root h w img cy cx = (p, r, n) ->
  (forall i j, (i < h)%nat -> (j < w)%nat -> a <= img i j /\ img i j <= b) -> forall x, In x p -> a <= x /\ x <= b.
Proof.
  intros root h w img cy cx p r n a b H A x X. unfold compute_radial_profile, profile_of in H. injection H as <- _ _. apply in_map_iff in X as [k [<- K]]. apply valid_in in K. apply mean_bounds; [exact K|].
  intros q Q. apply in_bin_in in Q as [Q _]. apply samples_in in Q as [i [j [I [J ->]]]]. now apply A.
Qed.
Print Assumptions C104_bounds.

(* the profile is linear in the image, the rest does not depend on the image *)
Theorem C104_linear : forall root h w f g cy cx a b pf rf nf pg rg ng, compute_radial_profile root h w f cy cx = (pf, rf, nf) -> compute_radial_profile root h w g cy cx = (pg, rg, ng) ->
  rf = rg /\ nf = ng /\ compute_radial_profile root h w (fun i j => a * f i j + b * g i j) cy cx = (map (fun x => a * fst x + b * snd x) (combine pf pg), rf, nf).
Proof.
  intros root h w f g cy cx a b pf rf nf pg rg ng F G. unfold compute_radial_profile, profile_of in *. injection F as <- <- <-. injection G as <- <- <-.
  rewrite (valid_shape root h w f g cy cx), (valid_shape root h w (fun i j => a * f i j + b * g i j) g cy cx). set (v := valid_bins (samples root h w g cy cx)).
  assert (E : forall f1 f2, map (fun k => mean (map fst (in_bin k (samples root h w f1 cy cx)))) v = map (fun k => mean (map fst (in_bin k (samples root h w f2 cy cx)))) v).
  { intros f1 f2. apply map_ext. intros k. f_equal. apply dist_shape. }
  assert (N : forall f1 f2, map (fun k => length (in_bin k (samples root h w f1 cy cx))) v = map (fun k => length (in_bin k (samples root h w f2 cy cx))) v).
  { intros f1 f2. apply map_ext. intros k. apply count_shape. }
  split; [apply E|]. split; [apply N|]. f_equal; [f_equal; [|apply E]|apply N].
  rewrite combine_map, map_map. apply map_ext. intros k. cbn [fst snd]. unfold mean. rewrite !map_length, (count_shape root h w _ g cy cx k), (count_shape root h w f g cy cx k), (sum_linear root h w f g cy cx a b k).
  unfold Qcdiv. ring.
Qed.
Print Assumptions C104_linear.

(* ------------------------------------------------------------------- encircled energy *)
(* With the counts of the profile, the entry of a ring is the share of the image inside the outer radius of the ring. *)
Theorem C104_energy : forall root h w img cy cx p r n, (forall x, 0 <= root x) -> compute_radial_profile root h w img cy cx = (p, r, n) -> flux h w img <> 0 ->
  let dist := distance root (match cy with Some c => c | None => middle h end) (match cx with Some c => c | None => middle w end) in
  exists ee, compute_encircled_energy p (Some (map qnat n)) None true = Ok ee /\ length ee = length r /\
  forall t, (t < length r)%nat -> exists b, qnat b <= nth t r 0 /\ nth t r 0 < qnat (S b) /\ nth t ee 0 * flux h w img = flux h w (inside dist (qnat (S b)) img).
Proof.
  intros root h w img cy cx p r n R H F dist. unfold compute_encircled_energy, bin_energy. pose proof (C104_profile root h w img cy cx p r n R H) as C. unfold compute_radial_profile, profile_of in H. injection H as <- <- <-.
  assert (D : dist_of root h w cy cx = dist) by (unfold dist_of, dist, centre; destruct cy, cx; reflexivity). clear C.
  set (l := samples root h w img cy cx) in *. rewrite !map_length, Nat.eqb_refl. cbn [bind]. change qnat with qn. rewrite energy_bins. eexists. split; [reflexivity|]. rewrite accumulate_length, map_length. split; [reflexivity|].
  intros t T. assert (X : lsum (map (fun k => lsum (map snd (in_bin k l))) (valid_bins l)) = flux h w img) by (rewrite valid_total; unfold l; apply samples_sum).
  exists (nth t (valid_bins l) 0%nat). rewrite (nth_map _ _ _ 0%nat) by exact T. set (b := nth t (valid_bins l) 0%nat). assert (V : In b (valid_bins l)) by (apply nth_In; exact T). apply valid_in in V.
  assert (M : qn b <= mean (map fst (in_bin b l)) /\ mean (map fst (in_bin b l)) < qn (S b)).
  { apply mean_upper; [exact V|]. intros q Q. apply in_bin_in in Q as [Q B]. apply bin_spec in B; [exact B|]. apply samples_in in Q as [i [j [_ [_ ->]]]]. cbn. apply R. }
  split; [apply M|]. split; [apply M|]. rewrite accumulate_nth by now rewrite map_length. rewrite X. destruct (Qc_eq_dec (flux h w img) 0); [contradiction|]. rewrite qdivmul by assumption.
  rewrite firstn_map', (firstn_le _ (valid_sorted l)) by exact T. fold b. rewrite (valid_partial snd b l). unfold l. rewrite samples_sum. apply flux_ext. intros i j I J. unfold inside. rewrite bin_le by (cbn; apply R). cbn [fst snd]. rewrite D. reflexivity.
Qed.
Print Assumptions C104_energy.

(* of any profile that is nowhere negative, with or without counts, the curve rises to one *)
Theorem C104_rises : forall p counts r ee, (forall x, In x p -> 0 <= x) -> (forall l, counts = Some l -> forall x, In x l -> 0 <= x) ->
  compute_encircled_energy p counts r true = Ok ee -> (exists x, In x ee /\ x <> 0) -> ascending ee /\ last ee 0 = 1 /\ forall x, In x ee -> 0 <= x /\ x <= 1.
Proof.
  intros p counts r ee P C H [z [Z N]]. unfold compute_encircled_energy in H. inv_bind H. apply (f_equal (fun r => match r with Ok x => x | Err _ => ee end)) in H. subst ee.
  assert (G : forall x, In x a -> 0 <= x).
  { assert (TT : forall q, (forall x, In x q -> 0 <= x) -> forall x, In x (times p q) -> 0 <= x).
    { intros q Q x X. unfold times in X. apply in_map_iff in X as [[u v] [<- X]]. cbn [fst snd]. apply Qcmult_le_0_compat'; [apply P; now apply in_combine_l in X|apply Q; now apply in_combine_r in X]. }
    assert (AA : forall l x, In x (annulus l) -> 0 <= x).
    { intros l x X. unfold annulus in X. apply in_map_iff in X as [u [<- _]]. unfold qmax. destruct (qlt _ 0) eqn:L; [apply Qcle_refl|]. qclra. }
    unfold bin_energy in E. destruct counts as [q|].
    - destruct (_ =? _)%nat; [|discriminate]. injection E as <-. apply TT. now apply C.
    - destruct (negb _); [discriminate|]. destruct p as [|x [|y p]]; injection E as <-; [contradiction| |apply TT; apply AA].
      intros u [<-|[]]. set (o := qmax _ _). apply Qcmult_le_0_compat'; [apply P; now left|]. unfold Qcle. rewrite this_mul. change (this 0) with 0%Q. nra. }
  apply curve_rises; [exact G|]. intros T. apply N. apply (In_nth _ _ 0) in Z as [t [L <-]]. rewrite accumulate_length in L. rewrite accumulate_nth by exact L. rewrite T. destruct (Qc_eq_dec 0 0) as [_|X]; [|contradiction X; reflexivity].
  destruct (firstn_bounds a (S t) G) as [A B]. rewrite T in B. apply Qcle_antisym; assumption.
Qed.
Print Assumptions C104_rises.

(* refused exactly for arrays of different sizes *)
Theorem C104_energy_refused : forall p counts r normalize e, compute_encircled_energy p counts r normalize = Err e <->
  e = ValueError /\ match counts, r with Some n, _ => length n <> length p | None, Some d => length d <> length p | None, None => False end.
Proof.
  intros p counts r normalize e. unfold compute_encircled_energy, bin_energy. destruct counts as [n|].
  - destruct (Nat.eqb_spec (length n) (length p)) as [E|E]; cbn [bind]; split; try discriminate; try tauto; [intros [= <-]; auto|intros [-> _]; reflexivity].
  - destruct r as [d|].
    + destruct (Nat.eqb_spec (length d) (length p)) as [E|E]; cbn [negb bind].
      * split; [destruct p as [|? [|? ?]]; discriminate|tauto].
      * split; [intros [= <-]; auto|intros [-> _]; reflexivity].
    + unfold arange at 1. rewrite map_length, seq_length, Nat.eqb_refl. cbn [negb]. split; [destruct p as [|? [|? ?]]; discriminate|tauto].
Qed.
Print Assumptions C104_energy_refused.

(* without counts, the rings end halfway to the next distance: for a uniform profile the curve is the ratio of the areas *)
Theorem C104_areas : forall c r t, c <> 0 -> (2 <= length r)%nat -> increasing r -> 0 <= nth 0 r 0 -> (t < length r)%nat ->
  let radius t := if Nat.eq_dec (S t) (length r) then nth t r 0 + (nth t r 0 - nth (t - 1) r 0) / (1 + 1) else (nth t r 0 + nth (S t) r 0) / (1 + 1) in
  exists ee, compute_encircled_energy (repeat c (length r)) None (Some r) true = Ok ee /\ length ee = length r /\
  nth t ee 0 * (radius (length r - 1)%nat * radius (length r - 1)%nat) = radius t * radius t.
Proof.
  intros c r t C L I P T radius. assert (RR : forall s, (s < length r)%nat -> radius s = outer_radius r s).
  { intros s S. unfold radius, outer_radius. destruct (Nat.eq_dec (Datatypes.S s) (length r)) as [E|E]; [destruct (Nat.ltb_spec (Datatypes.S s) (length r)); [lia|reflexivity]|]. destruct (Nat.ltb_spec (Datatypes.S s) (length r)); [|lia]. unfold two. f_equal. ring. }
  unfold compute_encircled_energy, bin_energy. rewrite repeat_length, Nat.eqb_refl. cbn [negb].
  destruct (length r) as [|[|n]] eqn:N; [lia|lia|]. cbn [repeat]. change (c :: c :: repeat c n) with (repeat c (S (S n))). rewrite (times_const c _ (annulus r)) by (rewrite annulus_length by lia; exact N). cbn [bind].
  assert (A : lsum (annulus r) = outer_radius r (S n) * outer_radius r (S n)).
  { rewrite <- (annulus_area r (S n)) by (assumption || lia). rewrite <- (firstn_all (annulus r)) at 1. rewrite annulus_length by lia. now rewrite N. }
  assert (Z : 0 < outer_radius r (S n)).
  { unfold outer_radius. rewrite N. destruct (Nat.ltb_spec (S (S n)) (S (S n))); [lia|]. replace (S n - 1)%nat with n by lia. assert (X := I n ltac:(lia)). assert (Y : 0 <= nth n r 0). { destruct n as [|n]; [exact P|]. apply Qcle_trans with (nth 0 r 0); [exact P|apply Qclt_le_weak, (increasing_lt r I); lia]. }
    unfold Qclt, Qcle in *. rewrite this_add, this_half, this_sub. change (this 0) with 0%Q in *. lra. }
  assert (ZN := nz_pos _ Z). assert (ZZ : lsum (annulus r) <> 0) by (rewrite A; intros X; apply Qcmult_integral in X as [X|X]; contradiction).
  rewrite accumulate_scale by assumption. eexists. split; [reflexivity|]. rewrite accumulate_length, annulus_length by lia. split; [exact N|].
  rewrite accumulate_nth by (rewrite annulus_length; lia). destruct (Qc_eq_dec (lsum (annulus r)) 0); [contradiction|]. rewrite annulus_area by (assumption || lia). rewrite A, !RR by lia. replace (S (S n) - 1)%nat with (S n) by lia. field. exact ZN.
Qed.
Print Assumptions C104_areas.

(* ------------------------------------------------------------------- the energy at a distance *)
Theorem C104_lookup_refused : forall ee r d, (forall e, energy_at ee r d = Err e <-> e = ValueError /\ length ee <> length r) /\ (energy_at ee r d = Ok None <-> ee = [] /\ r = []).
Proof.
  intros ee r d. unfold energy_at. destruct (Nat.eqb_spec (length r) (length ee)) as [E|E]; cbn [negb].
  - destruct (Nat.eqb_spec (length r) 0) as [Z|Z].
    + split; [intros e; split; [discriminate|intros [_ X]; lia]|]. destruct r; [|discriminate]. destruct ee; [|discriminate]. split; auto.
    + split; [intros e; split; [discriminate|intros [_ X]; lia]|]. split; [discriminate|]. intros [-> ->]. exfalso; apply Z; reflexivity.
  - split; [intros e; split; [intros [= <-]; split; [reflexivity|auto]|intros [-> _]; reflexivity]|]. split; [discriminate|]. intros [-> ->]. exfalso; apply E; reflexivity.
Qed.
Print Assumptions C104_lookup_refused.
(* straight lines between the points, constant outside *)
Theorem C104_lookup : forall ee r d, length ee = length r -> (0 < length r)%nat -> increasing r ->
  (d <= nth 0 r 0 -> energy_at ee r d = Ok (Some (nth 0 ee 0))) /\ (nth (length r - 1) r 0 <= d -> energy_at ee r d = Ok (Some (nth (length r - 1) ee 0))) /\
  (forall i, (S i < length r)%nat -> nth i r 0 <= d -> d <= nth (S i) r 0 ->
    exists v, energy_at ee r d = Ok (Some v) /\ (v - nth i ee 0) * (nth (S i) r 0 - nth i r 0) = (d - nth i r 0) * (nth (S i) ee 0 - nth i ee 0)).
Proof.
  intros ee r d E L I. split; [intros; now apply energy_before|]. split; [intros; now apply energy_after|]. intros i H A B. eexists. split; [exact (energy_inside ee r d i E I H A B)|].
  assert (G := I i H). assert (N : nth (S i) r 0 - nth i r 0 <> 0) by (apply nz_pos; qclra). field. exact N.
Qed.
Print Assumptions C104_lookup.
Theorem C104_lookup_exact : forall ee r i, length ee = length r -> increasing r -> (i < length r)%nat -> energy_at ee r (nth i r 0) = Ok (Some (nth i ee 0)).
Proof.
  intros ee r i E I L. destruct (Nat.eq_dec (S i) (length r)) as [X|X].
  - replace i with (length r - 1)%nat by lia. apply energy_after; [exact E|lia|apply Qcle_refl].
  - rewrite (energy_inside ee r _ i E I) by (lia || apply Qcle_refl || (apply Qclt_le_weak, I; lia)). f_equal. f_equal. replace (nth i r 0 - nth i r 0) with 0 by ring. unfold Qcdiv. ring.
Qed.
Print Assumptions C104_lookup_exact.
(* a rising curve stays rising, between its ends *)
Theorem C104_lookup_rises : forall ee r d d', length ee = length r -> (0 < length r)%nat -> increasing r -> ascending ee -> d <= d' ->
  exists v v', energy_at ee r d = Ok (Some v) /\ energy_at ee r d' = Ok (Some v') /\ nth 0 ee 0 <= v /\ v <= v' /\ v' <= nth (length ee - 1) ee 0.
Proof.
  intros ee r d d' E L I A D.
  assert (AA : forall i j, (i <= j)%nat -> (j < length r)%nat -> nth i ee 0 <= nth j ee 0).
  { intros i j IJ. induction IJ as [|j IJ IH]; intros J; [apply Qcle_refl|]. apply Qcle_trans with (nth j ee 0); [apply IH; lia|apply A; lia]. }
  assert (RI : forall i, (S i < length r)%nat -> 0 < nth (S i) r 0 - nth i r 0) by (intros i H; assert (G := I i H); qclra).
  assert (LN : forall a b x y, 0 < y - x -> a <= b -> forall z z', x <= z -> z <= z' -> z' <= y -> a <= a + (z - x) * (b - a) / (y - x) /\ a + (z - x) * (b - a) / (y - x) <= a + (z' - x) * (b - a) / (y - x) /\ a + (z' - x) * (b - a) / (y - x) <= b).
  { intros a b x y P Q z z' Z1 Z2 Z3. assert (N := nz_pos _ P). assert (P0 : 0 <= b - a) by qclra. set (u := y - x) in *.
    assert (M : forall s s', s <= s' -> s * (b - a) / u <= s' * (b - a) / u). { intros s s' S. apply div_le; [exact P|]. unfold Qcle in *. rewrite !this_mul. change (this 0) with 0%Q in *. nra. }
    assert (M0 := M 0 (z - x) ltac:(qclra)). assert (M1 := M (z - x) (z' - x) ltac:(qclra)). assert (M2 := M (z' - x) u ltac:(unfold u; qclra)).
    replace (0 * (b - a) / u) with 0 in M0 by (field; exact N). replace (u * (b - a) / u) with (b - a) in M2 by (field; exact N). repeat split; qclra. }
  assert (RR : forall i j, (i < j)%nat -> (j < length r)%nat -> nth i r 0 < nth j r 0) by (now apply increasing_lt).
  rewrite E. destruct (locate r d L) as [H|[H|[i [Hi [H1 H2]]]]].
  - rewrite (energy_before ee r d E I L H). destruct (locate r d' L) as [H'|[H'|[i' [Hi' [H1' H2']]]]].
    + rewrite (energy_before ee r d' E I L H'). exists (nth 0 ee 0), (nth 0 ee 0). repeat split; try apply Qcle_refl. apply AA; lia.
    + rewrite (energy_after ee r d' E L H'). eexists _, _. split; [reflexivity|]. split; [reflexivity|]. repeat split; try apply Qcle_refl. apply AA; lia.
    + rewrite (energy_inside ee r d' i' E I Hi' H1' H2'). eexists _, _. split; [reflexivity|]. split; [reflexivity|].
      destruct (LN (nth i' ee 0) (nth (S i') ee 0) _ _ (RI i' Hi') (AA i' (S i') ltac:(lia) Hi') d' d' H1' (Qcle_refl _) H2') as [B1 [_ B3]]. split; [apply Qcle_refl|]. split; [eapply Qcle_trans; [apply (AA 0%nat i'); lia|exact B1]|eapply Qcle_trans; [exact B3|apply AA; lia]].
  - assert (H' : nth (length r - 1) r 0 <= d') by (apply Qcle_trans with d; assumption). rewrite (energy_after ee r d E L H), (energy_after ee r d' E L H'). eexists _, _. split; [reflexivity|]. split; [reflexivity|]. repeat split; try apply Qcle_refl. apply AA; lia.
  - rewrite (energy_inside ee r d i E I Hi H1 H2).
    destruct (LN (nth i ee 0) (nth (S i) ee 0) _ _ (RI i Hi) (AA i (S i) ltac:(lia) Hi) d d H1 (Qcle_refl _) H2) as [B1 [_ B3]].
    destruct (locate r d' L) as [H'|[H'|[i' [Hi' [H1' H2']]]]].
    + (* only at the first point *)
      destruct i as [|i].
      * assert (X : d' = nth 0 r 0) by (apply Qcle_antisym; [exact H'|apply Qcle_trans with d; assumption]). assert (Y : d = nth 0 r 0) by (apply Qcle_antisym; [rewrite <- X; exact D|exact H1]).
        rewrite (energy_before ee r d' E I L H'). eexists _, _. split; [reflexivity|]. split; [reflexivity|]. rewrite Y. replace (nth 0 r 0 - nth 0 r 0) with 0 by ring. replace (nth 0 ee 0 + 0 * (nth 1 ee 0 - nth 0 ee 0) / (nth 1 r 0 - nth 0 r 0)) with (nth 0 ee 0) by (unfold Qcdiv; ring). repeat split; try apply Qcle_refl. apply AA; lia.
      * exfalso. assert (X := RR 0%nat (S i) ltac:(lia) ltac:(lia)). apply (Qclt_not_le _ _ X). apply Qcle_trans with d; [exact H1|]. apply Qcle_trans with d'; assumption.
    + rewrite (energy_after ee r d' E L H'). eexists _, _. split; [reflexivity|]. split; [reflexivity|]. split; [eapply Qcle_trans; [apply (AA 0%nat i); lia|exact B1]|]. split; [eapply Qcle_trans; [exact B3|apply AA; lia]|apply Qcle_refl].
    + rewrite (energy_inside ee r d' i' E I Hi' H1' H2'). destruct (LN (nth i' ee 0) (nth (S i') ee 0) _ _ (RI i' Hi') (AA i' (S i') ltac:(lia) Hi') d' d' H1' (Qcle_refl _) H2') as [C1 [_ C3]].
      eexists _, _. split; [reflexivity|]. split; [reflexivity|]. split; [eapply Qcle_trans; [apply (AA 0%nat i); lia|exact B1]|]. split; [|eapply Qcle_trans; [exact C3|apply AA; lia]].
      destruct (Nat.lt_trichotomy i i') as [X|[X|X]].
      * eapply Qcle_trans; [exact B3|]. eapply Qcle_trans; [apply (AA (S i) i'); lia|exact C1].
      * subst i'. destruct (LN (nth i ee 0) (nth (S i) ee 0) _ _ (RI i Hi) (AA i (S i) ltac:(lia) Hi) d d' H1 D H2') as [_ [X _]]. exact X.
      * (* the cells touch *)
        assert (Y : i = S i'). { destruct (Nat.eq_dec i (S i')) as [Y|Y]; [exact Y|]. exfalso. assert (Z := RR (S i') i ltac:(lia) ltac:(lia)). apply (Qclt_not_le _ _ Z). apply Qcle_trans with d; [exact H1|]. apply Qcle_trans with d'; assumption. }
        subst i. assert (Z : d' = nth (S i') r 0) by (apply Qcle_antisym; [exact H2'|apply Qcle_trans with d; assumption]). assert (W : d = nth (S i') r 0) by (apply Qcle_antisym; [rewrite <- Z; exact D|exact H1]).
        rewrite W, Z. replace (nth (S i') r 0 - nth (S i') r 0) with 0 by ring. replace (nth (S i') ee 0 + 0 * (nth (S (S i')) ee 0 - nth (S i') ee 0) / (nth (S (S i')) r 0 - nth (S i') r 0)) with (nth (S i') ee 0) by (unfold Qcdiv; ring).
        assert (N := nz_pos _ (RI i' Hi')). replace (nth i' ee 0 + (nth (S i') r 0 - nth i' r 0) * (nth (S i') ee 0 - nth i' ee 0) / (nth (S i') r 0 - nth i' r 0)) with (nth (S i') ee 0) by (field; exact N). apply Qcle_refl.
Qed.
Print Assumptions C104_lookup_rises.

(* ------------------------------------------------------------------- width at half maximum *)
Theorem C104_width_none : forall p r, (forall e, compute_fwhm p r = Err e <-> e = ValueError /\ match r with Some d => length d <> length p | None => False end) /\
  (match r with Some d => length d = length p | None => True end -> forall peak, is_peak peak p ->
    (peak <= 0 -> compute_fwhm p r = Ok (Some 0)) /\ (0 < peak -> (compute_fwhm p r = Ok None <-> forall i, (0 < i < length p)%nat -> peak / (1 + 1) < nth i p 0))).
Proof.
  intros p r. unfold compute_fwhm. set (d := match r with Some x => x | None => arange (length p) end). assert (N : r = None -> length d = length p) by (intros ->; unfold d, arange; now rewrite map_length, seq_length).
  destruct (Nat.eqb_spec (length d) (length p)) as [E|E]; cbn [negb].
  - split.
    + intros e. split; [|intros [_ X]; unfold d in E; destruct r; [contradiction|contradiction]]. destruct (_ =? _)%nat; [discriminate|]. destruct (negb _); [discriminate|]. destruct (filter _ _); discriminate.
    + intros _ peak PK. assert (P0 : p <> []) by (destruct PK as [X _]; destruct p; [contradiction|discriminate]). destruct (Nat.eqb_spec (length p) 0) as [Z|Z]; [destruct p; [contradiction|discriminate]|].
      rewrite (peak_unique _ _ _ (lmax_peak p P0) PK). split.
      * intros Q. replace (qlt 0 peak) with false by (symmetry; apply qlt_false; exact Q). reflexivity.
      * intros Q. replace (qlt 0 peak) with true by (symmetry; apply qlt_true; exact Q). cbn [negb]. rewrite filter_filter. set (P := fun x => (0 <? x)%nat && _). pose proof (first_filter P (length p) 0) as F. destruct (filter P (seq 0 (length p))) as [|i l].
        -- split; [|reflexivity]. intros _ i I. specialize (F i ltac:(lia)). unfold P in F. replace (0 <? i)%nat with true in F by (symmetry; apply Nat.ltb_lt; lia). cbn [andb] in F. apply negb_false_iff, qlt_true in F. exact F.
        -- split; [discriminate|]. intros X. exfalso. destruct F as [A [B _]]. unfold P in B. apply andb_true_iff in B as [B1 B2]. apply Nat.ltb_lt in B1. apply negb_true_iff, qlt_false in B2. specialize (X i ltac:(lia)). unfold Qclt in X. unfold two in B2. lra.
  - split; [|intros X; exfalso; apply E; unfold d in *; destruct r; [exact X|now apply N]]. intros e. split; [intros [= <-]; split; [reflexivity|]; unfold d in E; destruct r; [exact E|apply E, N; reflexivity]|intros [-> _]; reflexivity].
Qed.
Print Assumptions C104_width_none.
(* otherwise the width is twice the distance at which the straight line between two neighbours is at half of the peak:
   the first entry after the first one that is not above, and the entry before *)
Theorem C104_width : forall p r x peak, compute_fwhm p (Some r) = Ok (Some x) -> is_peak peak p -> 0 < peak ->
  let half := peak / (1 + 1) in exists i h, x = h + h /\ (S i < length p)%nat /\ nth (S i) p 0 <= half /\ (forall j, (0 < j <= i)%nat -> half < nth j p 0) /\
  (nth i p 0 <> nth (S i) p 0 -> (h - nth i r 0) * (nth (S i) p 0 - nth i p 0) = (half - nth i p 0) * (nth (S i) r 0 - nth i r 0)) /\
  (nth i p 0 = nth (S i) p 0 -> h = nth i r 0) /\
  (half < nth i p 0 -> nth i r 0 < nth (S i) r 0 -> nth i r 0 < h /\ h <= nth (S i) r 0).
Proof.
  intros p r x peak H PK Q half. unfold compute_fwhm in H. destruct (Nat.eqb_spec (length r) (length p)) as [E|E]; [|discriminate]. cbn [negb] in H. assert (P0 : p <> []) by (destruct PK as [X _]; destruct p; [contradiction|discriminate]).
  destruct (Nat.eqb_spec (length p) 0) as [Z|Z]; [discriminate|]. rewrite (peak_unique _ _ _ (lmax_peak p P0) PK) in H. replace (qlt 0 peak) with true in H by (symmetry; apply qlt_true; exact Q). cbn [negb] in H. fold half in H. change (peak / two) with half in H.
  rewrite filter_filter in H. set (P := fun x => (0 <? x)%nat && _) in H. pose proof (first_filter P (length p) 0) as F. destruct (filter P (seq 0 (length p))) as [|i l]; [discriminate|]. destruct F as [A [B C]]. unfold P in B. apply andb_true_iff in B as [B1 B2]. apply Nat.ltb_lt in B1. apply negb_true_iff, qlt_false in B2.
  destruct i as [|i]; [lia|]. replace (S i - 1)%nat with i in H by lia. exists i. apply (f_equal (fun r => match r with Ok (Some y) => y | _ => x end)) in H. set (h := if Qc_eq_dec _ _ then _ else _) in H. exists h. split; [rewrite <- H; unfold two; ring|]. split; [lia|]. split; [exact B2|]. split.
  { intros j J. specialize (C j ltac:(lia)). unfold P in C. replace (0 <? j)%nat with true in C by (symmetry; apply Nat.ltb_lt; lia). cbn [andb] in C. apply negb_false_iff, qlt_true in C. exact C. }
  assert (X : nth i p 0 <> nth (S i) p 0 -> (h - nth i r 0) * (nth (S i) p 0 - nth i p 0) = (half - nth i p 0) * (nth (S i) r 0 - nth i r 0)).
  { intros N. assert (M : nth (S i) p 0 - nth i p 0 <> 0) by (intros X; apply N; qclra). unfold h. destruct (Qc_eq_dec _ 0) as [X|X]; [contradiction|]. field. exact M. }
  split; [exact X|]. split.
  - intros N. unfold h. destruct (Qc_eq_dec _ 0) as [Y|Y]; [reflexivity|]. exfalso. apply Y. rewrite N. ring.
  - intros U V. assert (W : nth i p 0 <> nth (S i) p 0) by (intros W; unfold Qclt in U; rewrite W in U; lra). specialize (X W). clearbody h half. clear - X U V B2. apply Qc_iff in X. rewrite !this_mul, !this_sub in X. unfold Qclt, Qcle in *. split; nra.
Qed.
Print Assumptions C104_width.
(* a brighter image has the same width; distances in another unit give the width in that unit *)
Theorem C104_width_scale : forall c p r, 0 < c -> compute_fwhm (map (fun x => c * x) p) r = compute_fwhm p r.
Proof.
  intros c p r C. assert (CN := nz_pos _ C). unfold compute_fwhm. rewrite map_length. destruct (negb _); [reflexivity|]. destruct (_ =? _)%nat; [reflexivity|]. rewrite lmax_scale by exact C.
  assert (E : forall a, qlt 0 (c * a) = qlt 0 a) by (intros a; rewrite <- (qlt_scale c 0 a C); f_equal; ring). rewrite E. destruct (negb _); [reflexivity|].
  rewrite (filter_ext (fun i => negb (qlt (c * lmax p / two) (nth i (map (fun x => c * x) p) 0))) (fun i => negb (qlt (lmax p / two) (nth i p 0)))).
  2: { intros i. rewrite nth_scale. f_equal. rewrite <- (qlt_scale c (lmax p / two) (nth i p 0) C). f_equal. unfold Qcdiv. ring. }
  destruct (filter _ _) as [|i l]; [reflexivity|]. do 3 f_equal. rewrite !nth_scale. set (a := nth i p 0). set (b := nth (i - 1) p 0). 
  destruct (Qc_eq_dec (c * a - c * b) 0) as [X|X], (Qc_eq_dec (a - b) 0) as [Y|Y]; [reflexivity| | |].
  - exfalso. apply Y. replace (c * a - c * b) with (c * (a - b)) in X by ring. apply Qcmult_integral in X as [X|X]; [contradiction|exact X].
  - exfalso. apply X. replace (c * a - c * b) with (c * (a - b)) by ring. rewrite Y. ring.
  - f_equal. unfold two. field. replace (1 + 1) with two by reflexivity. repeat split; auto using two_nz.
Qed.
Print Assumptions C104_width_scale.
Theorem C104_width_unit : forall c p r, compute_fwhm p (Some (map (fun x => c * x) r)) = match compute_fwhm p (Some r) with Ok (Some x) => Ok (Some (c * x)) | o => o end.
Proof.
  intros c p r. unfold compute_fwhm. rewrite map_length. destruct (negb _); [reflexivity|]. destruct (_ =? _)%nat; [reflexivity|]. destruct (negb _); [do 2 f_equal; ring|]. destruct (filter _ _) as [|i l]; [reflexivity|]. do 2 f_equal. rewrite !nth_scale.
  destruct (Qc_eq_dec _ 0) as [X|X]; unfold Qcdiv; ring.
Qed.
Print Assumptions C104_width_unit.
(* when the peak is not in the middle the line can be followed outside of the image *)
Theorem C104_width_refuted : exists p x, compute_fwhm p None = Ok (Some x) /\ qnat (length p) + qnat (length p) < x.
Proof. exists [Q2Qc (1 # 10); Q2Qc (2 # 10); 1], (qz 8). split; [|reflexivity]. vm_compute. reflexivity. Qed.
Print Assumptions C104_width_refuted.

(* ------------------------------------------------------------------- what the PSF object reports *)
(* distances are in units of lambda/D, values relative to the peak; only an image without pixels is refused *)
Theorem C104_metrics : forall root h w nd radii psf, (forall x, 0 <= root x) -> (0 < h)%nat -> (0 < w)%nat -> 0 < nd ->
  exists p r f ee at_, profile_metrics root h w nd radii psf = Ok (p, r, f, ee, at_) /\ length p = length r /\ length ee = length r /\ increasing r /\
  (forall x, In x p -> x <= 1) /\ match radii, at_ with Some q, Some v => length v = length q | None, None => True | _, _ => False end.
Proof.
  intros root h w nd radii psf R Hh Hw Nd. unfold profile_metrics, profile_data. destruct (Nat.eqb_spec h 0); [lia|]. destruct (Nat.eqb_spec w 0); [lia|]. cbn [orb].
  destruct (compute_radial_profile root h w (normalised h w psf) None None) as [[p r] k] eqn:E. pose proof (C104_distances root h w _ None None p r k R E) as I. destruct (profile_lengths _ _ _ _ _ _ _ _ _ E) as [L1 L2].
  set (r' := map (fun x => x / nd) r). assert (L3 : length r' = length r) by apply map_length.
  assert (I' : increasing r').
  { intros i H. rewrite L3 in H. unfold r'. rewrite !(nth_map _ _ _ 0) by lia. assert (X := I i H). destruct (Qcle_lt_or_eq _ _ (proj2 (div_le _ _ nd Nd) (Qclt_le_weak _ _ X))) as [Y|Y]; [exact Y|]. exfalso. assert (Nn := nz_pos _ Nd). apply (f_equal (fun v => v * nd)) in Y. rewrite !qdivmul in Y by exact Nn. rewrite Y in X. apply (Qclt_not_le _ _ X), Qcle_refl. }
  assert (F : exists f, compute_fwhm p (Some r') = Ok f). { destruct (compute_fwhm p (Some r')) as [f|e] eqn:Ef; [exists f; reflexivity|]. exfalso. apply (proj1 (C104_width_none p (Some r'))) in Ef as [_ Ef]. apply Ef. lia. }
  assert (G : exists ee, compute_encircled_energy p (Some (map qn k)) None true = Ok ee). { destruct (compute_encircled_energy p _ None true) as [ee|e] eqn:Ee; [exists ee; reflexivity|]. exfalso. apply C104_energy_refused in Ee as [_ Ee]. apply Ee. rewrite map_length. lia. }
  destruct F as [f F], G as [ee G]. rewrite F, G. cbn [bind].
  assert (LE : length ee = length r'). { unfold compute_encircled_energy, bin_energy in G. rewrite map_length in G. replace (length k =? length p)%nat with true in G by (symmetry; apply Nat.eqb_eq; lia). cbn [bind] in G. apply (f_equal (fun z => match z with Ok v => v | Err _ => ee end)) in G. rewrite <- G, accumulate_length. unfold times. rewrite map_length, combine_length, map_length. lia. }
  assert (AT : forall q, exists v, map_res (energy_at ee r') q = Ok v /\ length v = length q).
  { induction q as [|d q [v [V1 V2]]]; [exists []; split; reflexivity|]. cbn [map_res]. destruct (energy_at ee r' d) as [u|e] eqn:U; [|apply (proj1 (C104_lookup_refused ee r' d)) in U as [_ U]; contradiction]. cbn [bind]. rewrite V1. cbn [bind]. eexists. split; [reflexivity|]. cbn. now rewrite V2. }
  assert (B : forall x, In x p -> x <= 1).
  { intros x X. unfold compute_radial_profile, profile_of in E. injection E as E1 E2 E3. subst p. apply in_map_iff in X as [b [<- K]]. apply valid_in in K. unfold count in K. set (m := qmax _ _) || idtac.
    assert (V : forall i j, (i < h)%nat -> (j < w)%nat -> normalised h w psf i j <= 1).
    { intros i j Hi Hj. unfold normalised. assert (PN : flat h w psf <> []). { intros Z. assert (W : In (psf 0%nat 0%nat) (flat h w psf)) by (apply flat_in; exists 0%nat, 0%nat; auto). rewrite Z in W. contradiction. }
      destruct (lmax_peak _ PN) as [_ M]. destruct (qlt 0 (lmax (flat h w psf))) eqn:Q; cbn [negb]; [|discriminate]. apply qlt_true in Q. replace 1 with (lmax (flat h w psf) / lmax (flat h w psf)) by (field; apply nz_pos; exact Q). apply div_le; [exact Q|]. apply M, flat_in. exists i, j. auto. }
    pose proof (lsum_le snd (fun _ => 1) (in_bin b (samples root h w (normalised h w psf) None None))) as S. specialize (S ltac:(intros q Qi; apply in_bin_in in Qi as [Qi _]; apply samples_in in Qi as [i [j [Hi [Hj ->]]]]; now apply V)). rewrite lsum_const in S.
    unfold mean. rewrite map_length. set (c := qn (length _)) in *. assert (CP : 0 < c) by (unfold c; rewrite qn_qnat; now apply qnat_pos). assert (CN := nz_pos _ CP). replace 1 with (1 * c / c) by (field; exact CN). apply div_le; [exact CP|exact S]. }
  destruct radii as [q|].
  - destruct (AT q) as [v [V1 V2]]. rewrite V1. cbn [bind]. exists p, r', f, ee, (Some v). split; [reflexivity|]. repeat split; auto; lia.
  - cbn [bind]. exists p, r', f, ee, None. split; [reflexivity|]. repeat split; auto; lia.
Qed.
Print Assumptions C104_metrics.
(* the reported energy is the share of the image itself *)
Theorem C104_metrics_energy : forall root h w nd radii psf p r f ee at_, (forall x, 0 <= root x) -> 0 < nd -> (forall i j, 0 <= psf i j) -> flux h w psf <> 0 ->
  profile_metrics root h w nd radii psf = Ok (p, r, f, ee, at_) ->
  let dist := distance root (middle h) (middle w) in
  ascending ee /\ last ee 0 = 1 /\ forall t, (t < length ee)%nat -> exists b, qnat b <= nth t r 0 * nd /\ nth t r 0 * nd < qnat (S b) /\ nth t ee 0 * flux h w psf = flux h w (inside dist (qnat (S b)) psf).
Proof.
  intros root h w nd radii psf p r f ee at_ R Nd P0 F H dist. assert (NN := nz_pos _ Nd). unfold profile_metrics, profile_data in H. destruct (_ || _); [discriminate|].
  destruct (compute_radial_profile root h w (normalised h w psf) None None) as [[p' r'] k] eqn:E. inv_bind H. inv_bind H. inv_bind H. assert (X1 : p' = p) by congruence. assert (X2 : map (fun x => x / nd) r' = r) by congruence. assert (X3 : a0 = ee) by congruence. clear H E0 E2. subst p' a0.
  (* the peak is positive *)
  set (m := lmax (flat h w psf)). assert (MP : 0 < m).
  { destruct (Qclt_le_dec 0 m) as [M|M]; [exact M|]. exfalso. apply F. unfold flux, qsum. assert (Z : forall i j, (i < h)%nat -> (j < w)%nat -> psf i j = 0).
    { intros i j I J. assert (PN : flat h w psf <> []) by (intros Z; assert (W : In (psf i j) (flat h w psf)) by (apply flat_in; exists i, j; auto); rewrite Z in W; contradiction). destruct (lmax_peak _ PN) as [_ Q]. apply Qcle_antisym; [|apply P0]. apply Qcle_trans with m; [apply Q, flat_in; exists i, j; auto|exact M]. }
    assert (W : flux h w psf = flux h w (fun _ _ => 0 * 0)) by (apply flux_ext; intros i j I J; rewrite Z by assumption; ring). change (flux h w psf = 0). rewrite W, (flux_scale 0 h w (fun _ _ => 0)). ring. }
  assert (MN := nz_pos _ MP). assert (V : forall i j, normalised h w psf i j = / m * psf i j). { intros i j. unfold normalised. fold m. replace (qlt 0 m) with true by (symmetry; apply qlt_true; exact MP). cbn [negb]. unfold Qcdiv. ring. }
  assert (FN : flux h w (normalised h w psf) = / m * flux h w psf) by (rewrite <- flux_scale; apply flux_ext; intros; apply V).
  assert (IN : / m <> 0). { intros Z. apply (f_equal (fun v => m * v)) in Z. rewrite Qcmult_inv_r in Z by exact MN. replace (m * 0) with 0 in Z by ring. discriminate. }
  assert (FZ : flux h w (normalised h w psf) <> 0). { rewrite FN. intros Z. apply Qcmult_integral in Z as [Z|Z]; contradiction. }
  destruct (C104_energy root h w (normalised h w psf) None None p r' k R E FZ) as [ee' [Q1 [Q2 Q3]]]. cbv zeta in Q3. assert (X4 : ee' = ee) by (change (map qnat k) with (map qn k) in Q1; congruence). subst ee'.
  assert (PP : forall x, In x p -> 0 <= x).
  { intros x X. unfold compute_radial_profile, profile_of in E. injection E as Ea Eb Ec. rewrite <- Ea in X. apply in_map_iff in X as [b [<- K]]. apply valid_in in K. unfold count in K. unfold mean. rewrite map_length. set (c := qn (length _)). assert (CP : 0 < c) by (unfold c; rewrite qn_qnat; now apply qnat_pos).
    replace 0 with (0 / c) by (field; apply nz_pos; exact CP). apply div_le; [exact CP|]. apply lsum_ge. intros q Qi. apply in_bin_in in Qi as [Qi _]. apply samples_in in Qi as [i [j [_ [_ ->]]]]. cbn [snd]. rewrite V. apply Qcmult_le_0_compat'; [|apply P0]. replace (/ m) with (1 / m) by (unfold Qcdiv; ring). replace 0 with (0 / m) by (field; exact MN). apply div_le; [exact MP|discriminate]. }
  assert (T0 : (0 < length r')%nat). { destruct r' as [|]; [|cbn; lia]. exfalso. apply FZ. destruct (C104_total root h w _ None None p [] k E) as [_ S]. destruct (profile_lengths _ _ _ _ _ _ _ _ _ E) as [L _]. destruct p; [|discriminate]. cbn in S. now symmetry. }
  assert (LR : length ee = length r') by exact Q2.
  destruct (C104_rises p (Some (map qn k)) None ee PP) as [A [B _]].
  - intros l [= <-] x X. apply in_map_iff in X as [y [<- _]]. rewrite qn_qnat. apply qnat_ge.
  - exact Q1.
  - (* the last entry is one *)
    destruct (Q3 (length r' - 1)%nat ltac:(lia)) as [b [_ [B2 B3]]]. exists (nth (length r' - 1) ee 0). split; [apply nth_In; lia|]. intros Z. rewrite Z in B3. apply FZ. rewrite <- (flux_ext h w (inside (distance root (middle h) (middle w)) (qnat (S b)) (normalised h w psf)) (normalised h w psf)); [rewrite <- B3; ring|].
    intros i j I J. unfold inside. destruct (C104_profile root h w (normalised h w psf) None None p r' k R E) as [bins [S1 [L1 [L2 [_ [C D]]]]]]. cbv zeta in C, D. destruct (C i j I J) as [b' [Ib [_ U]]]. destruct (D (length r' - 1)%nat ltac:(lia)) as [_ [_ [_ [_ [D1 D2]]]]].
    assert (BB : (b' <= nth (length r' - 1) bins 0)%nat). { apply (In_nth _ _ 0%nat) in Ib as [t [Tl <-]]. destruct (Nat.eq_dec t (length r' - 1)) as [->|Nt]; [lia|]. apply Nat.lt_le_incl, sorted_nth; [exact S1|lia|lia]. }
    set (bl := nth (length r' - 1) bins 0%nat) in *. assert (BL : (bl <= b)%nat). { destruct (Nat.le_gt_cases bl b) as [G|G]; [exact G|]. exfalso. assert (Y := qn_le (S b) bl G). apply (Qclt_not_le _ _ B2). apply Qcle_trans with (qn bl); [exact Y|exact D1]. }
    replace (qlt (distance root (middle h) (middle w) i j) (qnat (S b))) with true; [reflexivity|]. symmetry. apply qlt_true. apply (Qclt_le_trans _ (qnat (S b')) _ U). apply (qn_le (S b') (S b)). lia.
  - split; [exact A|]. split; [exact B|]. intros t T. rewrite LR in T. destruct (Q3 t T) as [b [B1 [B2 B3]]]. exists b. rewrite <- X2, (nth_map _ _ _ 0) by exact T. rewrite qdivmul by exact NN. split; [exact B1|]. split; [exact B2|].
    rewrite FN in B3. assert (IF : flux h w (inside (distance root (middle h) (middle w)) (qnat (S b)) (normalised h w psf)) = / m * flux h w (inside dist (qnat (S b)) psf)).
    { rewrite <- flux_scale. apply flux_ext. intros i j _ _. unfold inside. fold dist. destruct (qlt _ _); [apply V|ring]. }
    rewrite IF in B3. apply (f_equal (fun v => m * v)) in B3. replace (m * (nth t ee 0 * (/ m * flux h w psf))) with (nth t ee 0 * flux h w psf) in B3 by (field; exact MN). rewrite B3. field. exact MN.
Qed.
Print Assumptions C104_metrics_energy.
(* a brighter star gives the same numbers *)
Theorem C104_metrics_scale : forall root h w nd radii psf c, 0 < c -> profile_metrics root h w nd radii (fun i j => c * psf i j) = profile_metrics root h w nd radii psf.
Proof.
  intros root h w nd radii psf c C. unfold profile_metrics, profile_data. rewrite (profile_ext root h w _ (normalised h w psf)); [reflexivity|]. intros i j _ _. now apply normalised_scale.
Qed.
Print Assumptions C104_metrics_scale.

(* an image of three by three pixels about its middle pixel, whole distances *)
Example C104_profile_example : let root x := qz (Z.sqrt (qfloor x)) in let img i j := qn (i * 3 + j) in
  compute_radial_profile root 3 3 img (Some 1) (Some 1) = ([qz 4 / qz 1; qz 32 / qz 8], [qz 0 / qz 1; qz 8 / qz 8], [1; 8]%nat).
Proof. vm_compute. reflexivity. Qed.
Example C104_width_example : exists x, compute_fwhm [1; Q2Qc (3 # 4); Q2Qc (1 # 4); 0] None = Ok (Some x) /\ x = qz 3.
Proof. eexists. split; [vm_compute; reflexivity|]. apply Qc_iff. reflexivity. Qed.
Example C104_lookup_example : exists x, energy_at [Q2Qc (1 # 2); Q2Qc (3 # 4); 1] [0; 1; qz 3] (qz 2) = Ok (Some x) /\ x = Q2Qc (7 # 8).
Proof. eexists. split; [vm_compute; reflexivity|]. apply Qc_iff. reflexivity. Qed.
