From Coq Require Import String List ZArith Bool Lia.
From Verif Require Import PyBase PyLemmas ConnProofs StoreModel StoreSpec.
Import ListNotations.
Local Open Scope Z_scope.

Lemma ddef_dset_eq {T} x k (v : T) d : ddef x k (dset k v d) = v.
Proof. unfold ddef. now rewrite dget_dset_eq. Qed.
Lemma ddef_dset_neq {T} x k k' (v : T) d : k <> k' -> ddef x k' (dset k v d) = ddef x k' d.
Proof. intros H. unfold ddef. now rewrite dget_dset_neq. Qed.

(* ------------------------------------------------------------- increasing times *)
Lemma increasing_app a b : increasing (a ++ b) ->
  increasing a /\ increasing b /\ forall x y, In x a -> In y b -> x < y.
Proof.
  revert b. induction a as [|x a IH]; intros b H; [cbn in *; split; [exact I|split; [exact H|easy]]|].
  destruct a as [|y a].
  - cbn in H. destruct b as [|z b]; [cbn; split; [exact I|split; [exact I|easy]]|].
    destruct H as [H1 H2]. split; [exact I|]. split; [exact H2|].
    intros u w [<-|[]] Hw. clear IH. revert z w H1 H2 Hw. induction b as [|c b IH]; intros z w H1 H2 Hw.
    + destruct Hw as [<-|[]]. exact H1.
    + destruct Hw as [<-|Hw]; [exact H1|]. destruct H2 as [H2 H3]. apply (IH c w); [lia|exact H3|exact Hw].
  - cbn [app] in H. destruct H as [H1 H2]. destruct (IH b H2) as (I1 & I2 & I3).
    split; [split; assumption|]. split; [exact I2|].
    intros u w [<-|Hu] Hw; [|now apply I3]. specialize (I3 y w (or_introl eq_refl) Hw). lia.
Qed.
Lemma increasing_cons x l : increasing (x :: l) -> increasing l /\ forall y, In y l -> x < y.
Proof.
  intros H. destruct (increasing_app [x] l H) as (_ & H2 & H3). split; [exact H2|].
  intros y Hy. apply H3; [now left|exact Hy].
Qed.
Lemma increasing_intro x l : increasing l -> (forall y, In y l -> x < y) -> increasing (x :: l).
Proof. destruct l as [|y l]; [easy|]. intros H1 H2. split; [apply H2; now left|exact H1]. Qed.
Lemma increasing_filter {T} (f : T -> bool) (g : T -> Z) l :
  increasing (map g l) -> increasing (map g (filter f l)).
Proof.
  induction l as [|x l IH]; [easy|]. intros H. cbn [map] in H. apply increasing_cons in H as [H1 H2].
  cbn [filter]. destruct (f x); [|auto]. cbn [map]. apply increasing_intro; [auto|].
  intros y Hy. apply H2. apply in_map_iff in Hy as (z & <- & Hz). apply filter_In in Hz. now apply in_map.
Qed.

Section Proofs.
Variable V : Type.
Notation event := (Z * sview V)%type.
Notation samples := (samples V).
Notation fresh := (fresh V).
Notation contents := (contents V).

Lemma samples_app a b k : samples (a ++ b) k = samples a k ++ samples b k.
Proof. unfold StoreSpec.samples. now rewrite flat_map_app. Qed.
Lemma samples_in es k t v : In (t, v) (samples es k) -> In t (map fst es).
Proof.
  unfold StoreSpec.samples. intros H. apply in_flat_map in H as (e & He & H).
  destruct (fresh e k) as [w|]; [|easy]. destruct H as [E|[]]. injection E as <- <-. now apply in_map.
Qed.
Lemma samples_increasing es k : increasing (map fst es) -> increasing (map fst (samples es k)).
Proof.
  induction es as [|e es IH]; [easy|]. intros H. cbn [map] in H. apply increasing_cons in H as [H1 H2].
  unfold StoreSpec.samples. cbn [flat_map]. fold (samples es k).
  destruct (fresh e k) as [v|]; [|exact (IH H1)]. cbn [app map fst]. apply increasing_intro; [auto|].
  intros y Hy. apply in_map_iff in Hy as ([t w] & <- & Hz). apply H2. now apply (samples_in es k t w).
Qed.

(* ------------------------------------------------------------- dictionaries of times *)
Lemma tset_new (t : Z) (v : V) d : ~ In t (map fst d) -> tset t v d = d ++ [(t, v)].
Proof.
  induction d as [|[t' v'] d IH]; [reflexivity|]. cbn. intros H.
  replace (t =? t') with false by (symmetry; apply Z.eqb_neq; intros ->; apply H; now left).
  rewrite IH; [reflexivity|]. tauto.
Qed.
Lemma tset_last (t : Z) (v v' : V) d : ~ In t (map fst d) -> tset t v (d ++ [(t, v')]) = d ++ [(t, v)].
Proof.
  induction d as [|[t0 v0] d IH]; [cbn; now rewrite Z.eqb_refl|]. cbn. intros H.
  replace (t =? t0) with false by (symmetry; apply Z.eqb_neq; intros ->; apply H; now left).
  rewrite IH; [reflexivity|]. tauto.
Qed.

(* ------------------------------------------------------------------ DataStore *)
Section Store.
Variable c : dcfg.
Notation N k := (every c k).

(* one call, one key *)
Lemma store_one_other t s k0 i k : k <> k0 ->
  contents (d_store V (store_one V c t s (k0, i))) k = contents (d_store V s) k /\
  ddef 0 k (d_cnt V (store_one V c t s (k0, i))) = ddef 0 k (d_cnt V s).
Proof.
  intros H. unfold store_one. cbn [fst snd]. destruct i as [[v g]|]; [|easy].
  destruct (g =? t); [|easy].
  destruct (_ =? 0); cbn [d_store d_cnt]; unfold StoreSpec.contents; rewrite ?ddef_dset_neq by congruence; easy.
Qed.
Lemma store_one_saved t s ki : d_iter V (store_one V c t s ki) = d_iter V s /\
                               d_saved V (store_one V c t s ki) = d_saved V s.
Proof.
  unfold store_one. destruct (snd ki) as [[v g]|]; [|easy]. destruct (g =? t); [|easy].
  destruct (_ =? 0); easy.
Qed.
Lemma store_fold_saved t vw : forall s, d_iter V (fold_left (store_one V c t) vw s) = d_iter V s /\
                               d_saved V (fold_left (store_one V c t) vw s) = d_saved V s.
Proof.
  induction vw as [|ki vw IH]; intros s; [easy|]. cbn [fold_left]. destruct (IH (store_one V c t s ki)) as [-> ->].
  apply store_one_saved.
Qed.
Lemma store_fold_other t vw k : ~ In k (dkeys vw) -> forall s,
  contents (d_store V (fold_left (store_one V c t) vw s)) k = contents (d_store V s) k /\
  ddef 0 k (d_cnt V (fold_left (store_one V c t) vw s)) = ddef 0 k (d_cnt V s).
Proof.
  induction vw as [|[k0 i] vw IH]; intros H s; [easy|]. cbn [fold_left]. cbn in H.
  destruct (IH (fun Q => H (or_intror Q)) (store_one V c t s (k0, i))) as [-> ->].
  apply store_one_other. intros ->. apply H. now left.
Qed.

(* effect of a call on the samples of one key *)
Lemma store_fold (e : event) k : NoDup (dkeys (snd e)) -> forall s,
  let s' := fold_left (store_one V c (fst e)) (snd e) s in
  let n := ddef 0 k (d_cnt V s) in
  match fresh e k with
  | Some v => ddef 0 k (d_cnt V s') = n + 1 /\
              contents (d_store V s') k = if n mod N k =? 0 then tset (fst e) v (contents (d_store V s) k)
                                          else contents (d_store V s) k
  | None => ddef 0 k (d_cnt V s') = n /\ contents (d_store V s') k = contents (d_store V s) k
  end.
Proof.
  destruct e as [t vw]. cbn [fst snd]. unfold StoreSpec.fresh. cbn [fst snd].
  induction vw as [|[k0 i] vw IH]; intros ND s; [cbn; easy|].
  inversion_clear ND as [|? ? N1 N2]. cbn [fold_left dget].
  destruct (String.eqb k k0) eqn:E.
  - apply String.eqb_eq in E as <-. destruct (store_fold_other t vw k N1 (store_one V c t s (k, i))) as [-> ->].
    unfold store_one. cbn [fst snd]. destruct i as [[v g]|]; [|easy]. destruct (g =? t) eqn:G; [|easy].
    destruct (_ mod _ =? 0) eqn:M; cbn [d_store d_cnt]; unfold StoreSpec.contents; rewrite ?ddef_dset_eq, ?M; easy.
  - apply String.eqb_neq in E. specialize (IH N2 (store_one V c t s (k0, i))). cbv zeta in IH.
    destruct (store_one_other t s k0 i k E) as [E1 E2].
    rewrite E1, E2 in IH. exact IH.
Qed.

(* samples number i, i+1, ... that are multiples of the factor *)
Fixpoint kept (n : Z) (i : Z) (l : series V) : series V :=
  match l with
  | [] => []
  | x :: r => if i mod n =? 0 then x :: kept n (i + 1) r else kept n (i + 1) r
  end.
Lemma kept_app n a : forall i b, kept n i (a ++ b) = kept n i a ++ kept n (i + Z.of_nat (length a)) b.
Proof.
  induction a as [|x a IH]; intros i b; [cbn; now rewrite Z.add_0_r|]. cbn [app kept length].
  rewrite IH. replace (i + 1 + Z.of_nat (length a)) with (i + Z.of_nat (S (length a))) by lia.
  now destruct (_ =? 0).
Qed.
Lemma kept_in n l : forall i x, In x (kept n i l) -> In x l.
Proof.
  induction l as [|y l IH]; [easy|]. cbn. intros i x. destruct (_ =? 0); [|eauto]. intros [->|H]; eauto.
Qed.
Lemma kept_one l : forall i, kept 1 i l = l.
Proof. induction l as [|x l IH]; [easy|]. intros i. cbn [kept]. rewrite Z.mod_1_r. cbn. now rewrite IH. Qed.

(* state of one key after a sequence of calls, when nothing is saved meanwhile *)
Definition holds (s : dst V) (k : string) (l : series V) : Prop :=
  ddef 0 k (d_cnt V s) = Z.of_nat (length l) /\ contents (d_store V s) k = kept (N k) 0 l.

Lemma fresh_samples (e : event) es k :
  samples (es ++ [e]) k = samples es k ++ match fresh e k with Some v => [(fst e, v)] | None => [] end.
Proof. rewrite samples_app. f_equal. unfold StoreSpec.samples. cbn. now rewrite app_nil_r. Qed.

(* one call that does not save *)
Lemma store_step (e : event) es s k : NoDup (dkeys (snd e)) -> increasing (map fst (es ++ [e])) ->
  holds s k (samples es k) ->
  holds (fold_left (store_one V c (fst e)) (snd e) s) k (samples (es ++ [e]) k).
Proof.
  intros ND Hi [H1 H2]. pose proof (store_fold e k ND s) as H. cbv zeta in H. rewrite fresh_samples.
  destruct (fresh e k) as [v|] eqn:F.
  - destruct H as [H3 H4]. split; [rewrite H3, H1, app_length; cbn [length]; lia|].
    rewrite H4, H1, kept_app, H2, Z.add_0_l. cbn [kept].
    destruct (Z.of_nat _ mod N k =? 0); [|now rewrite app_nil_r].
    apply tset_new. intros Hin. apply in_map_iff in Hin as ([t w] & E & Hin). cbn in E. subst t.
    apply kept_in in Hin. apply samples_in in Hin.
    rewrite map_app in Hi. apply increasing_app in Hi as (_ & _ & Hi).
    specialize (Hi (fst e) (fst e) Hin (or_introl eq_refl)). lia.
  - rewrite app_nil_r. destruct H as [H3 H4]. split; congruence.
Qed.

Lemma started_app start (a b : list event) : started V start (a ++ b) = started V start a ++ started V start b.
Proof. apply filter_app. Qed.
Lemma started_one start (e : event) : started V start [e] = if fst e <? start then [] else [e].
Proof.
  unfold started. cbn [filter]. destruct (start <=? fst e) eqn:E.
  - apply Z.leb_le in E. now rewrite (proj2 (Z.ltb_ge _ _) E).
  - apply Z.leb_gt in E. now rewrite (proj2 (Z.ltb_lt _ _) E).
Qed.

(* no splitting: the whole loop *)
Lemma store_loop (es : list event) k : d_split c = 0 -> proper V es -> increasing (map fst es) ->
  let s := fold_left (store_trigger V c) es (dst0 V) in
  holds s k (samples (started V (d_start c) es) k) /\ d_saved V s = [].
Proof.
  intros Hs. induction es as [|e es IH] using rev_ind; intros Hp Hi.
  - cbn. repeat split.
  - apply Forall_app in Hp as [Hp He]. apply Forall_inv in He.
    rewrite map_app in Hi. pose proof Hi as Hi'. apply increasing_app in Hi as (Hi & _).
    destruct (IH Hp Hi) as [IH1 IH2]. rewrite fold_left_app. cbn [fold_left].
    set (s := fold_left (store_trigger V c) es (dst0 V)) in *. cbv zeta.
    rewrite started_app, started_one. unfold store_trigger.
    destruct (fst e <? d_start c) eqn:E; [rewrite app_nil_r; now split|].
    rewrite Hs. cbv zeta. change (0 <? 0) with false. cbn [andb d_store d_cnt d_saved].
    destruct (store_fold_saved (fst e) (snd e) s) as [_ ->]. split; [|exact IH2].
    apply (store_step e (started V (d_start c) es) s k He); [|exact IH1].
    assert (Q : started V (d_start c) es ++ [e] = started V (d_start c) (es ++ [e])) by (now rewrite started_app, started_one, E).
    rewrite Q. apply increasing_filter. now rewrite map_app.
Qed.

(* what the store contains after finalize *)
Lemma store_run_one (es : list event) (ef : event) k : d_split c = 0 -> proper V (es ++ [ef]) -> increasing (map fst es) ->
  let l := samples (started V (d_start c) es) k in
  exists st, d_saved V (store_run V c es ef) = [(EmptyString, st)] /\
  contents st k = match (if fst ef <? d_start c then None else fresh ef k) with
                  | Some v => if Z.of_nat (length l) mod N k =? 0 then tset (fst ef) v (kept (N k) 0 l) else kept (N k) 0 l
                  | None => kept (N k) 0 l
                  end.
Proof.
  intros Hs Hp Hi l. apply Forall_app in Hp as [Hp He]. apply Forall_inv in He.
  destruct (store_loop es k Hs Hp Hi) as [[H1 H2] H3].
  unfold store_run, store_finalize. set (s := fold_left (store_trigger V c) es (dst0 V)) in *.
  rewrite Hs. cbn [Z.eqb]. cbn [d_saved d_store]. fold l in H1, H2.
  unfold store_trigger. destruct (fst ef <? d_start c).
  - eexists. split; [rewrite H3; reflexivity|exact H2].
  - rewrite Hs. cbv zeta. change (0 <? 0) with false. cbn [andb d_store d_saved].
    destruct (store_fold_saved (fst ef) (snd ef) s) as [_ ->]. eexists. split; [rewrite H3; reflexivity|].
    pose proof (store_fold ef k He s) as H. cbv zeta in H. destruct (fresh ef k) as [v|].
    + destruct H as [_ ->]. rewrite H1, H2. reflexivity.
    + destruct H as [_ ->]. exact H2.
Qed.

Lemma kept_nth n l : (0 < n)%nat -> forall i j, (j = 0 \/ (0 < j /\ j < n))%nat ->
  (Z.of_nat i + Z.of_nat j) mod Z.of_nat n = 0 ->
  forall q, nth_error (kept (Z.of_nat n) (Z.of_nat i) l) q = nth_error l (j + q * n).
Proof.
  intros Hn. induction l as [|x l IH]; intros i j Hj Hm q.
  - cbn. now destruct q, (j + _)%nat.
  - cbn [kept]. replace (Z.of_nat i + 1) with (Z.of_nat (S i)) by lia. destruct Hj as [->|Hj].
    + rewrite Z.add_0_r in Hm. rewrite Hm. cbn [Z.eqb]. destruct q as [|q].
      { reflexivity. }
      cbn [nth_error]. replace (0 + S q * n)%nat with (S ((n - 1) + q * n))%nat by nia. cbn [nth_error].
      destruct (Nat.eq_dec n 1) as [->|N1].
      * apply (IH (S i) 0%nat); [now left|]. now rewrite Z.mod_1_r.
      * apply (IH (S i) (n - 1)%nat); [right; lia|].
        replace (Z.of_nat (S i) + Z.of_nat (n - 1)) with (Z.of_nat i + 1 * Z.of_nat n) by lia.
        rewrite Z.mod_add by lia. exact Hm.
    + assert (F : Z.of_nat i mod Z.of_nat n =? 0 = false).
      { apply Z.eqb_neq. intros Q. apply Z.mod_divide in Q; [|lia]. apply Z.mod_divide in Hm; [|lia].
        destruct Q as [a Ha], Hm as [b Hb]. assert (Z.of_nat j = (b - a) * Z.of_nat n) by lia.
        assert (0 < b - a) by nia. nia. }
      rewrite F. destruct j as [|j]; [lia|]. cbn [Nat.add nth_error].
      apply IH; [lia|]. now replace (Z.of_nat (S i) + Z.of_nat j) with (Z.of_nat i + Z.of_nat (S j)) by lia.
Qed.
Lemma kept_every n l : 1 <= n -> every_nth V (Z.to_nat n) l (kept n 0 l).
Proof.
  intros Hn q. replace n with (Z.of_nat (Z.to_nat n)) at 1 by lia.
  apply (kept_nth (Z.to_nat n) l) with (i := 0%nat) (j := 0%nat); [lia|now left|].
  change (Z.of_nat 0 + Z.of_nat 0) with 0. apply Z.mod_0_l. lia.
Qed.

(* ----------------------------------------------------------------- splitting *)
Section Split.
Variable s : nat.
Hypothesis Hs : d_split c = Z.of_nat s.
Hypothesis Hs1 : (1 <= s)%nat.
Hypothesis HN : forall k, every c k = 1.

(* start of the current chunk after [n] calls *)
Definition chunk0 (n : nat) : nat := (s * (n / s))%nat.

Notation all_saved := (StoreSpec.all_saved V).

Lemma chunk0_S n : chunk0 (S n) = if (S n mod s =? 0)%nat then S n else chunk0 n.
Proof.
  unfold chunk0. destruct (S n mod s =? 0)%nat eqn:E.
  - apply Nat.eqb_eq in E. pose proof (Nat.div_mod (S n) s). lia.
  - apply Nat.eqb_neq in E. f_equal.
    pose proof (Nat.div_mod (S n) s). pose proof (Nat.div_mod n s).
    pose proof (Nat.mod_upper_bound (S n) s). pose proof (Nat.mod_upper_bound n s).
    symmetry. apply (Nat.div_unique (S n) s (n / s) (S (n mod s))); [|lia].
    destruct (Nat.eq_dec (S (n mod s)) s) as [Q|Q]; [|lia].
    exfalso. apply E. assert (H5 : S n = (s * (n / s + 1))%nat) by lia. rewrite H5, Nat.mul_comm. apply Nat.mod_mul. lia.
Qed.
Lemma chunk0_le n : (chunk0 n <= n)%nat.
Proof. unfold chunk0. apply Nat.mul_div_le. lia. Qed.

Lemma it_mod n : (Z.of_nat n mod d_split c =? 0) = (n mod s =? 0)%nat.
Proof.
  rewrite Hs. rewrite <- Nat2Z.inj_mod. destruct (n mod s =? 0)%nat eqn:E.
  - apply Nat.eqb_eq in E. now rewrite E.
  - apply Nat.eqb_neq in E. apply Z.eqb_neq. lia.
Qed.

(* state after a sequence of calls with increasing times *)
Definition split_inv (es : list event) (x : dst V) : Prop :=
  d_iter V x = Z.of_nat (length es) /\
  (forall k, contents (d_store V x) k = samples (skipn (chunk0 (length es)) es) k) /\
  (forall k, all_saved x k = samples (firstn (chunk0 (length es)) es) k) /\
  map fst (d_saved V x) =
    map (fun j => ("_" ++ str_int (Z.of_nat (s * j) + d_first c))%string) (seq 0 (length es / s)).

Lemma div_S n : (S n / s = n / s + if (S n mod s =? 0)%nat then 1 else 0)%nat.
Proof.
  pose proof (chunk0_S n) as H. unfold chunk0 in H. destruct (S n mod s =? 0)%nat eqn:E.
  - apply Nat.eqb_eq in E. pose proof (Nat.div_mod (S n) s). pose proof (Nat.div_mod n s).
    pose proof (Nat.mod_upper_bound n s). nia.
  - nia.
Qed.

(* one call: [ct] tells what the storage contains before a possible save *)
Lemma split_step (es : list event) (e : event) x x1 :
  x1 = fold_left (store_one V c (fst e)) (snd e) x ->
  d_start c <= fst e -> split_inv es x ->
  (forall k, contents (d_store V x1) k = samples (skipn (chunk0 (length es)) (es ++ [e])) k) ->
  split_inv (es ++ [e]) (store_trigger V c x e).
Proof.
  intros -> Ht (I1 & I2 & I3 & I4) Hc.
  destruct (store_fold_saved (fst e) (snd e) x) as [E1 E2].
  unfold store_trigger. rewrite (proj2 (Z.ltb_ge _ _) Ht). cbv zeta. rewrite E1, E2, I1.
  replace (Z.of_nat (length es) + 1) with (Z.of_nat (S (length es))) by lia.
  rewrite it_mod. rewrite Hs at 1. replace (0 <? Z.of_nat s) with true by (symmetry; apply Z.ltb_lt; lia). cbn [andb].
  unfold split_inv. rewrite app_length. cbn [length]. rewrite (Nat.add_comm _ 1). cbn [Nat.add].
  rewrite chunk0_S, div_S.
  destruct (S (length es) mod s =? 0)%nat eqn:M; cbn [d_iter d_store d_saved].
  - assert (Hlen : length (es ++ [e]) = S (length es)) by (rewrite app_length; cbn; lia).
    split; [reflexivity|]. split; [|split].
    + intros k. rewrite skipn_all2 by lia. reflexivity.
    + intros k. unfold StoreSpec.all_saved. cbn [d_saved]. rewrite flat_map_app. cbn [flat_map snd]. rewrite app_nil_r.
      fold (all_saved x k). rewrite I3, Hc. replace (firstn (S (length es)) (es ++ [e])) with (es ++ [e]) by (symmetry; apply firstn_all2; lia).
      rewrite <- samples_app. f_equal.
      pose proof (chunk0_le (length es)).
      rewrite skipn_app, app_assoc, firstn_skipn.
      replace (chunk0 (length es) - length es)%nat with 0%nat by lia. reflexivity.
    + rewrite map_app, seq_app, map_app, I4. cbn [map fst seq Nat.add]. f_equal. f_equal. f_equal. f_equal.
      rewrite Hs. apply Nat.eqb_eq in M.
      pose proof (Nat.div_mod (S (length es)) s ltac:(lia)) as D. rewrite M in D.
      pose proof (div_S (length es)) as D2. rewrite M in D2. cbn [Nat.eqb] in D2. rewrite D2 in D. nia.
  - rewrite Nat.add_0_r. split; [reflexivity|]. split; [exact Hc|]. split; [|exact I4].
    intros k. unfold StoreSpec.all_saved. cbn [d_saved]. fold (all_saved x k). rewrite I3. f_equal.
    rewrite firstn_app. pose proof (chunk0_le (length es)).
    replace (chunk0 (length es) - length es)%nat with 0%nat by lia. cbn. now rewrite app_nil_r.
Qed.

Lemma samples_skipn_in n es k t v : In (t, v) (samples (skipn n es) k) -> In t (map fst es).
Proof.
  intros H. apply samples_in in H. rewrite <- (firstn_skipn n es), map_app. apply in_or_app. now right.
Qed.

Lemma split_loop (es : list event) : proper V es -> increasing (map fst es) ->
  Forall (fun e => d_start c <= fst e) es ->
  split_inv es (fold_left (store_trigger V c) es (dst0 V)).
Proof.
  induction es as [|e es IH] using rev_ind; intros Hp Hi Ht.
  - unfold split_inv. cbn [fold_left length]. unfold chunk0. rewrite Nat.div_0_l by lia. rewrite Nat.mul_0_r.
    repeat split.
  - apply Forall_app in Hp as [Hp He]. apply Forall_inv in He.
    apply Forall_app in Ht as [Ht Ht2]. apply Forall_inv in Ht2.
    rewrite map_app in Hi. pose proof Hi as Hi'. apply increasing_app in Hi as (Hi & _ & Hlt).
    specialize (IH Hp Hi Ht). rewrite fold_left_app. cbn [fold_left].
    set (x := fold_left (store_trigger V c) es (dst0 V)) in *.
    apply (split_step es e x _ eq_refl Ht2 IH).
    intros k. destruct IH as (I1 & I2 & I3 & I4).
    pose proof (store_fold e k He x) as H. cbv zeta in H.
    rewrite skipn_app. pose proof (chunk0_le (length es)).
    replace (chunk0 (length es) - length es)%nat with 0%nat by lia. cbn [skipn]. rewrite fresh_samples.
    rewrite HN, Z.mod_1_r in H. cbn [Z.eqb] in H.
    destruct (fresh e k) as [v|] eqn:F.
    + destruct H as [_ ->]. rewrite I2. apply tset_new.
      intros Hin. apply in_map_iff in Hin as ([t w] & E & Hin). cbn in E. subst t.
      apply samples_skipn_in in Hin. specialize (Hlt (fst e) (fst e) Hin (or_introl eq_refl)). lia.
    + destruct H as [_ ->]. rewrite I2. now rewrite app_nil_r.
Qed.

(* finalize repeats the last call *)
Lemma split_run (es : list event) (e : event) : (2 <= s)%nat ->
  proper V (es ++ [e]) -> increasing (map fst (es ++ [e])) ->
  Forall (fun e => d_start c <= fst e) (es ++ [e]) ->
  let n := S (length es) in
  let m := (S n / s)%nat in
  let x := store_run V c (es ++ [e]) e in
  (forall k, all_saved x k = samples (firstn (s * m) (es ++ [e])) k) /\
  map fst (d_saved V x) = map (fun j => ("_" ++ str_int (Z.of_nat (s * j) + d_first c))%string) (seq 0 m).
Proof.
  intros H2 Hp Hi Ht. cbv zeta. pose proof (split_loop (es ++ [e]) Hp Hi Ht) as H.
  unfold store_run, store_finalize. replace (d_split c =? 0) with false by (symmetry; apply Z.eqb_neq; lia).
  set (x := fold_left (store_trigger V c) (es ++ [e]) (dst0 V)) in *.
  set (es1 := es ++ [e]) in *.
  assert (Hn : length es1 = S (length es)) by (unfold es1; rewrite app_length; cbn; lia).
  rewrite <- Hn.
  apply Forall_app in Hp as [_ He]. apply Forall_inv in He. apply Forall_app in Ht as [_ Ht]. apply Forall_inv in Ht.
  destruct (S (length es1) mod s =? 0)%nat eqn:M.
  - (* saved by finalize: the last call is in the current chunk *)
    assert (Hlast : (chunk0 (length es1) <= length es)%nat).
    { pose proof (chunk0_S (length es1)) as Q. rewrite M in Q. unfold chunk0 in Q.
      pose proof (div_S (length es1)) as D. rewrite M in D.
      unfold chunk0. nia. }
    assert (Hsk : skipn (chunk0 (length es1)) es1 = skipn (chunk0 (length es1)) es ++ [e]).
    { set (q := chunk0 (length es1)) in *. unfold es1. rewrite skipn_app.
      replace (q - length es)%nat with 0%nat by lia. reflexivity. }
    assert (Hsame : forall k, contents (d_store V (fold_left (store_one V c (fst e)) (snd e) x)) k =
                    samples (skipn (chunk0 (length es1)) es1) k).
    { intros k. destruct H as (I1 & I2 & I3 & I4). pose proof (store_fold e k He x) as Q. cbv zeta in Q.
      rewrite HN, Z.mod_1_r in Q. cbn [Z.eqb] in Q. destruct (fresh e k) as [v|] eqn:F.
      - destruct Q as [_ ->]. rewrite I2, Hsk, fresh_samples, F.
        apply tset_last. intros Hin. apply in_map_iff in Hin as ([t w] & E & Hin). cbn in E. subst t.
        apply samples_skipn_in in Hin. unfold es1 in Hi. rewrite map_app in Hi. apply increasing_app in Hi as (_ & _ & Hlt).
        specialize (Hlt (fst e) (fst e) Hin (or_introl eq_refl)). lia.
      - destruct Q as [_ ->]. apply I2. }
    destruct H as (I1 & I2 & I3 & I4). destruct (store_fold_saved (fst e) (snd e) x) as [E1 E2].
    unfold store_trigger. rewrite (proj2 (Z.ltb_ge _ _) Ht). cbv zeta. rewrite E1, E2, I1.
    replace (Z.of_nat (length es1) + 1) with (Z.of_nat (S (length es1))) by lia.
    rewrite it_mod, M. assert (Hb : (0 <? d_split c) = true) by (apply Z.ltb_lt; lia). rewrite Hb. cbn [andb].
    pose proof (div_S (length es1)) as D. rewrite M in D.
    pose proof (Nat.div_mod (S (length es1)) s ltac:(lia)) as D2. apply Nat.eqb_eq in M. rewrite M in D2.
    split.
    + intros k. unfold StoreSpec.all_saved. cbn [d_saved]. rewrite flat_map_app. cbn [flat_map snd]. rewrite app_nil_r.
      fold (all_saved x k). rewrite I3, Hsame, <- samples_app, firstn_skipn.
      rewrite firstn_all2 by lia. reflexivity.
    + cbn [d_saved]. rewrite D, map_app, seq_app, map_app, I4. cbn [map fst seq Nat.add]. f_equal. f_equal. f_equal. f_equal.
      rewrite Hs. nia.
  - (* nothing is saved by finalize *)
    destruct H as (I1 & I2 & I3 & I4). destruct (store_fold_saved (fst e) (snd e) x) as [E1 E2].
    unfold store_trigger. rewrite (proj2 (Z.ltb_ge _ _) Ht). cbv zeta. rewrite E1, E2, I1.
    replace (Z.of_nat (length es1) + 1) with (Z.of_nat (S (length es1))) by lia.
    rewrite it_mod, M, andb_false_r. pose proof (div_S (length es1)) as D. rewrite M, Nat.add_0_r in D. rewrite D.
    split; [|exact I4]. intros k. unfold StoreSpec.all_saved. cbn [d_saved]. fold (all_saved x k). apply I3.
Qed.
End Split.
End Store.

(* chunks of one call *)
Lemma single_run c (es : list event) (e : event) : d_split c = 1 -> (forall k, every c k = 1) ->
  proper V (es ++ [e]) -> increasing (map fst (es ++ [e])) ->
  Forall (fun e => d_start c <= fst e) (es ++ [e]) ->
  forall k, all_saved V (store_run V c (es ++ [e]) e) k = samples (es ++ [e; e]) k.
Proof.
  intros Hs HN Hp Hi Ht k. destruct (split_loop c 1 Hs ltac:(lia) HN (es ++ [e]) Hp Hi Ht) as (I1 & I2 & I3 & I4).
  unfold store_run, store_finalize. rewrite Hs. cbn [Z.eqb].
  set (x := fold_left (store_trigger V c) (es ++ [e]) (dst0 V)) in *.
  apply Forall_app in Hp as [_ He]. apply Forall_inv in He. apply Forall_app in Ht as [_ Ht]. apply Forall_inv in Ht.
  unfold store_trigger. rewrite (proj2 (Z.ltb_ge _ _) Ht), Hs, Z.mod_1_r. cbv zeta. cbn [Z.ltb Z.compare andb Z.eqb].
  destruct (store_fold_saved c (fst e) (snd e) x) as [E1 E2]. rewrite E1, E2.
  unfold all_saved. cbn [d_saved]. rewrite flat_map_app. cbn [flat_map snd]. rewrite app_nil_r.
  fold (all_saved V x k). rewrite I3. unfold chunk0. rewrite Nat.div_1_r, Nat.mul_1_l, firstn_all.
  change (es ++ [e; e]) with (es ++ [e] ++ [e]). rewrite app_assoc, (fresh_samples e (es ++ [e]) k). f_equal.
  pose proof (store_fold c e k He x) as Q. cbv zeta in Q. rewrite HN, Z.mod_1_r in Q. cbn [Z.eqb] in Q.
  rewrite I2 in Q. unfold chunk0 in Q. rewrite Nat.div_1_r, Nat.mul_1_l, skipn_all in Q.
  destruct (fresh e k); destruct Q as [_ ->]; reflexivity.
Qed.
End Proofs.
