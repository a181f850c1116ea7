From Coq Require Import String List ZArith Bool Lia DecimalString.
From Coq Require DecimalNat DecimalFacts FinFun.
From Verif Require Import PyBase PyLemmas ConnProofs StoreModel StoreSpec StoreProofs.
Import ListNotations.
Local Open Scope Z_scope.

(* --------------------------------------------------------------------- to_float *)
Lemma to_float_exact p t : 0 < p -> Z.abs t <= 2 ^ p -> to_float p t = t.
Proof.
  intros Hp Ht. unfold to_float. cbv zeta.
  destruct (Z.log2 (Z.abs t) + 1 - p <=? 0) eqn:E; [reflexivity|].
  apply Z.leb_gt in E. assert (Hl : p <= Z.log2 (Z.abs t)) by lia.
  assert (H0 : 0 < Z.abs t).
  { destruct (Z.eq_dec (Z.abs t) 0) as [Q|Q]; [rewrite Q in Hl; cbn in Hl; lia|lia]. }
  assert (Ha : Z.abs t = 2 ^ p).
  { pose proof (Z.log2_spec (Z.abs t) H0) as [L _].
    assert (2 ^ p <= 2 ^ Z.log2 (Z.abs t)) by (apply Z.pow_le_mono_r; lia). lia. }
  rewrite Ha in *. rewrite (Z.log2_pow2 p) in * by lia. replace (p + 1 - p) with 1 by lia.
  change (2 ^ 1) with 2. replace (2 ^ p) with (2 ^ (p - 1) * 2) by (rewrite <- (Z.pow_succ_r 2 (p - 1)) || (rewrite Z.mul_comm, <- Z.pow_succ_r by lia; f_equal; lia); f_equal; lia).
  rewrite Z.mod_mul, Z.div_mul by lia. cbn [Z.mul Z.ltb Z.compare].
  assert (Hs : Z.sgn t * Z.abs t = t) by (rewrite Z.mul_comm; apply Z.abs_sgn). rewrite <- Hs at 2. rewrite Ha.
  f_equal. rewrite Z.mul_comm, <- Z.pow_succ_r by lia. f_equal. lia.
Qed.

(* the relative error is at most 2^-p *)
Lemma to_float_error p t : 0 < p -> 2 ^ p * Z.abs (to_float p t - t) <= Z.abs t.
Proof.
  intros Hp. unfold to_float. cbv zeta. destruct (Z.log2 (Z.abs t) + 1 - p <=? 0) eqn:E.
  - rewrite Z.sub_diag. cbn. lia.
  - apply Z.leb_gt in E. set (a := Z.abs t) in *. set (e := Z.log2 a + 1 - p) in *.
    assert (H0 : 0 < a).
    { pose proof (Z.abs_nonneg t) as Hab. fold a in Hab. destruct (Z.eq_dec a 0) as [Q|Q]; [|lia]. unfold e in E. rewrite Q in E. change (Z.log2 0) with 0 in E. lia. }
    set (u := 2 ^ e) in *. assert (Hu : 0 < u) by (apply Z.pow_pos_nonneg; lia).
    set (q := a / u). set (r := a mod u).
    assert (Ea : a = u * q + r) by (apply Z.div_mod; lia).
    assert (Hr : 0 <= r < u) by (apply Z.mod_pos_bound; lia).
    match goal with |- context [Z.sgn t * (?y * u)] => set (q1 := y) end.
    assert (Hq : 2 * Z.abs (q1 * u - a) <= u).
    { unfold q1. destruct (2 * r <? u) eqn:E1; [apply Z.ltb_lt in E1; lia|].
      apply Z.ltb_ge in E1. destruct (u <? 2 * r) eqn:E2; [apply Z.ltb_lt in E2; lia|].
      apply Z.ltb_ge in E2. destruct (Z.even q); lia. }
    assert (Hs : Z.abs (Z.sgn t * (q1 * u) - t) = Z.abs (q1 * u - a)).
    { replace (Z.sgn t * (q1 * u) - t) with (Z.sgn t * (q1 * u - a)).
      - rewrite Z.abs_mul. replace (Z.abs (Z.sgn t)) with 1; [lia|]. unfold a in H0. destruct t; cbn in *; lia.
      - rewrite Z.mul_sub_distr_l. f_equal. unfold a. rewrite Z.mul_comm. apply Z.abs_sgn. }
    rewrite Hs. pose proof (Z.log2_spec a H0) as [L _].
    assert (Hpow : 2 ^ p * u = 2 * 2 ^ Z.log2 a).
    { unfold u, e. rewrite <- Z.pow_add_r by lia. replace (p + (Z.log2 a + 1 - p)) with (Z.succ (Z.log2 a)) by lia.
      apply Z.pow_succ_r. apply Z.log2_nonneg. }
    assert (0 < 2 ^ p) by (apply Z.pow_pos_nonneg; lia). nia.
Qed.

(* ------------------------------------------------------------------- DataSource *)
Section Source.
Variable V : Type.

Lemma load_app (a b : series V) : load V (a ++ b) = fold_left (fun d tv => tset (fst tv) (snd tv) d) b (load V a).
Proof. apply fold_left_app. Qed.
Lemma load_increasing (x : series V) : increasing (map fst x) -> load V x = x.
Proof.
  induction x as [|[t v] x IH] using rev_ind; [easy|]. intros H. rewrite map_app in H.
  apply increasing_app in H as (H1 & _ & H2). rewrite load_app, (IH H1). cbn. apply tset_new.
  intros Hin. specialize (H2 t t Hin (or_introl eq_refl)). lia.
Qed.
Lemma tget_in (x : series V) t v : increasing (map fst x) -> (tget t x = Some v <-> In (t, v) x).
Proof.
  induction x as [|[t' v'] x IH]; [easy|]. intros H. cbn [map fst] in H. apply increasing_cons in H as [H1 H2].
  cbn. destruct (t =? t') eqn:E.
  - apply Z.eqb_eq in E as <-. split; [intros Q; left; congruence|].
    intros [Q|Q]; [congruence|]. apply (in_map fst) in Q. specialize (H2 t Q). lia.
  - apply Z.eqb_neq in E. rewrite (IH H1). split; [tauto|]. intros [Q|Q]; [congruence|exact Q].
Qed.
Lemma tget_none (x : series V) t : tget t x = None <-> ~ In t (map fst x).
Proof.
  induction x as [|[t' v'] x IH]; [easy|]. cbn. destruct (t =? t') eqn:E.
  - apply Z.eqb_eq in E as <-. split; [easy|]. tauto.
  - apply Z.eqb_neq in E. rewrite IH. split; [intros H [Q|Q]; congruence || tauto|tauto].
Qed.

Lemma source_load_ok (files : storage V) outputs : NoDup outputs ->
  (forall k, In k outputs -> dget k files <> None) ->
  exists st, source_load V files outputs = Ok st /\
  forall k, dget k st = if in_dec string_dec k outputs then option_map (load V) (dget k files) else None.
Proof.
  unfold source_load. intros ND H.
  assert (G : forall acc, exists st, fold_res (fun st k => match dget k files with
            | Some x => Ok (dset k (load V x) st) | None => Err RuntimeError end) acc outputs = Ok st /\
            forall k, dget k st = if in_dec string_dec k outputs then option_map (load V) (dget k files) else dget k acc).
  { induction outputs as [|k0 r IH]; intros acc.
    - exists acc. split; [reflexivity|]. intros k. destruct (in_dec string_dec k []) as [[]|]; reflexivity.
    - inversion_clear ND as [|? ? N1 N2]. cbn [fold_res].
      destruct (dget k0 files) as [x|] eqn:E; [|now elim (H k0 (or_introl eq_refl))]. cbn [bind].
      destruct (IH N2 (fun k Q => H k (or_intror Q)) (dset k0 (load V x) acc)) as (st & E1 & E2).
      exists st. split; [exact E1|]. intros k. rewrite E2.
      destruct (in_dec string_dec k r) as [I|I], (in_dec string_dec k (k0 :: r)) as [J|J]; try reflexivity.
      + elim J. now right.
      + destruct J as [->|J]; [|now elim I]. rewrite dget_dset_eq, E. reflexivity.
      + apply dget_dset_neq. intros ->. apply J. now left. }
  exact (G []).
Qed.

Lemma dget_map_snd {A B} (f : string -> A -> B) (d : dict A) k :
  dget k (map (fun kx => (fst kx, f (fst kx) (snd kx))) d) = option_map (f k) (dget k d).
Proof.
  induction d as [|[k' x] d IH]; [reflexivity|]. cbn. destruct (String.eqb k k') eqn:E; [|exact IH].
  apply String.eqb_eq in E as ->. reflexivity.
Qed.

Lemma source_trigger_get (st : storage V) o t k :
  dget k (source_trigger V st o t) =
  option_map (fun x => match dget k st with
                       | Some d => match tget t d with Some v => (Some v, t) | None => x end
                       | None => x end) (dget k o).
Proof.
  unfold source_trigger.
  rewrite <- (dget_map_snd (fun k x => match dget k st with
                       | Some d => match tget t d with Some v => (Some v, t) | None => x end
                       | None => x end)).
  f_equal. apply map_ext. intros [k' x]. cbn. destruct (dget k' st) as [d|]; [|reflexivity].
  destruct (tget t d); reflexivity.
Qed.
End Source.

(* ------------------------------------------------------------------- DataBuffer *)
Section Buffer.
Variable V : Type.
Notation event := (Z * sview V)%type.
Notation samples := (samples V).
Notation fresh := (fresh V).

Definition bcollect (e : event) (st : dict (list V)) : dict (list V) :=
  fold_left (fun st (ki : string * item V) =>
              match snd ki with
              | Some (v, g) => if g =? fst e then dset (fst ki) (ddef [] (fst ki) st ++ [v]) st else st
              | None => st
              end) (snd e) st.

Lemma NoDup_dset {T} k (v : T) d : NoDup (dkeys d) -> NoDup (dkeys (dset k v d)).
Proof.
  intros H. destruct (dget k d) as [w|] eqn:E; [rewrite dkeys_dset; congruence|].
  apply dget_None in E. induction d as [|[k' v'] d IH]; cbn in *.
  - repeat constructor. easy.
  - replace (String.eqb k k') with false by (symmetry; apply String.eqb_neq; intros ->; apply E; now left).
    cbn. inversion_clear H as [|? ? H1 H2]. constructor; [|apply IH; tauto].
    unfold dkeys. intros Hin. assert (Q : In k' (k :: dkeys d)).
    { clear -Hin. unfold dkeys in *. induction d as [|[a b] d IH]; cbn in *; [tauto|].
      destruct (String.eqb k a) eqn:Ea; cbn in *.
      - destruct Hin as [<-|Hin]; [now left|]. right. now right.
      - destruct Hin as [<-|Hin]; [right; now left|]. destruct (IH Hin) as [<-|Q]; [now left|right; now right]. }
    destruct Q as [->|Q]; [apply E; now left|now apply H1].
Qed.

Lemma bcollect_get (e : event) k : NoDup (dkeys (snd e)) -> forall st,
  ddef [] k (bcollect e st) = ddef [] k st ++ match fresh e k with Some v => [v] | None => [] end.
Proof.
  destruct e as [t vw]. unfold bcollect, StoreSpec.fresh. cbn [fst snd].
  induction vw as [|[k0 i] vw IH]; intros ND st; [cbn; now rewrite app_nil_r|].
  inversion_clear ND as [|? ? N1 N2]. cbn [fold_left dget fst snd].
  destruct (String.eqb k k0) eqn:E.
  - apply String.eqb_eq in E as <-. rewrite (IH N2).
    assert (Q : dget k vw = None) by (apply dget_None; exact N1). rewrite Q, app_nil_r.
    destruct i as [[v g]|]; [|now rewrite app_nil_r].
    destruct (g =? t); [now rewrite ddef_dset_eq|now rewrite app_nil_r].
  - apply String.eqb_neq in E. rewrite (IH N2). f_equal.
    destruct i as [[v g]|]; [|reflexivity]. destruct (g =? t); [|reflexivity]. now apply ddef_dset_neq; congruence.
Qed.
Lemma bcollect_nodup (e : event) : forall st, NoDup (dkeys st) -> NoDup (dkeys (bcollect e st)).
Proof.
  destruct e as [t vw]. unfold bcollect. cbn [fst snd]. induction vw as [|[k i] vw IH]; intros st H; [exact H|].
  cbn [fold_left fst snd]. apply IH. destruct i as [[v g]|]; [|exact H]. destruct (g =? t); [|exact H]. now apply NoDup_dset.
Qed.

Lemma emit_get t s k : NoDup (dkeys (b_store V s)) ->
  dget k (emit V t s) = match ddef [] k (b_store V s), dget k (b_out V s) with
                        | (_ :: _) as l, Some _ => Some (l, t)
                        | _, o => o
                        end.
Proof.
  unfold emit. destruct s as [st n out]. cbn [b_store b_out]. revert out.
  induction st as [|[k0 l] st IH]; intros out ND; [cbn; now destruct (dget k out)|].
  inversion_clear ND as [|? ? N1 N2]. cbn [fold_left fst snd]. rewrite (IH _ N2). unfold ddef. cbn [dget].
  destruct (String.eqb k k0) eqn:E.
  - apply String.eqb_eq in E as <-. rewrite (proj2 (dget_None k st) N1).
    destruct l as [|v l]; [reflexivity|]. unfold dmem. destruct (dget k out) eqn:Eo; [now rewrite dget_dset_eq|now rewrite Eo].
  - apply String.eqb_neq in E. destruct l as [|v l]; [reflexivity|].
    destruct (dmem k0 out); [|reflexivity]. now rewrite dget_dset_neq by congruence.
Qed.

Variable size : nat.
Hypothesis Hsize : (1 <= size)%nat.
Notation chunk0 := (chunk0 size).

(* state after a sequence of calls *)
Definition binv (es : list event) (s : bst V) : Prop :=
  b_step V s = Z.of_nat (length es mod size) /\ NoDup (dkeys (b_store V s)) /\
  (forall k, ddef [] k (b_store V s) = map snd (samples (skipn (chunk0 (length es)) es) k)).

Definition brun (names : list string) (es : list event) : bst V :=
  fold_left (buffer_trigger V (Z.of_nat size)) es (buffer_init V names).

Lemma mod_S n : (S n mod size = if S (n mod size) =? size then 0 else S (n mod size))%nat.
Proof.
  pose proof (Nat.div_mod n size ltac:(lia)). pose proof (Nat.mod_upper_bound n size ltac:(lia)).
  destruct (Nat.eqb_spec (S (n mod size)) size) as [E|E].
  - symmetry. apply (Nat.mod_unique (S n) size (n / size + 1) 0); [lia|]. nia.
  - symmetry. apply (Nat.mod_unique (S n) size (n / size) (S (n mod size))); [lia|]. lia.
Qed.

Lemma buffer_step (es : list event) (e : event) s : NoDup (dkeys (snd e)) -> binv es s ->
  binv (es ++ [e]) (buffer_trigger V (Z.of_nat size) s e) /\
  forall k, dget k (b_out V (buffer_trigger V (Z.of_nat size) s e)) =
    if (S (length es) mod size =? 0)%nat
    then match map snd (samples (skipn (S (length es) - size) (es ++ [e])) k), dget k (b_out V s) with
         | (_ :: _) as l, Some _ => Some (l, fst e)
         | _, o => o
         end
    else dget k (b_out V s).
Proof.
  intros ND (I1 & I2 & I3).
  assert (Hlen : length (es ++ [e]) = S (length es)) by (rewrite app_length; cbn; lia).
  assert (Hc : forall k, ddef [] k (bcollect e (b_store V s)) = map snd (samples (skipn (chunk0 (length es)) (es ++ [e])) k)).
  { intros k. rewrite (bcollect_get e k ND), I3.
    pose proof (chunk0_le size Hsize (length es)).
    rewrite skipn_app. replace (chunk0 (length es) - length es)%nat with 0%nat by lia. cbn [skipn].
    rewrite fresh_samples, map_app. f_equal. now destruct (fresh e k). }
  pose proof (bcollect_nodup e _ I2) as Hnd.
  unfold buffer_trigger. fold (bcollect e (b_store V s)). cbv zeta. rewrite I1.
  pose proof (mod_S (length es)) as Hm. pose proof (chunk0_S size Hsize (length es)) as Hch.
  pose proof (Nat.mod_upper_bound (length es) size ltac:(lia)) as Hub.
  destruct (Nat.eqb_spec (S (length es mod size)) size) as [E|E].
  - rewrite Hm. cbn [Nat.eqb]. rewrite Hm in Hch. cbn [Nat.eqb] in Hch.
    replace (Z.of_nat size <=? Z.of_nat (length es mod size) + 1) with true by (symmetry; apply Z.leb_le; lia).
    split.
    + unfold binv. cbn [b_step b_store]. rewrite Hlen, Hm, Hch. split; [reflexivity|]. split; [constructor|].
      intros k. rewrite skipn_all2 by lia. reflexivity.
    + intros k. cbn [b_out]. rewrite emit_get by exact Hnd. cbn [b_store b_out]. rewrite Hc.
      assert (Q : chunk0 (length es) = (S (length es) - size)%nat).
      { unfold StoreProofs.chunk0 in *. pose proof (Nat.div_mod (length es) size ltac:(lia)). lia. }
      rewrite Q. reflexivity.
  - replace (S (length es) mod size =? 0)%nat with false in * by (symmetry; apply Nat.eqb_neq; rewrite Hm; lia).
    replace (Z.of_nat size <=? Z.of_nat (length es mod size) + 1) with false by (symmetry; apply Z.leb_gt; lia).
    split; [|reflexivity]. unfold binv. cbn [b_step b_store]. rewrite Hlen, Hm, Hch.
    split; [lia|]. split; [exact Hnd|exact Hc].
Qed.

Lemma buffer_loop names (es : list event) : proper V es -> binv es (brun names es).
Proof.
  induction es as [|e es IH] using rev_ind; intros Hp.
  - unfold binv, brun, StoreProofs.chunk0. cbn [fold_left length buffer_init b_step b_store].
    rewrite Nat.mod_0_l by lia. split; [reflexivity|]. split; [constructor|].
    intros k. destruct (size * (0 / size))%nat; reflexivity.
  - apply Forall_app in Hp as [Hp He]. apply Forall_inv in He. unfold brun. rewrite fold_left_app. cbn [fold_left].
    fold (brun names es). now apply buffer_step; [|apply IH].
Qed.

Lemma brun_app names (es : list event) e :
  brun names (es ++ [e]) = buffer_trigger V (Z.of_nat size) (brun names es) e.
Proof. unfold brun. now rewrite fold_left_app. Qed.

Notation seen := (StoreSpec.seen V).
Notation seen_all := (StoreSpec.seen_all V (Z.of_nat size)).
Lemma seen_all_app k a : forall s b,
  seen_all s k (a ++ b) = seen_all s k a ++ seen_all (fold_left (buffer_trigger V (Z.of_nat size)) a s) k b.
Proof. induction a as [|e a IH]; intros s b; [reflexivity|]. cbn. rewrite IH. apply app_assoc. Qed.

Lemma buffer_seen names (es : list event) k : In k names -> proper V es ->
  increasing (map fst es) -> Forall (fun e => 0 <= fst e) es ->
  (exists l g, dget k (b_out V (brun names es)) = Some (l, g) /\ (g = -1 \/ In g (map fst es))) /\
  seen_all (buffer_init V names) k es = map snd (samples (firstn (chunk0 (length es)) es) k).
Proof.
  intros Hk. induction es as [|e es IH] using rev_ind; intros Hp Hi H0.
  - split; [|cbn; destruct (chunk0 0); reflexivity]. exists [], (-1). split; [|now left].
    unfold brun. cbn. clear -Hk. induction names as [|k0 r IH]; [easy|]. cbn.
    destruct (String.eqb k k0) eqn:E; [reflexivity|]. apply IH. destruct Hk as [->|Hk]; [|exact Hk].
    now rewrite String.eqb_refl in E.
  - apply Forall_app in Hp as [Hp He]. apply Forall_inv in He. rewrite map_app in Hi.
    apply increasing_app in Hi as (Hi & _ & Hlt). apply Forall_app in H0 as [H0 H1]. apply Forall_inv in H1.
    destruct (IH Hp Hi H0) as [(l & g & El & Hg) IH2].
    assert (Hge : g <> fst e).
    { destruct Hg as [->|Hg]; [lia|]. specialize (Hlt g (fst e) Hg (or_introl eq_refl)). lia. }
    destruct (buffer_step es e (brun names es) He (buffer_loop names es Hp)) as [_ Hs].
    rewrite brun_app. specialize (Hs k). rewrite El in Hs.
    rewrite seen_all_app, IH2. cbn [StoreSpec.seen_all]. fold (brun names es). rewrite app_nil_r.
    unfold StoreSpec.seen. assert (Hlen : length (es ++ [e]) = S (length es)) by (rewrite app_length; cbn; lia).
    rewrite Hlen, (chunk0_S size Hsize (length es)). rewrite map_app.
    destruct (S (length es) mod size =? 0)%nat eqn:M.
    + assert (Q : chunk0 (length es) = (S (length es) - size)%nat).
      { pose proof (chunk0_S size Hsize (length es)) as Q. rewrite M in Q.
        pose proof (div_S size Hsize (length es)) as D. rewrite M in D. unfold StoreProofs.chunk0 in *. nia. }
      assert (F : map snd (samples (firstn (S (length es)) (es ++ [e])) k) =
                  map snd (samples (firstn (chunk0 (length es)) es) k) ++
                  map snd (samples (skipn (S (length es) - size) (es ++ [e])) k)).
      { rewrite <- map_app, <- samples_app. rewrite firstn_all2 by lia. f_equal. f_equal.
        rewrite <- Q. pose proof (chunk0_le size Hsize (length es)). rewrite skipn_app.
        replace (chunk0 (length es) - length es)%nat with 0%nat by lia. cbn [skipn].
        now rewrite app_assoc, firstn_skipn. }
      rewrite F. destruct (map snd (samples (skipn (S (length es) - size) (es ++ [e])) k)) as [|x xs] eqn:X.
      * rewrite Hs. split; [exists l, g; split; [reflexivity|]; rewrite in_app_iff; tauto|].
        now rewrite (proj2 (Z.eqb_neq _ _) Hge).
      * rewrite Hs, Z.eqb_refl. split; [|reflexivity]. exists (x :: xs), (fst e). split; [reflexivity|].
        right. rewrite in_app_iff. right. now left.
    + rewrite Hs, (proj2 (Z.eqb_neq _ _) Hge), app_nil_r. split.
      * exists l, g. split; [reflexivity|]. rewrite in_app_iff. tauto.
      * f_equal. f_equal. rewrite firstn_app. pose proof (chunk0_le size Hsize (length es)).
        replace (chunk0 (length es) - length es)%nat with 0%nat by lia. cbn. now rewrite app_nil_r.
Qed.

Lemma buffer_final names (es : list event) k t : In k names -> proper V es ->
  increasing (map fst es) -> Forall (fun e => 0 <= fst e) es ->
  let rest := map snd (samples (skipn (chunk0 (length es)) es) k) in
  let s := buffer_finalize V (brun names es) t in
  (rest <> [] -> dget k (b_out V s) = Some (rest, t)) /\
  (rest = [] -> dget k (b_out V s) = dget k (b_out V (brun names es))).
Proof.
  intros Hk Hp Hi H0. destruct (buffer_seen names es k Hk Hp Hi H0) as [(l & g & El & _) _].
  destruct (buffer_loop names es Hp) as (I1 & I2 & I3). cbv zeta. unfold buffer_finalize. rewrite I1.
  pose proof (Nat.div_mod (length es) size ltac:(lia)) as D.
  destruct (0 <? Z.of_nat (length es mod size)) eqn:E.
  - cbn [b_out]. rewrite emit_get by exact I2. rewrite I3, El. split; intros H.
    + destruct (map snd _) eqn:X; [now elim H|reflexivity].
    + now rewrite H.
  - apply Z.ltb_ge in E. assert (M : (length es mod size = 0)%nat) by lia.
    split; [|reflexivity]. intros H. elim H. rewrite skipn_all2; [reflexivity|]. unfold StoreProofs.chunk0. lia.
Qed.
End Buffer.

(* ------------------------------------------------------------------- folders *)
Lemma append_inj_l (a b c : string) : (a ++ b = a ++ c)%string -> b = c.
Proof. induction a as [|x a IH]; [easy|]. cbn. intros H. injection H. exact IH. Qed.
Lemma append_nil_len (a b : string) : (a ++ b = a)%string -> b = EmptyString.
Proof. induction a as [|x a IH]; [easy|]. cbn. intros H. injection H. exact IH. Qed.

Lemma string_of_nat_inj n m :
  NilZero.string_of_uint (Nat.to_uint n) = NilZero.string_of_uint (Nat.to_uint m) -> n = m.
Proof.
  intros H. apply (f_equal NilZero.uint_of_string) in H.
  assert (U : forall k, Nat.to_uint k <> Decimal.Nil).
  { intros k. rewrite <- (DecimalNat.Unsigned.of_to k), DecimalNat.Unsigned.to_of. apply DecimalFacts.unorm_nonnil. }
  rewrite !NilZero.usu in H by apply U. injection H as H. now apply DecimalNat.Unsigned.to_uint_inj.
Qed.
Lemma candidate_inj base i j : candidate base i = candidate base j -> i = j.
Proof.
  destruct i as [n|], j as [m|]; cbn [candidate]; intros H; [| | |reflexivity].
  - apply append_inj_l in H. injection H as H. apply string_of_nat_inj in H. now subst.
  - apply append_nil_len in H. discriminate.
  - symmetry in H. apply append_nil_len in H. discriminate.
Qed.

Definition next (i : option nat) : option nat := Some match i with None => O | Some n => S n end.

Lemma create_not_exists exists_ fuel : forall base i p,
  create_TN_folder exists_ fuel base i = Some p -> exists_ p = false.
Proof.
  induction fuel as [|fuel IH]; intros base i p; [discriminate|]. cbn [create_TN_folder].
  destruct (exists_ (candidate base i)) eqn:E; [apply IH|]. intros H. congruence.
Qed.

Lemma create_fuel exists_ (L : list string) : (forall p, exists_ p = true -> In p L) ->
  forall base i, exists fuel p, create_TN_folder exists_ fuel base i = Some p.
Proof.
  intros HL base.
  (* candidates i, i+1, ... are different; they cannot all be in L *)
  assert (G : forall n i, (exists fuel p, create_TN_folder exists_ fuel base i = Some p) \/
                          (forall k, (k < n)%nat -> exists_ (candidate base (Nat.iter k next i)) = true)).
  { induction n as [|n IH]; intros i; [right; lia|].
    destruct (exists_ (candidate base i)) eqn:E.
    - destruct (IH (next i)) as [(fuel & p & H)|H].
      + left. exists (S fuel), p. cbn [create_TN_folder]. rewrite E. exact H.
      + right. intros [|k] Hk; [exact E|]. specialize (H k ltac:(lia)).
        replace (Nat.iter (S k) next i) with (Nat.iter k next (next i)); [exact H|].
        clear. induction k as [|k IH]; [reflexivity|]. cbn. now f_equal.
    - left. exists 1%nat, (candidate base i). cbn. now rewrite E. }
  intros i. destruct (G (S (length L)) i) as [H|H]; [exact H|]. exfalso.
  set (l := map (fun k => candidate base (Nat.iter k next i)) (seq 0 (S (length L)))).
  assert (Hit : forall k j, Nat.iter k next i = Nat.iter j next i -> k = j).
  { assert (V : forall k, match Nat.iter (S k) next i with Some n => n = (k + match i with None => 0 | Some m => S m end)%nat | None => False end).
    { induction k as [|k IH]; [cbn; destruct i; reflexivity|].
      change (Nat.iter (S (S k)) next i) with (next (Nat.iter (S k) next i)).
      destruct (Nat.iter (S k) next i) as [n|]; [|easy]. cbn [next]. lia. }
    assert (V0 : forall k, Nat.iter (S k) next i <> i).
    { intros k Q. specialize (V k). rewrite Q in V. destruct i; [lia|easy]. }
    intros k j Q. destruct k as [|k], j as [|j]; [reflexivity| | |].
    - elim (V0 j). now rewrite <- Q.
    - elim (V0 k). now rewrite Q.
    - pose proof (V k) as V1. pose proof (V j) as V2. rewrite Q in V1.
      destruct (Nat.iter (S j) next i); [|easy]. lia. }
  assert (ND : NoDup l).
  { unfold l. apply FinFun.Injective_map_NoDup; [|apply seq_NoDup].
    intros a b Q. apply candidate_inj in Q. now apply Hit. }
  assert (I : incl l L).
  { intros p Hp. apply in_map_iff in Hp as (k & <- & Hk). apply in_seq in Hk. apply HL, H. lia. }
  apply (NoDup_incl_length ND) in I. unfold l in I. rewrite map_length, seq_length in I. lia.
Qed.
