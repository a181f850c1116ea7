From Coq Require Import String List Ascii ZArith Bool Arith Lia.
From Verif Require Import PyBase PyLemmas NamesModel NamesSpec NamesProofs TrigOrderModel TrigOrderSpec
  TrigOrderProofs ConnProofs ParamsModel ParamsSpec ParamsProofs ParamsProofs2.
Import ListNotations.
Local Open Scope string_scope.
Local Open Scope list_scope.

(* ---------------------------------------------------- command line overrides *)
Lemma split_two a b : free_of "." a -> free_of "." b -> split_char "." (a ++ "." ++ b)%string = [a; b].
Proof.
  intros H1 H2. apply has_char_free in H1, H2.
  exact (split_char_join "." [a; b] ltac:(discriminate) ltac:(repeat constructor; assumption)).
Qed.
Lemma split_three a b c : free_of "." a -> free_of "." b -> free_of "." c ->
  split_char "." (a ++ "." ++ b ++ "." ++ c)%string = [a; b; c].
Proof.
  intros H1 H2 H3. apply has_char_free in H1, H2, H3.
  exact (split_char_join "." [a; b; c] ltac:(discriminate) ltac:(repeat constructor; assumption)).
Qed.
Lemma split_inv2 s a b : split_char "." s = [a; b] -> s = (a ++ "." ++ b)%string /\ free_of "." a /\ free_of "." b.
Proof.
  intros H. destruct (split_char_concat "." s) as [H1 H2]. rewrite H in H1, H2. inversion_clear H2 as [|? ? A H2'].
  inversion_clear H2' as [|? ? B _]. split; [now rewrite <- H1|]. split; now apply has_char_free.
Qed.
Lemma split_inv3 s a b c : split_char "." s = [a; b; c] ->
  s = (a ++ "." ++ b ++ "." ++ c)%string /\ free_of "." a /\ free_of "." b /\ free_of "." c.
Proof.
  intros H. destruct (split_char_concat "." s) as [H1 H2]. rewrite H in H1, H2. inversion_clear H2 as [|? ? A H3].
  inversion_clear H3 as [|? ? B H4]. inversion_clear H4 as [|? ? C _].
  split; [now rewrite <- H1|]. repeat split; now apply has_char_free.
Qed.

Lemma dset_keys_some {A} k (v w : A) d : dget k d = Some w -> map fst (dset k v d) = map fst d.
Proof. intros H. apply keys_dset. apply dget_In in H. now apply (in_map fst) in H. Qed.

Lemma override_inv ps key v ps' : apply_override ps (key, v) = Ok ps' ->
  exists a b p w, key = (a ++ "." ++ b)%string /\ w = v /\ free_of "." a /\ free_of "." b /\
                dget a ps = Some p /\ ps' = dset a (dset b w p) ps
  \/ exists c d, key = (a ++ "." ++ b ++ "." ++ c)%string /\ w = YDict (dset c v d) /\
                 free_of "." a /\ free_of "." b /\ free_of "." c /\
                 dget a ps = Some p /\ dget b p = Some (YDict d) /\ ps' = dset a (dset b w p) ps.
Proof.
  unfold apply_override. cbn [fst snd]. destruct (split_char "." key) as [|a [|b [|c [|? ?]]]] eqn:E; try discriminate.
  - apply split_inv2 in E as (-> & Ha & Hb). destruct (dget a ps) as [p|] eqn:Ep; [|discriminate].
    intros H. injection H as <-. exists a, b, p, v. left. repeat split; assumption.
  - apply split_inv3 in E as (-> & Ha & Hb & Hc). destruct (dget a ps) as [p|] eqn:Ep; [|discriminate].
    destruct (dget b p) as [w|] eqn:Eb; [|discriminate]. destruct w; try discriminate.
    intros H. injection H as <-. exists a, b, p, (YDict (dset c v d)). right. exists c, d. repeat split; assumption.
Qed.

Lemma override_frame ps key v ps' : apply_override ps (key, v) = Ok ps' ->
  dkeys ps' = dkeys ps /\ forall k n, ~ addresses key k n -> param ps' k n = param ps k n.
Proof.
  intros H. apply override_inv in H as (a & b & p & w & [(E & -> & Ha & Hb & Hp & ->)|(c & d & E & -> & Ha & Hb & Hc & Hp & Hd & ->)]).
  all: split; [eapply dset_keys_some; eassumption|]; intros k n N; unfold param;
       destruct (string_dec k a) as [->|Nk]; [|now rewrite dget_dset_neq by congruence];
       rewrite dget_dset_eq, Hp; destruct (string_dec n b) as [->|Nn]; [|now rewrite dget_dset_neq by congruence];
       elim N; split; [exact Ha|]; split; [exact Hb|].
  - now left.
  - right. now exists c.
Qed.

Lemma overrides_frame os : forall ps ps', apply_overrides os ps = Ok ps' ->
  dkeys ps' = dkeys ps /\ forall k n, (forall key v, In (key, v) os -> ~ addresses key k n) -> param ps' k n = param ps k n.
Proof.
  unfold apply_overrides. induction os as [|[key v] os IH]; cbn [fold_res]; intros ps ps' H.
  - injection H as <-. split; reflexivity.
  - inv_bind H. destruct (override_frame _ _ _ _ E) as [F1 F2]. destruct (IH _ _ H) as [G1 G2].
    split; [congruence|]. intros k n N. rewrite G2 by (intros key' v' Q; apply (N key' v'); now right).
    apply F2. apply (N key v). now left.
Qed.

(* ----------------------------------------------------------------------- parsing *)
Lemma split_v_ok x o : split_v x = Ok o ->
  exists s, x = YStr s /\ split_output s = Ok o.
Proof. destruct x; try discriminate. cbn. eauto. Qed.

(* the references of a data store *)
Definition listed (p : pars) (s : string) : Prop :=
  exists i v, (exists ins, dget "inputs" p = Some (YDict ins) /\
               (dget "input_list" ins <> None -> i = "input_list") /\ In (i, v) ins) /\ ref_in v s.

Lemma ref_in_as_list v s : ref_in v s <-> In (YStr s) (as_list v).
Proof.
  split.
  - intros [->|(l & -> & H)]; [now left|exact H].
  - destruct v; cbn; try (intros [H|[]]; discriminate).
    + intros [H|[]]. injection H as ->. now left.
    + intros H. right. now exists l.
Qed.

Lemma iterate_listed p items : wf_pars p -> iterate_inputs p = Ok items ->
  forall s, (exists i, In (i, YStr s) items) <-> listed p s.
Proof.
  intros [_ W] H s. unfold iterate_inputs, inputs_items in H. unfold listed.
  destruct (dget "inputs" p) as [v|] eqn:E.
  - destruct v; try discriminate. cbn [bind] in H. pose proof (W d (dget_In _ _ _ E)) as Wd.
    destruct (dget "input_list" d) as [v|] eqn:El.
    + destruct v; try discriminate. injection H as <-. split.
      * intros (i & Hi). apply in_map_iff in Hi as (x & Ex & Hx). injection Ex as <- ->.
        exists "input_list", (YList l). split; [|right; now exists l]. exists d. split; [reflexivity|]. split; [reflexivity|].
        now apply dget_In.
      * intros (i & v & (ins & Ei & Hl & Hin) & Hr). injection Ei as <-. rewrite El in Hl.
        specialize (Hl ltac:(discriminate)). subst i. apply (PyLemmas.In_dget _ _ _ Wd) in Hin.
        rewrite El in Hin. injection Hin as <-. exists "input_list". apply in_map_iff. exists (YStr s).
        split; [reflexivity|]. now apply ref_in_as_list in Hr.
    + injection H as <-. split.
      * intros (i & Hi). apply in_flat_map in Hi as ([k v] & Hk & Hx). apply in_map_iff in Hx as (x & Ex & Hx).
        cbn in Ex, Hx. injection Ex as <- ->. exists k, v. split; [|now apply ref_in_as_list].
        exists d. split; [reflexivity|]. split; [intros Q; congruence|exact Hk].
      * intros (i & v & (ins & Ei & Hl & Hin) & Hr). injection Ei as <-. exists i. apply in_flat_map. exists (i, v).
        split; [exact Hin|]. apply in_map_iff. exists (YStr s). split; [reflexivity|]. now apply ref_in_as_list.
  - cbn [bind] in H. injection H as <-. split; [intros (i & [])|]. intros (i & v & (ins & Q & _) & _). discriminate.
Qed.

Lemma stores_listed p o key nm : stores p o key nm <->
  exists s q, listed p s /\ split_output s = Ok q /\ o_obj q = o /\ o_key q = Some key /\ o_input q = nm.
Proof.
  split.
  - intros (i & v & s & dl & H & Hr & Es & Hp & Hd).
    assert (X : exists z, match dl with None => z = 0%Z | Some t => py_int t = Ok z end).
    { destruct dl as [t|]; [exact Hd|]. now exists 0%Z. }
    destruct X as [z Hz]. exists s, (mkOutput o (Some key) z nm). split; [now exists i, v|]. split; [|cbn; auto].
    apply split_output_iff. exists dl. cbn. auto.
  - intros (s & q & (i & v & H & Hr) & Hq & <- & Hk & <-). apply split_output_iff in Hq as (dl & Es & Hp & Hd).
    rewrite Hk in Es, Hp. exists i, v, s, dl. repeat (split; [assumption|]). destruct dl as [t|]; [|exact I]. now exists (o_delay q).
Qed.

Definition store_step (st : list yval * list string * dict (option string)) (kx : string * yval) :=
  o <- split_v (snd kx) ;;
  match o_key o with
  | None => Err TypeError
  | Some key =>
      let '(outs, objs, m) := st in
      Ok ((outs ++ [yopt (o_input o)])%list, (objs ++ [o_obj o])%list,
          dset (o_obj o ++ "." ++ key) (o_input o) m)
  end.

Lemma store_fold items : forall outs objs m outs' objs' m',
  fold_res store_step (outs, objs, m) items = Ok (outs', objs', m') ->
  (forall o, In o objs' <-> In o objs \/ exists i x q, In (i, x) items /\ split_v x = Ok q /\ o_obj q = o) /\
  (forall n, In n outs' <-> In n outs \/ exists i x q, In (i, x) items /\ split_v x = Ok q /\ yopt (o_input q) = n) /\
  (forall t nm, dget t m' = Some nm -> dget t m = Some nm \/
     exists i x q key, In (i, x) items /\ split_v x = Ok q /\ o_key q = Some key /\
                       t = (o_obj q ++ "." ++ key)%string /\ o_input q = nm) /\
  (forall i x, In (i, x) items -> exists q key, split_v x = Ok q /\ o_key q = Some key /\
     dget (o_obj q ++ "." ++ key)%string m' <> None) /\
  (forall t, dget t m <> None -> dget t m' <> None).
Proof.
  induction items as [|[i x] items IH]; cbn [fold_res]; intros outs objs m outs' objs' m' H.
  - injection H as <- <- <-. split; [|split; [|split; [auto|split; [easy|auto]]]].
    + intros o. split; [auto|]. intros [?|(i & x & q & [] & _)]. assumption.
    + intros o. split; [auto|]. intros [?|(i & x & q & [] & _)]. assumption.
  - inv_bind H. unfold store_step in E. cbn [snd] in E. inv_bind E. destruct (o_key a0) as [key|] eqn:Ek; [|discriminate].
    injection E as <-. destruct (IH _ _ _ _ _ _ H) as (I1 & I0 & I2 & I3 & I4). split; [|split; [|split; [|split]]].
    + intros o. rewrite I1, in_app_iff. cbn. split.
      * intros [[?|[<-|[]]]|(i' & x' & q & Q1 & Q2)]; [auto| |]; right.
        -- exists i, x, a0. auto.
        -- exists i', x', q. auto.
      * intros [?|(i' & x' & q & [Q|Q] & Q2 & Q3)]; [auto| |].
        -- injection Q as <- <-. rewrite E0 in Q2. injection Q2 as <-. auto.
        -- right. exists i', x', q. auto.
    + intros o. rewrite I0, in_app_iff. cbn. split.
      * intros [[?|[<-|[]]]|(i' & x' & q & Q1 & Q2)]; [auto| |]; right.
        -- exists i, x, a0. auto.
        -- exists i', x', q. auto.
      * intros [?|(i' & x' & q & [Q|Q] & Q2 & Q3)]; [auto| |].
        -- injection Q as <- <-. rewrite E0 in Q2. injection Q2 as <-. auto.
        -- right. exists i', x', q. auto.
    + intros t nm Ht. destruct (I2 t nm Ht) as [Q|(i' & x' & q & key' & Q1 & Q2)].
      * destruct (string_dec t (o_obj a0 ++ "." ++ key)) as [->|Nt].
        -- rewrite dget_dset_eq in Q. injection Q as <-. right. exists i, x, a0, key. cbn. auto.
        -- rewrite dget_dset_neq in Q by (intros R; apply Nt; now symmetry). auto.
      * right. exists i', x', q, key'. cbn. auto.
    + intros i' x' [Q|Q]; [|now apply (I3 i')]. injection Q as <- <-. exists a0, key. split; [exact E0|]. split; [exact Ek|].
      apply I4. rewrite dget_dset_eq. discriminate.
    + intros t Ht. apply I4. destruct (string_dec t (o_obj a0 ++ "." ++ key)) as [->|Nt].
      * rewrite dget_dset_eq. discriminate.
      * now rewrite dget_dset_neq by (intros R; apply Nt; now symmetry).
Qed.

Lemma store_refs_spec p outs objs m : wf_pars p -> store_refs p = Ok (outs, objs, m) ->
  (forall o, In o objs <-> exists key nm, stores p o key nm) /\
  (forall t nm, dget t m = Some nm -> exists o key, t = (o ++ "." ++ key)%string /\ stores p o key nm) /\
  (forall o key nm, stores p o key nm -> dget (o ++ "." ++ key)%string m <> None) /\
  (forall n, In (YStr n) outs <-> exists o key, stores p o key (Some n)).
Proof.
  intros W H. unfold store_refs in H. inv_bind H. fold store_step in H.
  destruct (store_fold a _ _ _ _ _ _ H) as (F1 & F0 & F2 & F3 & _). pose proof (iterate_listed p a W E) as L.
  split; [|split; [|split]].
  - intros o. rewrite F1. split.
    + intros [[]|(i & x & q & Hi & Hx & <-)]. destruct (F3 i x Hi) as (q' & key & Hq & Hk & _).
      assert (q' = q) as -> by congruence. apply split_v_ok in Hx as (s & -> & Hs).
      exists key, (o_input q). apply stores_listed. exists s, q. split; [apply L; now exists i|]. auto.
    + intros (key & nm & Hs). apply stores_listed in Hs as (s & q & Hl & Hq & Ho & _). right.
      apply L in Hl as [i Hi]. exists i, (YStr s), q. auto.
  - intros t nm Ht. destruct (F2 t nm Ht) as [Q|(i & x & q & key & Hi & Hx & Hk & -> & Hn)]; [discriminate|].
    exists (o_obj q), key. split; [reflexivity|]. apply split_v_ok in Hx as (s & -> & Hs).
    apply stores_listed. exists s, q. split; [apply L; now exists i|]. auto.
  - intros o key nm Hs. apply stores_listed in Hs as (s & q & Hl & Hq & <- & Hk & _).
    apply L in Hl as [i Hi]. destruct (F3 i (YStr s) Hi) as (q' & key' & Hq' & Hk' & Hm). cbn in Hq'.
    assert (q' = q) as -> by congruence. assert (key' = key) as -> by congruence. exact Hm.
  - intros n. rewrite F0. split.
    + intros [[]|(i & x & q & Hi & Hx & Hn)]. destruct (F3 i x Hi) as (q' & key & Hq & Hk & _).
      assert (q' = q) as -> by congruence. apply split_v_ok in Hx as (s & -> & Hs).
      assert (o_input q = Some n) by (destruct (o_input q); cbn in Hn; congruence).
      exists (o_obj q), key. apply stores_listed. exists s, q. split; [apply L; now exists i|]. auto.
    + intros (o & key & Hs). apply stores_listed in Hs as (s & q & Hl & Hq & Ho & Hk & Hn). right.
      apply L in Hl as [i Hi]. exists i, (YStr s), q. split; [exact Hi|]. split; [exact Hq|]. now rewrite Hn.
Qed.

(* ------------------------------------------------------------------ build_replay *)
Lemma redirect_spec p m ins ins' : 
  (forall t nm, dget t m = Some nm -> exists o key, t = (o ++ "." ++ key)%string /\ stores p o key nm) ->
  (forall o key nm, stores p o key nm -> dget (o ++ "." ++ key)%string m <> None) ->
  redirect m ins = Ok ins' ->
  map fst ins' = map fst ins /\
  forall i, match dget i ins with
            | Some v => exists v', dget i ins' = Some v' /\ redirected p v v'
            | None => dget i ins' = None
            end.
Proof.
  intros M1 M2. unfold redirect. revert ins'. induction ins as [|[k v] ins IH]; cbn [map_res]; intros ins' H.
  - injection H as <-. split; [reflexivity|]. reflexivity.
  - inv_bind H. inv_bind H. injection H as <-. destruct (IH _ E0) as [I1 I2]. cbn [fst snd] in E.
    assert (X : exists v', a = (k, v') /\ redirected p v v').
    { destruct v; try (injection E as <-; eexists; split; [reflexivity|]; right; split; [discriminate|reflexivity]); try discriminate.
      destruct (dget s m) as [nm|] eqn:Em.
      - inv_bind E. injection E as <-. exists a1. split; [reflexivity|]. left. destruct nm as [nm|]; [|discriminate].
        injection E1 as <-. destruct (M1 s (Some nm) Em) as (o & key & -> & Hs). exists o, key, nm. auto.
      - injection E as <-. exists (YStr s). split; [reflexivity|]. right. split; [|reflexivity].
        intros o key nm Q Hs. injection Q as ->. now apply (M2 o key nm Hs). }
    destruct X as (v' & -> & Hv). split; [cbn; now rewrite I1|]. intros i. cbn [dget].
    destruct (i =? k)%string; [now exists v'|apply I2].
Qed.

Lemma redirect_pars_spec ds m p p' :
  (forall t nm, dget t m = Some nm -> exists o key, t = (o ++ "." ++ key)%string /\ stores ds o key nm) ->
  (forall o key nm, stores ds o key nm -> dget (o ++ "." ++ key)%string m <> None) ->
  redirect_pars m p = Ok p' ->
  (forall name, name <> "inputs" -> dget name p' = dget name p) /\
  (forall i, match (match dget "inputs" p with Some (YDict d) => dget i d | _ => None end) with
             | Some v => exists v', (match dget "inputs" p' with Some (YDict d) => dget i d | _ => None end) = Some v' /\ redirected ds v v'
             | None => (match dget "inputs" p' with Some (YDict d) => dget i d | _ => None end) = None
             end).
Proof.
  intros M1 M2 H. unfold redirect_pars, inputs_items in H. destruct (dget "inputs" p) as [v|] eqn:E.
  - destruct v; try discriminate. cbn [bind] in H. inv_bind H. injection H as <-.
    destruct (redirect_spec ds m d a M1 M2 E0) as [R1 R2].
    split; [intros name N; apply dget_dset_neq; congruence|]. intros i. rewrite dget_dset_eq. apply R2.
  - cbn [bind] in H. injection H as <-. split; [reflexivity|]. intros i. now rewrite E.
Qed.

Lemma fold_del gone : forall rp rp', NoDup gone ->
  fold_res (fun (rp : params) o => if dmem o rp then Ok (ddel o rp) else Err KeyError) rp gone = Ok rp' ->
  incl gone (dkeys rp) /\ rp' = filter (fun kp => negb (mem (fst kp) gone)) rp.
Proof.
  induction gone as [|o gone IH]; cbn [fold_res]; intros rp rp' N H.
  - injection H as <-. split; [easy|]. clear. induction rp as [|x rp IH]; [reflexivity|]. cbn [filter mem existsb negb]. f_equal. exact IH.
  - inversion_clear N as [|? ? N1 N2]. inv_bind H. destruct (dmem o rp) eqn:M; [|discriminate]. injection E as <-.
    destruct (IH _ _ N2 H) as [I1 I2]. apply dmem_declared in M. split.
    + intros x [<-|Hx]; [exact M|]. apply I1 in Hx. unfold dkeys in Hx. apply keys_ddel in Hx. apply Hx.
    + rewrite I2. clear. unfold ddel. induction rp as [|[k v] rp IH]; [reflexivity|]. cbn.
      rewrite (String.eqb_sym k o). destruct (String.eqb_spec o k) as [->|Nk]; cbn; [exact IH|].
      fold (mem k gone). destruct (mem k gone); cbn; [exact IH|now rewrite IH].
Qed.

Lemma map_res_get (f : string * pars -> res (string * pars)) l : (forall kp kp', f kp = Ok kp' -> fst kp' = fst kp) ->
  forall l', map_res f l = Ok l' -> map fst l' = map fst l /\
  forall k p, dget k l = Some p -> exists p', f (k, p) = Ok (k, p') /\ dget k l' = Some p'.
Proof.
  intros Hf. induction l as [|[k0 p0] l IH]; cbn [map_res]; intros l' H.
  - injection H as <-. split; [reflexivity|easy].
  - inv_bind H. inv_bind H. injection H as <-. destruct (IH _ E0) as [I1 I2]. pose proof (Hf _ _ E) as Q. destruct a as [k1 p1].
    cbn in Q. subst k1. split; [cbn; now rewrite I1|]. intros k p. cbn [dget]. destruct (String.eqb_spec k k0) as [->|N]; [|apply I2].
    intros Q. injection Q as ->. exists p1. auto.
Qed.

Lemma class_is_ok c p b : class_is c p = Ok b -> (b = true <-> class_of p c).
Proof.
  unfold class_is, class_of. destruct (dget "class" p) as [v|]; [|discriminate].
  destruct v; intros H; injection H as <-; try (split; [discriminate|discriminate]).
  rewrite String.eqb_eq. split; [now intros ->|]. intros H. now injection H.
Qed.

Definition replay_step (st : params * list string * dict (option string)) (kp : string * pars) :=
  b <- class_is "DataStore" (snd kp) ;;
  if b then
    d <- data_store_to_data_source (snd kp) None ;;
    let '(src, objs, m) := d in
    Ok (dset "data_source" src (fst (fst st)), (objs ++ [fst kp])%list, m)
  else Ok st.

Lemma replay_no_store l : (forall k p, In (k, p) l -> ~ class_of p "DataStore") -> forall st st',
  fold_res replay_step st l = Ok st' -> st' = st.
Proof.
  induction l as [|[k p] l IH]; cbn [fold_res]; intros Hn st st' H; [now injection H as <-|].
  inv_bind H. unfold replay_step in E. cbn [snd] in E. inv_bind E. destruct a0.
  - elim (Hn k p (or_introl eq_refl)). now apply (class_is_ok _ _ _ E0).
  - injection E as <-. apply IH; [|exact H]. intros k' p' Q. apply (Hn k' p'). now right.
Qed.

Lemma fold_res_app {A B} (f : B -> A -> res B) a : forall b s, fold_res f s (a ++ b) = (s' <- fold_res f s a ;; fold_res f s' b).
Proof. induction a as [|x a IH]; intros b s; [reflexivity|]. cbn. destruct (f s x); cbn; [apply IH|reflexivity]. Qed.

Lemma source_pars p d objs m : data_store_to_data_source p None = Ok (d, objs, m) ->
  exists outs, store_refs p = Ok (outs, objs, m) /\ dget "class" d = Some (YStr "DataSource") /\
  dget "outputs" d = Some (YList outs) /\ dget "store_dir" d = dget "store_dir" p /\ dget "data_format" d = dget "data_format" p.
Proof.
  unfold data_store_to_data_source. intros H. inv_bind H. destruct (dget "store_dir" p) as [v|] eqn:E1; [|discriminate].
  injection E as <-. inv_bind H. destruct a as [[outs objs'] m']. injection H as <- <- <-. exists outs.
  split; [exact E|]. destruct (dget "data_format" p); auto.
Qed.

Theorem build_replay_spec ps rp l1 ds p l2 : wf_params ps -> ~ declared ps "data_source" ->
  ps = l1 ++ (ds, p) :: l2 -> class_of p "DataStore" ->
  (forall k q, In (k, q) (l1 ++ l2) -> ~ class_of q "DataStore") ->
  (forall key nm, ~ stores p "data_source" key nm) ->
  build_replay ps = Ok rp ->
  (forall k, declared rp k <-> k = "data_source" \/ declared ps k /\ k <> ds /\ forall key nm, ~ stores p k key nm) /\
  (forall k, declared rp k -> k <> "data_source" ->
     (forall name, name <> "inputs" -> param rp k name = param ps k name) /\
     (forall i, match input ps k i with
                | Some v => exists v', input rp k i = Some v' /\ redirected p v v'
                | None => input rp k i = None
                end)) /\
  (forall k, declared ps k -> declared rp k \/ k = ds \/ exists key nm, stores p k key nm) /\
  param rp "data_source" "class" = Some (YStr "DataSource") /\
  (exists outs, param rp "data_source" "outputs" = Some (YList outs) /\
     forall n, In (YStr n) outs <-> exists o key, stores p o key (Some n)) /\
  param rp "data_source" "store_dir" = param ps ds "store_dir" /\
  param rp "data_source" "data_format" = param ps ds "data_format".
Proof.
  intros W Nd Eps Hc Hn Hd H.
  pose proof W as W'. apply wf_params_iff in W' as [W1 W2].
  assert (Wp : wf_pars p) by (apply (W2 ds p); rewrite Eps; apply in_or_app; right; now left).
  assert (Gp : dget ds ps = Some p) by (apply PyLemmas.In_dget; [exact W1|rewrite Eps; apply in_or_app; right; now left]).
  unfold build_replay in H. inv_bind H. fold replay_step in E. rewrite Eps in E at 2. rewrite fold_res_app in E. inv_bind E.
  apply replay_no_store in E0; [|intros k q Q; apply (Hn k q), in_or_app; now left]. subst a0.
  cbn [fold_res] in E. inv_bind E. apply replay_no_store in E; [|intros k q Q; apply (Hn k q), in_or_app; now right]. subst a0.
  unfold replay_step in E0. cbn [fst snd] in E0. inv_bind E0. apply (class_is_ok _ _ _ E) in Hc. subst a0.
  inv_bind E0. destruct a0 as [[src objs] m]. injection E0 as <-.
  destruct (source_pars _ _ _ _ E1) as (outs & Er & S1 & S2 & S3 & S4).
  destruct (store_refs_spec p outs objs m Wp Er) as (R1 & R2 & R3 & R4).
  inv_bind H. rename a into rp1. set (gone := nodup string_dec (objs ++ [ds])) in *.
  destruct (fold_del gone _ _ (NoDup_nodup _ _) E0) as [D1 D2].
  assert (Gg : forall k, In k gone <-> k = ds \/ exists key nm, stores p k key nm).
  { intros k. unfold gone. rewrite nodup_In, in_app_iff, R1. cbn. split; [intros [?|[<-|[]]]; auto|]. intros [->|?]; auto. }
  assert (Nds : "data_source" <> ds).
  { intros Q. apply Nd. rewrite Q. apply dget_In in Gp. now apply (in_map fst) in Gp. }
  assert (Ng : ~ In "data_source" gone).
  { rewrite Gg. intros [?|(key & nm & Hs)]; [contradiction|]. now apply (Hd key nm). }
  rewrite (dset_new "data_source" src ps Nd) in D2.
  match type of H with map_res ?f _ = _ => assert (Hf : forall kp kp', f kp = Ok kp' -> fst kp' = fst kp) end.
  { intros [k q] kp' Q. cbn [fst snd] in Q. destruct (k =? "data_source")%string; [injection Q as <-; reflexivity|].
    inv_bind Q. injection Q as <-. reflexivity. }
  destruct (map_res_get _ rp1 Hf rp H) as [M1 M2].
  assert (K1 : forall k q, In (k, q) rp1 <-> (In (k, q) ps \/ (k = "data_source" /\ q = src)) /\ ~ In k gone).
  { intros k q. rewrite D2, filter_In, in_app_iff. cbn [fst]. rewrite negb_true_iff, mem_false. cbn.
    split; intros [Q1 Q2]; (split; [|exact Q2]).
    - destruct Q1 as [?|[Q|[]]]; [auto|]. injection Q as <- <-. auto.
    - destruct Q1 as [?|[-> ->]]; auto. }
  assert (Nk : forall k, In k (map fst rp1) <-> (declared ps k \/ k = "data_source") /\ ~ In k gone).
  { intros k. rewrite in_map_iff. split.
    - intros ([k' q] & <- & Q). apply K1 in Q as [Q1 Q2]. cbn. split; [|exact Q2].
      destruct Q1 as [Q1|[-> _]]; [left; now apply (in_map fst) in Q1|now right].
    - intros [[Q1|Q1] Q2].
      + unfold declared in Q1. apply in_map_iff in Q1 as ([k' q] & <- & Q1). exists (k', q). split; [reflexivity|]. apply K1. auto.
      + exists (k, src). split; [reflexivity|]. apply K1. auto. }
  assert (N1 : NoDup (map fst rp1)).
  { rewrite D2. assert (NN : NoDup (map fst (ps ++ [("data_source", src)]))).
    { rewrite <- (dset_new _ _ _ Nd). now apply NoDup_dset. }
    revert NN. generalize (ps ++ [("data_source", src)]). intros l. clear. induction l as [|[k q] l IH]; [intros; constructor|].
    cbn. intros N. inversion_clear N as [|? ? A B]. destruct (negb (mem k gone)); [|auto]. cbn. constructor; [|auto].
    intros Q. apply A. apply in_map_iff in Q as ([k' q'] & <- & Q). apply filter_In in Q as [Q _]. now apply (in_map fst) in Q. }
  assert (Q0 : dget "data_source" rp = Some src).
  { assert (Q1 : dget "data_source" rp1 = Some src).
    { apply PyLemmas.In_dget; [exact N1|]. apply K1. split; [right; auto|exact Ng]. }
    destruct (M2 _ _ Q1) as (q' & Hq & ->). cbn in Hq. now injection Hq as <-. }
  split; [|split; [|split; [|split; [|split; [|split]]]]].
  - intros k. unfold declared at 1. rewrite M1, Nk, Gg. split.
    + intros [[Q|Q] Q2]; [|now left]. right. split; [exact Q|]. split; [intros ->; tauto|]. intros key nm Hs. apply Q2. right. eauto.
    + intros [->|(Q1 & Q2 & Q3)].
      * split; [now right|]. rewrite <- Gg. exact Ng.
      * split; [now left|]. intros [?|(key & nm & Hs)]; [contradiction|]. now apply (Q3 key nm).
  - intros k Hk Ns. unfold declared in Hk. rewrite M1 in Hk. apply Nk in Hk as [Hk Hg].
    destruct Hk as [Hk|?]; [|contradiction].
    destruct (dget k ps) as [q|] eqn:Eq; [|apply dget_None in Eq; contradiction].
    assert (Q1 : dget k rp1 = Some q).
    { apply PyLemmas.In_dget; [exact N1|]. apply K1. split; [|exact Hg]. left. now apply dget_In. }
    destruct (M2 k q Q1) as (q' & Hq & Gq). cbn [fst snd] in Hq.
    apply String.eqb_neq in Ns. rewrite Ns in Hq. inv_bind Hq. injection Hq as ->.
    destruct (redirect_pars_spec p m q q' R2 R3 E2) as [F1 F2].
    unfold input, param. rewrite Eq, Gq. split; [exact F1|exact F2].
  - intros k Hk. destruct (in_dec string_dec k gone) as [Q|Q]; [right; now apply Gg|]. left. unfold declared. rewrite M1. apply Nk. auto.
  - unfold param. now rewrite Q0.
  - exists outs. unfold param. rewrite Q0. auto.
  - unfold param. now rewrite Q0, Gp.
  - unfold param. now rewrite Q0, Gp.
Qed.
