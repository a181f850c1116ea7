From Coq Require Import String List Ascii ZArith Bool Arith Lia.
From Verif Require Import PyBase PyLemmas NamesModel NamesSpec NamesProofs TrigOrderModel TrigOrderSpec
  TrigOrderProofs ConnProofs ParamsModel ParamsSpec.
Import ListNotations.
Local Open Scope string_scope.
Local Open Scope list_scope.

(* ---------------------------------------------------------------------- strings *)
Lemma substring_full s : substring 0 (String.length s) s = s.
Proof. induction s as [|a s IH]; [reflexivity|]. cbn. now rewrite IH. Qed.
Lemma substring_app b t : substring (String.length b) (String.length t) (b ++ t)%string = t.
Proof. induction b as [|a b IH]; [apply substring_full|]. exact IH. Qed.
Lemma length_app_str b t : String.length (b ++ t)%string = String.length b + String.length t.
Proof. induction b as [|a b IH]; [reflexivity|]. cbn. now rewrite IH. Qed.
Lemma substring_split n s : n <= String.length s ->
  (substring 0 n s ++ substring n (String.length s - n) s)%string = s.
Proof.
  revert n. induction s as [|a s IH]; intros n Hn; [cbn in Hn; destruct n; [reflexivity|lia]|].
  destruct n as [|n]; [cbn; now rewrite substring_full|]. cbn in *. f_equal. apply IH. lia.
Qed.
Lemma ends_with_iff suf s : ends_with suf s = true <-> exists b, s = (b ++ suf)%string.
Proof.
  unfold ends_with. rewrite andb_true_iff, Nat.leb_le, String.eqb_eq. split.
  - intros [H1 H2]. exists (substring 0 (String.length s - String.length suf) s).
    rewrite <- H2 at 2. replace (String.length suf) with (String.length s - (String.length s - String.length suf)) at 3 by lia.
    symmetry. apply substring_split. lia.
  - intros [b ->]. rewrite length_app_str. split; [lia|].
    replace (String.length b + String.length suf - String.length suf) with (String.length b) by lia. apply substring_app.
Qed.
Lemma drop_last_app b suf : drop_last (String.length suf) (b ++ suf)%string = b.
Proof.
  unfold drop_last. rewrite length_app_str. replace (String.length b + String.length suf - String.length suf) with (String.length b) by lia.
  induction b as [|a b IH]; [now destruct suf|]. cbn. now rewrite IH.
Qed.

Lemma mem_iff k l : mem k l = true <-> In k l.
Proof.
  unfold mem. rewrite existsb_exists. split.
  - intros (x & H & E). apply String.eqb_eq in E as ->. exact H.
  - intros H. exists k. split; [exact H|apply String.eqb_refl].
Qed.
Lemma mem_false k l : mem k l = false <-> ~ In k l.
Proof. rewrite <- mem_iff. destruct (mem k l); split; congruence. Qed.

Lemma owner_v_ok x o : owner_v x = Ok o -> exists s d, x = YStr s /\ refers s o d.
Proof.
  destruct x; try discriminate. cbn. intros H. destruct (owner_refers _ _ H) as [d Hd]. eauto.
Qed.
Lemma owner_v_refers s o d : refers s o d -> owner_v (YStr s) = Ok o.
Proof. intros H. apply refers_iff in H. cbn. tauto. Qed.

(* ------------------------------------------------------------------- build order *)
Section BuildOrder.
Variable ps : params.
Hypothesis ND : NoDup (map fst ps).

Definition sorted (l : list string) : Prop :=
  forall l1 k l2, l = l1 ++ k :: l2 -> forall r, uses ps k r -> In r l1.

Lemma sorted_snoc l k : sorted l -> (forall r, uses ps k r -> In r l) -> sorted (l ++ [k]).
Proof.
  intros H Hk l1 k' l2 E r Hr. destruct l2 as [|x l2 _] using rev_ind.
  - apply app_inj_tail in E as [-> ->]. now apply Hk.
  - rewrite app_comm_cons, app_assoc in E. apply app_inj_tail in E as [E _]. now apply (H l1 k' l2).
Qed.

(* what a successful visit adds; [Q] is a bound on the added keys *)
Definition extends (order order' : list string) : Prop :=
  exists ext, order' = order ++ ext /\ incl ext (dkeys ps).
Lemma extends_refl o : extends o o.
Proof. exists []. rewrite app_nil_r. split; [reflexivity|easy]. Qed.
Lemma extends_trans a b c : extends a b -> extends b c -> extends a c.
Proof.
  intros (x & -> & H1) (y & -> & H2). exists (x ++ y). rewrite app_assoc. split; [reflexivity|]. now apply incl_app.
Qed.
Lemma extends_in a b k : extends a b -> In k a -> In k b.
Proof. intros (x & -> & _) H. apply in_or_app. now left. Qed.

Definition visit (f : nat) (order : list string) (x : yval) : res (list string) :=
  owner <- owner_v x ;;
  if mem owner order then Ok order else add_to_build_order f ps order owner.
Definition visit_param (f : nat) (order : list string) (nv : string * yval) : res (list string) :=
  if ends_with "_ref" (fst nv) then fold_res (visit f) order (as_list (snd nv)) else Ok order.
Lemma add_eq f order key : add_to_build_order (S f) ps order key =
  if mem key order then Ok order
  else match dget key ps with
       | None => Err KeyError
       | Some p => order' <- fold_res (visit_param f) order p ;; Ok (order' ++ [key])
       end.
Proof. reflexivity. Qed.

(* references of a parameter *)
Definition names_of (v : yval) (r : string) : Prop := exists s d, ref_in v s /\ refers s r d.
Lemma names_of_as_list v x r : In x (as_list v) -> owner_v x = Ok r -> names_of v r.
Proof.
  intros H E. apply owner_v_ok in E as (s & d & -> & Hr). exists s, d. split; [|exact Hr].
  destruct v; cbn in H; try (destruct H as [H|[]]; discriminate).
  - destruct H as [H|[]]. injection H as ->. now left.
  - right. now exists l.
Qed.
Lemma names_of_in v r : names_of v r -> exists x, In x (as_list v) /\ owner_v x = Ok r.
Proof.
  intros (s & d & [->|(l & -> & H)] & Hr); exists (YStr s); (split; [|now apply (owner_v_refers s r d)]).
  - now left.
  - exact H.
Qed.
Lemma uses_names k p name v r : dget k ps = Some p -> In (name, v) p -> ends_with "_ref" name = true -> names_of v r ->
  uses ps k r.
Proof.
  intros H1 H2 H3 (s & d & H4 & H5). apply ends_with_iff in H3 as [b ->]. exists p, b, v, s, d.
  split; [now apply dget_In|]. repeat split; assumption.
Qed.
Lemma uses_inv k r p : dget k ps = Some p -> uses ps k r ->
  exists name v, In (name, v) p /\ ends_with "_ref" name = true /\ names_of v r.
Proof.
  intros H (p' & b & v & s & d & H1 & H2 & H3 & H4). assert (p' = p) as ->.
  { apply (PyLemmas.In_dget _ _ _ ND) in H1. congruence. }
  exists (b ++ "_ref")%string, v. split; [exact H2|]. split; [apply ends_with_iff; now exists b|]. now exists s, d.
Qed.

(* partial correctness *)
Lemma add_sorted f : forall order key order', add_to_build_order f ps order key = Ok order' -> sorted order ->
  extends order order' /\ sorted order' /\ In key order'.
Proof.
  induction f as [|f IH]; [discriminate|]. intros order key order'. rewrite add_eq.
  destruct (mem key order) eqn:M.
  { intros H Hs. injection H as <-. split; [apply extends_refl|]. split; [exact Hs|]. now apply mem_iff. }
  destruct (dget key ps) as [p|] eqn:Ep; [|discriminate]. intros H Hs. inv_bind H. injection H as <-.
  (* one reference *)
  assert (V : forall x o o', visit f o x = Ok o' -> sorted o -> extends o o' /\ sorted o' /\
              forall r, owner_v x = Ok r -> In r o').
  { intros x o o' Hv So. unfold visit in Hv. inv_bind Hv. destruct (mem a0 o) eqn:M0.
    - injection Hv as <-. split; [apply extends_refl|]. split; [exact So|]. intros r Hr.
      rewrite E0 in Hr. injection Hr as <-. now apply mem_iff.
    - destruct (IH _ _ _ Hv So) as (H1 & H2 & H3). split; [exact H1|]. split; [exact H2|].
      intros r Hr. rewrite E0 in Hr. injection Hr as <-. exact H3. }
  assert (L : forall l o o', fold_res (visit f) o l = Ok o' -> sorted o -> extends o o' /\ sorted o' /\
              forall x r, In x l -> owner_v x = Ok r -> In r o').
  { induction l as [|x l IHl]; cbn [fold_res]; intros o o' Hl So.
    - injection Hl as <-. split; [apply extends_refl|]. split; [exact So|]. easy.
    - inv_bind Hl. destruct (V _ _ _ E0 So) as (V1 & V2 & V3). destruct (IHl _ _ Hl V2) as (L1 & L2 & L3).
      split; [now apply (extends_trans o a0)|]. split; [exact L2|]. intros y r [<-|Hy] Hr; [|now apply (L3 y)].
      apply (extends_in a0 o'); [exact L1|]. now apply V3. }
  assert (P : forall q o o', fold_res (visit_param f) o q = Ok o' -> sorted o -> extends o o' /\ sorted o' /\
              forall name v r, In (name, v) q -> ends_with "_ref" name = true -> names_of v r -> In r o').
  { induction q as [|[name v] q IHq]; cbn [fold_res]; intros o o' Hq So.
    - injection Hq as <-. split; [apply extends_refl|]. split; [exact So|]. easy.
    - inv_bind Hq. unfold visit_param in E0. cbn [fst snd] in E0.
      assert (X : extends o a0 /\ sorted a0 /\ (ends_with "_ref" name = true -> forall r, names_of v r -> In r a0)).
      { destruct (ends_with "_ref" name).
        - destruct (L _ _ _ E0 So) as (L1 & L2 & L3). split; [exact L1|]. split; [exact L2|].
          intros _ r Hr. destruct (names_of_in _ _ Hr) as (x & Hx & Hx2). now apply (L3 x).
        - injection E0 as <-. split; [apply extends_refl|]. split; [exact So|]. discriminate. }
      destruct X as (X1 & X2 & X3). destruct (IHq _ _ Hq X2) as (Q1 & Q2 & Q3).
      split; [now apply (extends_trans o a0)|]. split; [exact Q2|].
      intros name' v' r [E'|Hin] He Hr; [|now apply (Q3 name' v' r)]. injection E' as <- <-.
      apply (extends_in a0 o'); [exact Q1|]. now apply X3. }
  destruct (P _ _ _ E Hs) as (P1 & P2 & P3). split; [|split].
  - apply (extends_trans order a); [exact P1|]. exists [key]. split; [reflexivity|]. intros k [<-|[]].
    apply dget_In in Ep. unfold dkeys. now apply (in_map fst) in Ep.
  - apply sorted_snoc; [exact P2|]. intros r Hr. destruct (uses_inv _ _ _ Ep Hr) as (name & v & H1 & H2 & H3).
    now apply (P3 name v r).
  - apply in_or_app. right. now left.
Qed.

Lemma sorted_nil : sorted [].
Proof. intros l1 k l2 E. now destruct l1. Qed.

Lemma order_sorted f keys : forall o order, fold_res (add_to_build_order f ps) o keys = Ok order -> sorted o ->
  extends o order /\ sorted order /\ forall k, In k keys -> In k order.
Proof.
  induction keys as [|k keys IH]; cbn [fold_res]; intros o order H So.
  - injection H as <-. split; [apply extends_refl|]. split; [exact So|]. easy.
  - inv_bind H. destruct (add_sorted _ _ _ _ E So) as (H1 & H2 & H3). destruct (IH _ _ H H2) as (H4 & H5 & H6).
    split; [now apply (extends_trans o a)|]. split; [exact H5|]. intros k' [<-|Hk]; [|now apply H6].
    now apply (extends_in a order).
Qed.

(* index of the first occurrence *)
Fixpoint pos (k : string) (l : list string) : nat :=
  match l with [] => 0 | x :: r => if String.eqb k x then 0 else S (pos k r) end.
Lemma pos_in k l : In k l -> exists l1 l2, l = l1 ++ k :: l2 /\ length l1 = pos k l /\ ~ In k l1.
Proof.
  induction l as [|x l IH]; [easy|]. intros H. cbn [pos]. destruct (String.eqb_spec k x) as [->|N].
  - exists [], l. repeat split. easy.
  - destruct H as [H|H]; [congruence|]. destruct (IH H) as (l1 & l2 & -> & H1 & H2).
    exists (x :: l1), l2. cbn. split; [reflexivity|]. split; [now rewrite H1|]. intros [->|Q]; congruence || tauto.
Qed.
Lemma pos_app k l1 l2 : In k l1 -> pos k (l1 ++ l2) = pos k l1.
Proof.
  induction l1 as [|x l1 IH]; [easy|]. intros H. cbn. destruct (String.eqb_spec k x) as [->|N]; [reflexivity|].
  destruct H as [H|H]; [congruence|]. now rewrite IH.
Qed.
Lemma pos_lt k l : In k l -> pos k l < length l.
Proof. intros H. destruct (pos_in k l H) as (l1 & l2 & E & <- & _). rewrite E, app_length. cbn. lia. Qed.

Lemma uses_declared k r : uses ps k r -> In k (dkeys ps).
Proof. intros (p & b & v & s & d & H & _). now apply (in_map fst) in H. Qed.

Lemma sorted_acyclic l : sorted l -> (forall k, In k (dkeys ps) -> In k l) -> acyclic (uses ps).
Proof.
  intros Hs Hc. exists (fun k => pos k l). intros k r Hu.
  destruct (pos_in k l (Hc k (uses_declared _ _ Hu))) as (l1 & l2 & E & Hl & _).
  pose proof (Hs l1 k l2 E r Hu) as Hr. rewrite <- Hl, E. rewrite pos_app by exact Hr. now apply pos_lt.
Qed.

(* no repetition *)
Section Rank.
Variable rank : string -> nat.
Hypothesis Hrank : forall k r, uses ps k r -> rank r < rank k.

Definition adds_below (n : nat) (o o' : list string) : Prop :=
  exists ext, o' = o ++ ext /\ Forall (fun k => rank k < n) ext.
Lemma below_refl n o : adds_below n o o.
Proof. exists []. rewrite app_nil_r. split; [reflexivity|constructor]. Qed.
Lemma below_trans n a b c : adds_below n a b -> adds_below n b c -> adds_below n a c.
Proof. intros (x & -> & H1) (y & -> & H2). exists (x ++ y). rewrite app_assoc. split; [reflexivity|]. now apply Forall_app. Qed.
Lemma below_mono n m a b : n <= m -> adds_below n a b -> adds_below m a b.
Proof. intros H (x & -> & Hx). exists x. split; [reflexivity|]. eapply Forall_impl; [|exact Hx]. cbn. lia. Qed.

Lemma add_nodup f : forall order key order', add_to_build_order f ps order key = Ok order' -> NoDup order ->
  NoDup order' /\ adds_below (S (rank key)) order order'.
Proof.
  induction f as [|f IH]; [discriminate|]. intros order key order'. rewrite add_eq.
  destruct (mem key order) eqn:M.
  { intros H Hs. injection H as <-. split; [exact Hs|apply below_refl]. }
  destruct (dget key ps) as [p|] eqn:Ep; [|discriminate]. intros H Hs. inv_bind H. injection H as <-.
  assert (P : forall q o o', fold_res (visit_param f) o q = Ok o' -> incl q p -> NoDup o -> NoDup o' /\ adds_below (rank key) o o').
  { induction q as [|[name v] q IHq]; cbn [fold_res]; intros o o' Hq Hi No.
    - injection Hq as <-. split; [exact No|apply below_refl].
    - inv_bind Hq. unfold visit_param in E0. cbn [fst snd] in E0.
      assert (X : NoDup a0 /\ adds_below (rank key) o a0).
      { destruct (ends_with "_ref" name) eqn:En; [|injection E0 as <-; split; [exact No|apply below_refl]].
        assert (L : forall l o o', fold_res (visit f) o l = Ok o' -> incl l (as_list v) -> NoDup o -> NoDup o' /\ adds_below (rank key) o o').
        { clear - IH Ep En Hi Hrank. induction l as [|x l IHl]; cbn [fold_res]; intros o o' Hl Hil No.
          - injection Hl as <-. split; [exact No|apply below_refl].
          - inv_bind Hl. unfold visit in E. inv_bind E.
            assert (X : NoDup a /\ adds_below (rank key) o a).
            { destruct (mem a0 o); [injection E as <-; split; [exact No|apply below_refl]|].
              destruct (IH _ _ _ E No) as [H1 H2]. split; [exact H1|]. apply (below_mono (S (rank a0))); [|exact H2].
              apply (Hrank key a0). apply (uses_names key p name v a0 Ep (Hi _ (or_introl eq_refl)) En).
              apply (names_of_as_list v x a0); [apply Hil; now left|exact E0]. }
            destruct X as [X1 X2]. destruct (IHl _ _ Hl (fun y Q => Hil y (or_intror Q)) X1) as [Y1 Y2].
            split; [exact Y1|]. now apply (below_trans _ o a). }
        apply (L (as_list v)); [exact E0|apply incl_refl|exact No]. }
      destruct X as [X1 X2]. destruct (IHq _ _ Hq (fun y Q => Hi y (or_intror Q)) X1) as [Y1 Y2].
      split; [exact Y1|]. now apply (below_trans _ o a0). }
  destruct (P _ _ _ E (incl_refl p) Hs) as [P1 (ext & -> & P2)].
  assert (Nk : ~ In key (order ++ ext)).
  { intros Hin. apply in_app_or in Hin as [Hin|Hin]; [now apply mem_false in M|].
    apply (proj1 (Forall_forall _ _) P2) in Hin. lia. }
  split.
  - apply NoDup_rev in P1. rewrite <- (rev_involutive (_ ++ [key])). apply NoDup_rev.
    rewrite rev_app_distr. cbn. constructor; [|exact P1]. now rewrite <- in_rev.
  - exists (ext ++ [key]). rewrite app_assoc. split; [reflexivity|]. apply Forall_app. split; [|repeat constructor].
    eapply Forall_impl; [|exact P2]. cbn. lia.
Qed.

Lemma order_nodup f keys : forall o order, fold_res (add_to_build_order f ps) o keys = Ok order -> NoDup o -> NoDup order.
Proof.
  induction keys as [|k keys IH]; cbn [fold_res]; intros o order H No; [injection H as <-; exact No|].
  inv_bind H. apply (IH a order H). now apply (add_nodup f o k a).
Qed.

(* success *)
Hypothesis Hrefs : refs_ok ps.

Lemma add_total f : forall stack order key, NoDup stack -> incl stack (dkeys ps) ->
  (forall k, In k stack -> rank key < rank k) -> In key (dkeys ps) -> length ps < f + length stack ->
  exists order', add_to_build_order f ps order key = Ok order'.
Proof.
  induction f as [|f IH]; intros stack order key Ns Is Hs Hk Hf.
  { exfalso. apply (NoDup_incl_length Ns) in Is. unfold dkeys in Is. rewrite map_length in Is. cbn in Hf. lia. }
  rewrite add_eq. destruct (mem key order); [eauto|].
  destruct (dget key ps) as [p|] eqn:Ep; [|apply dget_None in Ep; contradiction].
  assert (Nst : NoDup (key :: stack)).
  { constructor; [|exact Ns]. intros Q. specialize (Hs key Q). lia. }
  assert (Ist : incl (key :: stack) (dkeys ps)) by (intros k [<-|Q]; [exact Hk|now apply Is]).
  assert (P : forall q o, incl q p -> exists o', fold_res (visit_param f) o q = Ok o').
  { induction q as [|[name v] q IHq]; intros o Hi; [exists o; reflexivity|]. cbn [fold_res].
    assert (X : exists o', visit_param f o (name, v) = Ok o').
    { unfold visit_param. cbn [fst snd]. destruct (ends_with "_ref" name) eqn:En; [|eauto].
      pose proof En as En'. apply ends_with_iff in En' as [b Eb].
      assert (A : forall x, In x (as_list v) -> exists r, owner_v x = Ok r).
      { destruct Hrefs as [R1 _]. specialize (R1 key p b v (dget_In _ _ _ Ep)).
        rewrite <- Eb in R1. specialize (R1 (Hi _ (or_introl eq_refl))).
        destruct R1 as [(s & r & d & -> & Hr)|(l & -> & Hl)]; intros x Hx.
        - destruct Hx as [<-|[]]. exists r. now apply (owner_v_refers s r d).
        - destruct (Hl x Hx) as (s & r & d & -> & Hr). exists r. now apply (owner_v_refers s r d). }
      assert (L : forall l o, incl l (as_list v) -> exists o', fold_res (visit f) o l = Ok o').
      { induction l as [|x l IHl]; intros o1 Hil; [exists o1; reflexivity|]. cbn [fold_res].
        destruct (A x (Hil _ (or_introl eq_refl))) as [r Er].
        assert (Hu : uses ps key r).
        { apply (uses_names key p name v r Ep (Hi _ (or_introl eq_refl)) En).
          apply (names_of_as_list v x r); [apply Hil; now left|exact Er]. }
        assert (Y : exists o', visit f o1 x = Ok o').
        { unfold visit. rewrite Er. cbn [bind]. destruct (mem r o1); [eauto|].
          apply (IH (key :: stack)); [exact Nst|exact Ist| |apply (proj2 Hrefs key r Hu)|cbn; lia].
          pose proof (Hrank key r Hu). intros k [<-|Q]; [assumption|]. specialize (Hs k Q). lia. }
        destruct Y as [o' ->]. cbn [bind]. apply IHl. intros y Q. apply Hil. now right. }
      apply L. apply incl_refl. }
    destruct X as [o' ->]. cbn [bind]. apply IHq. intros y Q. apply Hi. now right. }
  destruct (P p order (incl_refl p)) as [o' ->]. cbn [bind]. eauto.
Qed.

Lemma order_total keys : incl keys (dkeys ps) -> forall o,
  exists order, fold_res (add_to_build_order (S (length ps)) ps) o keys = Ok order.
Proof.
  induction keys as [|k keys IH]; intros Hi o; [exists o; reflexivity|]. cbn [fold_res].
  destruct (add_total (S (length ps)) [] o k) as [o' ->]; [constructor|easy|easy|apply Hi; now left|cbn; lia|].
  cbn [bind]. apply IH. intros x Hx. apply Hi. now right.
Qed.
End Rank.

Theorem build_order_sound order : build_order ps = Ok order ->
  NoDup order /\ (forall k, In k order <-> declared ps k) /\ (forall k r, uses ps k r -> before order r k) /\
  acyclic (uses ps).
Proof.
  intros H. destruct (order_sorted _ _ _ _ H sorted_nil) as ((ext & E & Hi) & Hs & Hc). cbn in E. subst ext.
  pose proof (sorted_acyclic order Hs Hc) as Ha. destruct Ha as [rank Hr].
  assert (N : NoDup order) by (apply (order_nodup rank Hr _ _ _ _ H); constructor).
  split; [exact N|]. split; [intros k; split; [apply Hi|apply Hc]|]. split; [|now exists rank].
  intros k r Hu. pose proof (Hc k (uses_declared _ _ Hu)) as Hk. apply in_split in Hk as (l1 & l2 & E).
  pose proof (Hs l1 k l2 E r Hu) as Hr1. apply in_split in Hr1 as (a & b & ->). exists a, b, l2.
  rewrite E, <- app_assoc. reflexivity.
Qed.

Theorem build_order_total : refs_ok ps -> acyclic (uses ps) -> exists order, build_order ps = Ok order.
Proof. intros Hr [rank Hk]. apply (order_total rank Hk Hr). apply incl_refl. Qed.
End BuildOrder.
