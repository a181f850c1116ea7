(* Proofs about the accumulation of frames. *)
From Coq Require Import String List ZArith Bool PeanoNat Lia Field Field_theory.
From Verif Require Import PyBase PyLemmas Arith ArithLemmas SumLemmas FilterSpec NpModel SlopesModel SlopecModel AccSpec Properties_Slopes.
Import ListNotations.
Local Open Scope nat_scope.

Section Acc.
Variable A : arith.
Hypothesis HF : is_field A.
Let HF' : field_theory (@zer A) one add mul sub opp dvd inv (@eq A) := HF.
Add Field fA13 : HF'.

Lemma window_end_dec dt t : (0 < dt)%Z -> ((t mod dt =? 0) && (dt <=? t))%Z = true <-> window_end dt t.
Proof.
  intros H. unfold window_end. rewrite andb_true_iff, Z.eqb_eq, Z.leb_le. split.
  - intros [M L]. split; [exact L|]. exists (t / dt)%Z. rewrite (Z.div_mod t dt) at 1 by lia. lia.
  - intros [L [k E]]. split; [|exact L]. subst. apply Z.mod_mul. lia.
Qed.

Definition same_size (m : nat) (frames : list (Z * vec A)) : Prop := forall x, In x frames -> length (snd x) = m.

(* iop on equal sizes; one element is a special case with the same result *)
Lemma iop_equal f (u v : vec A) : length u = length v -> iop A f u v = Ok (map2 f u v).
Proof. exact (iop_same A f u v). Qed.

Lemma summed_snoc (cur : list (Z * vec A)) x j : summed (cur ++ [x]) j = add (summed cur j) (nth j (snd x) zer).
Proof.
  unfold summed. rewrite app_length. cbn [length]. rewrite Nat.add_1_r. cbn [sumn]. f_equal.
  - apply sumn_ext. intros k Hk. now rewrite app_nth1.
  - now rewrite nth_middle.
Qed.
Lemma summed_one (x : Z * vec A) j : summed [x] j = nth j (snd x) zer.
Proof. unfold summed. cbn. ring. Qed.

Lemma map2_nth_same (f : A -> A -> A) u v m j : length u = m -> length v = m -> j < m -> nth j (map2 f u v) zer = f (nth j u zer) (nth j v zer).
Proof. intros. apply map2_nth; lia. Qed.

(* the state of the accumulation after some frames *)
Definition acc_state (dt : Z) (m : nat) (frames : list (Z * vec A)) (s : acc A) : Prop :=
  (frames = [] /\ s = acc0 A) \/
  exists cur a, current_window dt frames cur /\ ac_pix s = Some a /\ length a = m /\ (forall j, j < m -> nth j a zer = summed cur j) /\
    (ac_reset s = true <-> exists c x, cur = c ++ [x] /\ window_end dt (fst x)) /\
    ((exists f x r, frames = f ++ x :: r /\ window_end dt (fst x) /\ ac_gt s = fst x /\ (forall y, In y r -> ~ window_end dt (fst y))) \/
     ((forall y, In y frames -> ~ window_end dt (fst y)) /\ ac_gt s = (-1)%Z)).

Lemma snoc_cases {X} (l : list X) : l = [] \/ exists c x, l = c ++ [x].
Proof. destruct l as [|x l] using rev_ind; eauto. Qed.

Lemma accumulate_step dt m frames s t f : (0 < dt)%Z -> acc_state dt m frames s -> length f = m ->
  exists s', accumulate A dt s t f = Ok s' /\ acc_state dt m (frames ++ [(t, f)]) s'.
Proof.
  intros Hdt I Lf. unfold accumulate. replace (dt <=? 0)%Z with false by (symmetry; apply Z.leb_gt; lia).
  set (ends := ((t mod dt =? 0) && (dt <=? t))%Z).
  assert (He : ends = true <-> window_end dt t) by (now apply window_end_dec).
  assert (K : exists cur' w, (let p := match ac_pix s with Some p => p | None => zeros (length f) end in
      let p := if ac_reset s then map (fun x => mul x zer) p else p in iop A add p f) = Ok w /\
      current_window dt (frames ++ [(t, f)]) cur' /\ length w = m /\ (forall j, j < m -> nth j w zer = summed cur' j) /\
      (exists c, cur' = c ++ [(t, f)])).
  { destruct I as [[-> ->]|(cur & a & C & Ea & La & Sa & Re & _)].
    - cbn [ac_pix ac_reset acc0]. exists [(t, f)], (map2 add (zeros (length f)) f).
      rewrite iop_equal by (unfold zeros; apply repeat_length). split; [reflexivity|]. split; [|split; [|split]].
      + exists []. split; [reflexivity|]. split; [discriminate|]. split; [now left|]. intros c x E y Hy. destruct c as [|c1 c]; [contradiction|].
        destruct c; discriminate.
      + rewrite map2_length. unfold zeros. rewrite repeat_length. lia.
      + intros j Hj. rewrite (map2_nth_same _ _ _ m); [|unfold zeros; rewrite repeat_length; exact Lf|exact Lf|exact Hj].
        unfold zeros. rewrite nth_repeat_same, summed_one. cbn [snd]. ring.
      + now exists [].
    - rewrite Ea. destruct C as (before & Ef & Nc & Bc & Cc). destruct (ac_reset s) eqn:R.
      + destruct (proj1 Re eq_refl) as (c & x & Ec & Ex). exists [(t, f)], (map2 add (map (fun y => mul y zer) a) f).
        rewrite iop_equal by (rewrite map_length; congruence). split; [reflexivity|]. split; [|split; [|split]].
        * exists frames. split; [reflexivity|]. split; [discriminate|]. split.
          -- right. exists (before ++ c), x. rewrite Ef, Ec, app_assoc. auto.
          -- intros c' x' E y Hy. destruct c' as [|c1 c']; [contradiction|]. destruct c'; discriminate.
        * rewrite map2_length, map_length. lia.
        * intros j Hj. rewrite (map2_nth_same _ _ _ m); [|rewrite map_length; exact La|exact Lf|exact Hj].
          rewrite (nth_indep _ zer (mul zer zer)) by (rewrite map_length; lia). rewrite (map_nth (fun y => mul y zer)). rewrite summed_one. cbn [snd]. ring.
        * now exists [].
      + exists (cur ++ [(t, f)]), (map2 add a f). rewrite iop_equal by congruence. split; [reflexivity|]. split; [|split; [|split]].
        * exists before. split; [now rewrite Ef, app_assoc|]. split; [intros E; destruct cur; discriminate|]. split; [exact Bc|].
          intros c x E y Hy. apply app_inj_tail in E as [-> _]. destruct (snoc_cases c) as [->|(c' & z & ->)]; [contradiction|].
          apply in_app_iff in Hy as [Hy|[<-|[]]]; [exact (Cc c' z eq_refl y Hy)|]. intros W. assert (false = true); [|discriminate].
          apply Re. eauto.
        * rewrite map2_length. lia.
        * intros j Hj. rewrite (map2_nth_same _ _ _ m) by auto. rewrite summed_snoc. cbn [snd]. now rewrite Sa.
        * now exists cur. }
  destruct K as (cur' & w & Ew & Cw & Lw & Sw & (c & Ec)). cbv zeta in Ew |- *. rewrite Ew. cbn [bind].
  assert (last_cur : forall c0 x, cur' = c0 ++ [x] -> x = (t, f)) by (intros c0 x E; rewrite Ec in E; apply app_inj_tail in E as [_ <-]; reflexivity).
  destruct ends.
  - eexists. split; [reflexivity|]. right. exists cur', w. cbn [ac_pix ac_reset ac_gt]. split; [exact Cw|]. split; [reflexivity|]. split; [exact Lw|].
    split; [exact Sw|]. split; [split; [intros _; exists c, (t, f); split; [exact Ec|now apply He]|reflexivity]|].
    left. exists frames, (t, f), []. split; [reflexivity|]. split; [now apply He|]. split; [reflexivity|]. intros y [].
  - assert (N : ~ window_end dt t) by (intros W; assert (false = true) by (now apply He); discriminate).
    eexists. split; [reflexivity|]. right. exists cur', w. cbn [ac_pix ac_reset ac_gt]. split; [exact Cw|]. split; [reflexivity|]. split; [exact Lw|].
    split; [exact Sw|]. split; [split; [discriminate|intros (c0 & x & E & W); rewrite (last_cur c0 x E) in W; contradiction]|].
    destruct I as [[-> ->]|(cur & a & _ & _ & _ & _ & _ & G)].
    + right. split; [|reflexivity]. intros y [<-|[]]. exact N.
    + destruct G as [(f0 & x & r & E & W & Gx & Nr)|[Nw Gx]].
      * left. exists f0, x, (r ++ [(t, f)]). split; [rewrite E, <- app_assoc; reflexivity|]. split; [exact W|]. split; [exact Gx|].
        intros y Hy. apply in_app_iff in Hy as [Hy|[<-|[]]]; [now apply Nr|exact N].
      * right. split; [|exact Gx]. intros y Hy. apply in_app_iff in Hy as [Hy|[<-|[]]]; [now apply Nw|exact N].
Qed.

Lemma accumulate_all_ok dt m frames : (0 < dt)%Z -> same_size m frames -> exists s, accumulate_all A dt frames = Ok s /\ acc_state dt m frames s.
Proof.
  intros Hdt H. unfold accumulate_all. assert (G : forall l pre s, acc_state dt m pre s -> same_size m l ->
    exists s', fold_res (fun s f => accumulate A dt s (fst f) (snd f)) s l = Ok s' /\ acc_state dt m (pre ++ l) s').
  { induction l as [|[t f] l IH]; intros pre s I Hl.
    - exists s. now rewrite app_nil_r.
    - cbn [fold_res]. destruct (accumulate_step dt m pre s t f Hdt I (Hl (t, f) (or_introl eq_refl))) as (s1 & E & I1). cbn [fst snd]. rewrite E. cbn [bind].
      destruct (IH (pre ++ [(t, f)]) s1 I1 (fun x Hx => Hl x (or_intror Hx))) as (s2 & E2 & I2). exists s2. rewrite <- app_assoc in I2. auto. }
  destruct (G frames [] (acc0 A)) as (s & E & I); [now left|exact H|]. eauto.
Qed.
End Acc.
