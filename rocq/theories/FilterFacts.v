(* The facts about filter runs used by the property theorems. *)
From Coq Require Import List Bool PeanoNat Wf_nat Lia Field_theory Ring_theory Ring Field.
From Verif Require Import PyBase Arith ArithLemmas FilterModel FilterSpec SumLemmas FilterProofs IirProofs.
Import ListNotations.
Local Open Scope ar_scope.

(* ------------------------------------------------------------------ base filter *)
Section Gen.
Context {A : arith} {X : Type}.
Variables (n : nat) (law : X -> vec A -> vec A -> X * vec A) (x0 : X).
Hypothesis Hs : sized n law x0.

Lemma gen_inv d us s ys : frun n d law (finit n d x0) us = Ok (s, ys) ->
  exists vs, Forall2 (fitted n) us vs /\ ys = outs n d [] (snd (lrun _ law x0 vs)) /\
    length ys = length us.
Proof.
  intros E. destruct Hs as (P & P0 & HP).
  destruct (run_inv _ n d law P HP us _ [] s ys (rep_init _ n d x0) P0 E) as (vs & H1 & H2 & _).
  exists vs. split; auto. split; auto. rewrite H2, outs_length. cbn [fx finit].
  rewrite lrun_length. symmetry. eapply Forall2_len; eauto.
Qed.

Lemma gen_out d us s ys k i : frun n d law (finit n d x0) us = Ok (s, ys) ->
  (k < length us)%nat -> (i < n)%nat ->
  out_at ys k i =
  match d with
  | DInt m => ago (fun k => nd_at ys k i) k m
  | DFrac m f => f * ago (fun k => nd_at ys k i) k (S m) + (1 - f) * ago (fun k => nd_at ys k i) k m
  end.
Proof.
  intros E Hk Hi. destruct (gen_inv _ _ _ _ E) as (vs & _ & -> & L). rewrite outs_length in L.
  apply out_at_outs; lia.
Qed.

Lemma gen_ok d us : (exists s ys, frun n d law (finit n d x0) us = Ok (s, ys)) <-> Forall (input_fits n) us.
Proof.
  destruct Hs as (P & P0 & HP). split.
  - intros (s & ys & E). destruct (gen_inv _ _ _ _ E) as (vs & H & _). apply fitted_iff; eauto.
  - intros H. apply fitted_iff in H as [vs Hv].
    destruct (run_ok _ n d law P HP us _ [] vs (rep_init _ n d x0) P0 Hv) as (s & E & _). eauto.
Qed.

Lemma gen_size d us s ys k : frun n d law (finit n d x0) us = Ok (s, ys) -> (k < length us)%nat ->
  length (fst (nth k ys ([], []))) = n /\ length (snd (nth k ys ([], []))) = n.
Proof.
  intros E Hk. destruct (gen_inv _ _ _ _ E) as (vs & Hv & -> & L). rewrite outs_length in L.
  rewrite outs_nth by lia. cbn [fst snd]. split.
  - unfold delayed. rewrite map_length, seq_length. auto.
  - destruct Hs as (P & P0 & HP). clear E.
    assert (G : forall vs us, Forall2 (fitted n) us vs -> forall x k, P x -> (k < length vs)%nat ->
              length (nth k (snd (lrun _ law x vs)) []) = n).
    { clear -HP. induction vs as [|v r IH]; intros us HF x k Px Hk; [simpl in Hk; lia|].
      inversion HF as [|? ? ? ? Hf1 Hf2]; subst. destruct (fitted_length _ _ _ Hf1) as [L1 L2].
      destruct (HP _ _ _ Px L1 L2) as [P1 L3].
      cbn [lrun]. destruct (law x (fst v) (snd v)) as [x' y]. cbn [fst snd] in *.
      specialize (IH _ Hf2 x'). destruct (lrun _ law x' r) as [x'' yl]. cbn [snd] in *.
      destruct k; cbn [nth]; auto. apply IH; auto. simpl in Hk. lia. }
    eapply G; eauto. rewrite lrun_length in L. lia.
Qed.
End Gen.

Lemma outs_reset {A : arith} {X} n d (law : X -> vec A -> vec A -> X * vec A) (P : X -> Prop)
  (HP : forall x u g, P x -> length u = n -> length g = n ->
      P (fst (law x u g)) /\ length (snd (law x u g)) = n) s1 s2 us :
  rep X n d s1 [] -> rep X n d s2 [] -> fx s1 = fx s2 -> P (fx s1) ->
  match frun n d law s1 us, frun n d law s2 us with
  | Ok (_, y1), Ok (_, y2) => y1 = y2
  | Err e1, Err e2 => e1 = e2
  | _, _ => False
  end.
Proof.
  intros R1 R2 E P1. assert (P2 : P (fx s2)) by (rewrite <- E; auto).
  assert (D : (Forall (input_fits n) us) \/ ~ (Forall (input_fits n) us)).
  { assert (dec : forall i : finput A, {input_fits n i} + {~ input_fits n i}).
    { intros [u g]. unfold input_fits, fits. cbn [fst snd].
      destruct (Nat.eq_dec (length u) n), (Nat.eq_dec (length u) 1);
        try (right; intros [[|] _]; contradiction);
      (destruct g as [g|];
        [destruct (Nat.eq_dec (length g) n), (Nat.eq_dec (length g) 1);
           try (right; intros [_ [|]]; contradiction); left; split; auto
        | left; split; auto]). }
    destruct (Forall_dec _ dec us); auto. }
  destruct D as [D|D].
  - apply fitted_iff in D as [vs Hv].
    destruct (run_ok _ n d law P HP us s1 [] vs R1 P1 Hv) as (t1 & -> & _).
    destruct (run_ok _ n d law P HP us s2 [] vs R2 P2 Hv) as (t2 & -> & _).
    rewrite E. reflexivity.
  - rewrite !run_err; auto.
Qed.

Lemma rep_reset {A : arith} {X} n d rx (s : fstate A X) hy : rep X n d s hy -> rep X n d (freset rx s) [].
Proof.
  unfold rep, freset. cbn [fbuf]. intros ->. rewrite map_map. apply map_ext. intros i.
  cbn [chan map]. rewrite win_nil. unfold zeros. apply map_const_rev. apply win_length.
Qed.

(* -------------------------------------------------------------------------- IIR *)
Section Iir.
Context {A : arith}.
Variable c : iir A.
Variables n ni no : nat.
Hypothesis Snum : shape (inum c) n (S ni).
Hypothesis Sden : shape (iden c) n (S no).

Lemma iir_sized : sized n (iir_law c) (iir_x0 c).
Proof.
  exists (iinv n ni no). split; [exists [], []; apply xrep_init; auto|]. apply iir_law_ok; auto.
Qed.

Lemma iir_run_frun d us : iir_run c d us = frun n d (iir_law c) (finit n d (iir_x0 c)) us.
Proof. unfold iir_run. destruct Snum as [-> _]. reflexivity. Qed.

Lemma iir_out d us s ys k i : iir_run c d us = Ok (s, ys) -> (k < length us)%nat -> (i < n)%nat ->
  out_at ys k i =
  match d with
  | DInt m => ago (fun k => nd_at ys k i) k m
  | DFrac m f => f * ago (fun k => nd_at ys k i) k (S m) + (1 - f) * ago (fun k => nd_at ys k i) k m
  end.
Proof. rewrite iir_run_frun. intros. eapply gen_out; eauto. apply iir_sized. Qed.

Lemma iir_reset d us0 s0 y0 us : iir_run c d us0 = Ok (s0, y0) ->
  match frun n d (iir_law c) (freset iir_rx s0) us, iir_run c d us with
  | Ok (_, y1), Ok (_, y2) => y1 = y2
  | Err e1, Err e2 => e1 = e2
  | _, _ => False
  end.
Proof.
  rewrite !iir_run_frun. intros E.
  pose proof (iir_law_ok c n ni no Snum Sden) as HP.
  assert (I0 : iinv n ni no (iir_x0 c)) by (exists [], []; apply xrep_init; auto).
  destruct (run_inv _ n d (iir_law c) (iinv n ni no) HP us0 _ [] s0 y0 (rep_init _ n d _) I0 E)
    as (vs & Hv & _ & Ex & (hu & hy & Hx) & Hr).
  apply outs_reset with (P := iinv n ni no); auto.
  - eapply rep_reset; eauto.
  - apply rep_init.
  - cbn [freset fx finit]. pose proof (xrep_reset _ _ _ _ _ _ Hx) as [R1 R2].
    pose proof (xrep_init c n ni no Snum Sden) as [R3 R4].
    destruct (iir_rx (fx s0)), (iir_x0 c). cbn [fst snd] in *. congruence.
  - exists [], []. eapply xrep_reset. eauto.
Qed.

(* one value of one channel, from input and output histories; any arithmetic *)
Lemma iir_run_y d us s ys k i : iir_run c d us = Ok (s, ys) -> (k < length us)%nat -> (i < n)%nat ->
  nd_at ys k i = iir_y c ni no (nrow c i) (drow c i) (gain_at n us k i)
    (map (fun j => in_at n us (k - j) i) (seq 0 (S k)))
    (map (fun j => nd_at ys (k - 1 - j) i) (seq 0 k)).
Proof.
  rewrite iir_run_frun. intros E Hk Hi.
  destruct (gen_inv _ _ _ iir_sized _ _ _ _ E) as (vs & Hv & -> & L). rewrite outs_length in L.
  set (yl := snd (lrun _ (iir_law c) (iir_x0 c) vs)) in *.
  pose proof (Forall2_len _ _ _ Hv) as Lv.
  assert (Hfit : forall m, (m < length us)%nat -> fitted n (nth m us ([], None)) (nth m vs ([], []))).
  { intros. apply Forall2_nth; auto. }
  assert (Hlen : forall v, In v vs -> length (fst v) = n /\ length (snd v) = n).
  { intros v Hin. destruct (In_nth _ _ ([], []) Hin) as (m & Hm & <-).
    eapply fitted_length. apply Hfit. lia. }
  rewrite nd_at_outs by lia.
  pose proof (iir_lrun c n ni no Snum Sden vs _ [] [] (xrep_init c n ni no Snum Sden) Hlen k i
                ltac:(lia) Hi) as H. cbv zeta in H. fold yl in H. rewrite H. rewrite !app_nil_r.
  f_equal.
  - destruct (Hfit k Hk) as [_ F]. unfold gain_at. destruct (snd (nth k us ([], None))).
    + eapply fit_chan; eauto.
    + injection F as <-. unfold ones. rewrite repeat_map_seq, nth_map_seq; auto.
  - assert (Lf : length (firstn (S k) (map fst vs)) = S k) by (rewrite firstn_length_le; rewrite ?map_length; lia).
    unfold chan.
    rewrite (map_seq_nth' (rev (firstn (S k) (map fst vs))) [] (S k)) by (rewrite rev_length; auto).
    rewrite map_map. apply map_ext_in. intros j Hj%in_seq.
    rewrite nth_rev_firstn by (rewrite ?map_length; lia).
    destruct (Hfit (k - j)%nat ltac:(lia)) as [F _]. unfold in_at. rewrite <- (fit_chan n _ _ _ Hi F).
    change (@nil A) with (fst (@nil A, @nil A)) at 1. rewrite map_nth. reflexivity.
  - destruct k as [|k]; [reflexivity|].
    assert (Lf : length (firstn (S k) yl) = S k) by (rewrite firstn_length_le; lia).
    unfold chan.
    rewrite (map_seq_nth' (rev (firstn (S k) yl)) [] (S k)) by (rewrite rev_length; auto).
    rewrite map_map. apply map_ext_in. intros j Hj%in_seq.
    rewrite nth_rev_firstn by lia. rewrite nd_at_outs by lia. f_equal. f_equal. lia.
Qed.
End Iir.

(* channel independence, any arithmetic *)
Lemma iir_chan_indep {A : arith} (c1 c2 : iir A) n1 n2 ni no d us1 us2 s1 s2 y1 y2 i1 i2 :
  shape (inum c1) n1 (S ni) -> shape (iden c1) n1 (S no) ->
  shape (inum c2) n2 (S ni) -> shape (iden c2) n2 (S no) ->
  iir_run c1 d us1 = Ok (s1, y1) -> iir_run c2 d us2 = Ok (s2, y2) ->
  (i1 < n1)%nat -> (i2 < n2)%nat -> iinteg c1 = iinteg c2 ->
  nth i1 (inum c1) [] = nth i2 (inum c2) [] -> nth i1 (iden c1) [] = nth i2 (iden c2) [] ->
  length us1 = length us2 ->
  (forall k, (k < length us1)%nat -> in_at n1 us1 k i1 = in_at n2 us2 k i2 /\
                                     gain_at n1 us1 k i1 = gain_at n2 us2 k i2) ->
  forall k, (k < length us1)%nat ->
    nd_at y1 k i1 = nd_at y2 k i2 /\ out_at y1 k i1 = out_at y2 k i2.
Proof.
  intros A1 A2 B1 B2 E1 E2 H1 H2 Hg Hn Hd L Hin.
  assert (ND : forall k, (k < length us1)%nat -> nd_at y1 k i1 = nd_at y2 k i2).
  { intros k. induction k as [k IH] using (well_founded_induction Wf_nat.lt_wf). intros Hk.
    rewrite (iir_run_y c1 n1 ni no A1 A2 d us1 s1 y1) by auto.
    rewrite (iir_run_y c2 n2 ni no B1 B2 d us2 s2 y2) by (auto; lia).
    unfold nrow, drow. rewrite Hn, Hd. destruct (Hin k Hk) as [_ ->].
    rewrite (map_ext_in _ (fun j => in_at n2 us2 (k - j) i2)).
    2: { intros j Hj%in_seq. apply Hin. lia. }
    rewrite (map_ext_in (fun j => nd_at y1 (k - 1 - j) i1) (fun j => nd_at y2 (k - 1 - j) i2)).
    2: { intros j Hj%in_seq. apply IH; lia. }
    unfold iir_y, mrow. rewrite Hg. reflexivity. }
  intros k Hk. split; auto.
  rewrite (iir_out c1 n1 ni no A1 A2 d us1 s1 y1) by auto.
  rewrite (iir_out c2 n2 ni no B1 B2 d us2 s2 y2) by (auto; lia).
  assert (EA : forall j, ago (fun k => nd_at y1 k i1) k j = ago (fun k => nd_at y2 k i2) k j).
  { intros j. apply ago_ext. intros m Hm. apply ND. lia. }
  destruct d; rewrite !EA; reflexivity.
Qed.

(* ---------------------------------------------------------- exact arithmetic *)
Section Field.
Variable A : arith.
Hypothesis HF : is_field A.
Let HF' : field_theory (@zer A) one add mul sub opp dvd inv eq := HF.
Add Field fA3 : HF'.

Lemma ago_lin (a b : A) (f g : nat -> A) k j :
  ago (fun m => a * f m + b * g m) k j = a * ago f k j + b * ago g k j.
Proof. unfold ago. destruct (Nat.leb j k); ring. Qed.

Section I.
Variable c : iir A.
Variables n ni no : nat.
Hypothesis Snum : shape (inum c) n (S ni).
Hypothesis Sden : shape (iden c) n (S no).

Lemma iir_diff_eq d us s ys k i : iinteg c = true -> iir_run c d us = Ok (s, ys) ->
  (k < length us)%nat -> (i < n)%nat -> nth no (nth i (iden c) []) 0 <> 0 ->
  sumn (S no) (fun j => nth (no - j) (nth i (iden c) []) 0 * ago (fun k => nd_at ys k i) k j) =
  sumn (S ni) (fun j => nth (ni - j) (nth i (inum c) []) 0 * gain_at n us k i * ago (fun k => in_at n us k i) k j).
Proof.
  intros Hg E Hk Hi Hnz. destruct (iir_run_rec A HF c n ni no Snum Sden d us s ys E) as [_ H].
  specialize (H k i Hk Hi). unfold iir_rec in H. rewrite Hg in H. fold (nrow c i). fold (drow c i) in Hnz |- *.
  rewrite sumn_first by auto. rewrite Nat.sub_0_r.
  change (ago (fun k => nd_at ys k i) k 0) with (nd_at ys (k - 0) i). rewrite Nat.sub_0_r, H.
  set (S1 := sumn (S ni) _). 
  rewrite (sumn_ext no (fun j => nth (no - 1 - j) (drow c i) 0 * 1 * ago (fun k0 => nd_at ys k0 i) k (S j))
    (fun j => nth (no - S j) (drow c i) 0 * ago (fun k => nd_at ys k i) k (S j))).
  2: { intros j Hj. replace (no - 1 - j)%nat with (no - S j)%nat by lia. ring. }
  field. auto.
Qed.

Lemma iir_fir d us s ys k i : iinteg c = false -> iir_run c d us = Ok (s, ys) ->
  (k < length us)%nat -> (i < n)%nat -> nth no (nth i (iden c) []) 0 <> 0 ->
  nth no (nth i (iden c) []) 0 * nd_at ys k i =
  sumn (S ni) (fun j => nth (ni - j) (nth i (inum c) []) 0 * gain_at n us k i * ago (fun k => in_at n us k i) k j).
Proof.
  intros Hg E Hk Hi Hnz. destruct (iir_run_rec A HF c n ni no Snum Sden d us s ys E) as [_ H].
  specialize (H k i Hk Hi). unfold iir_rec in H. rewrite Hg in H. fold (nrow c i). fold (drow c i) in Hnz |- *.
  rewrite H. rewrite (sumn_zero A HF no). 2: { intros; ring. }
  field. auto.
Qed.

Lemma iir_linear a b d us1 us2 us s1 y1 s2 y2 :
  length us1 = length us -> length us2 = length us ->
  (forall k, (k < length us)%nat -> in_comb a b (nth k us1 ([], None)) (nth k us2 ([], None)) (nth k us ([], None))) ->
  iir_run c d us1 = Ok (s1, y1) -> iir_run c d us2 = Ok (s2, y2) ->
  exists s y, iir_run c d us = Ok (s, y) /\ forall k i, (k < length us)%nat -> (i < n)%nat ->
    nd_at y k i = a * nd_at y1 k i + b * nd_at y2 k i /\
    out_at y k i = a * out_at y1 k i + b * out_at y2 k i.
Proof.
  intros L1 L2 Hc E1 E2.
  assert (HL : forall k, (k < length us)%nat -> length (fst (nth k us ([], None))) = length (fst (nth k us1 ([], None)))).
  { intros k Hk. destruct (Hc k Hk) as (Ha & _ & _ & ->).
    unfold vadd, vscale. rewrite map2_length, !map_length. lia. }
  assert (F : Forall (input_fits n) us).
  { apply Forall_forall. intros x Hx. destruct (In_nth _ _ ([], None) Hx) as (k & Hk & <-).
    assert (F1 : Forall (input_fits n) us1)
      by (apply (proj1 (gen_ok n _ _ (iir_sized c n ni no Snum Sden) d us1)); exists s1, y1; rewrite <- (iir_run_frun c n ni Snum); auto).
    rewrite Forall_forall in F1. assert (Hk1 : (k < length us1)%nat) by lia. specialize (F1 _ (nth_In us1 ([], None) Hk1)).
    destruct F1 as [Fa Fb]. destruct (Hc k Hk) as (_ & Hs & _ & _). split; [|rewrite <- Hs; exact Fb].
    unfold fits in *. rewrite HL by auto. auto. }
  apply (proj2 (gen_ok n _ _ (iir_sized c n ni no Snum Sden) d us)) in F as (s & y & E).
  rewrite <- (iir_run_frun c n ni Snum) in E.
  exists s, y. split; auto.
  destruct (iir_run_rec A HF c n ni no Snum Sden d us s y E) as [_ H].
  destruct (iir_run_rec A HF c n ni no Snum Sden d us1 s1 y1 E1) as [_ H1].
  destruct (iir_run_rec A HF c n ni no Snum Sden d us2 s2 y2 E2) as [_ H2].
  assert (Hin : forall k i, (k < length us)%nat -> (i < n)%nat ->
     in_at n us k i = a * in_at n us1 k i + b * in_at n us2 k i).
  { intros k i Hk Hi. unfold in_at, chan_val. destruct (Hc k Hk) as (Ha & _ & _ & Hb).
    rewrite <- Ha, HL by auto. rewrite Hb. unfold vadd, vscale.
    set (u1 := fst (nth k us1 ([], None))) in *. set (u2 := fst (nth k us2 ([], None))) in *.
    assert (G : forall j, nth j (map2 add (map (fun x => a * x) u1) (map (fun x => b * x) u2)) 0 = a * nth j u1 0 + b * nth j u2 0).
    { intros j. destruct (Nat.lt_ge_cases j (length u1)).
      - rewrite map2_nth with (a := 0) (b := 0) by (rewrite map_length; lia).
        rewrite !nth_map0 by ring. reflexivity.
      - rewrite !nth_overflow; [ring| | |]; rewrite ?map2_length, ?map_length; lia. }
    rewrite !G. destruct (Nat.eqb (length u1) n); reflexivity. }
  assert (Hgn : forall k i, (k < length us)%nat -> gain_at n us k i = gain_at n us1 k i /\ gain_at n us k i = gain_at n us2 k i).
  { intros k i Hk. unfold gain_at. destruct (Hc k Hk) as (_ & -> & -> & _). auto. }
  assert (ND : forall i, (i < n)%nat -> forall k, (k < length us)%nat -> nd_at y k i = a * nd_at y1 k i + b * nd_at y2 k i).
  { intros i Hi k. induction k as [k IH] using (well_founded_induction Wf_nat.lt_wf). intros Hk.
    specialize (H k i Hk Hi). specialize (H1 k i ltac:(lia) Hi). specialize (H2 k i ltac:(lia) Hi).
    unfold iir_rec in *. rewrite H, H1, H2. destruct (Hgn k i Hk) as [<- <-].
    rewrite (sumn_ext _ (fun j => nth (ni - j) (nrow c i) 0 * gain_at n us k i * ago (fun k0 => in_at n us k0 i) k j)
      (fun j => a * (nth (ni - j) (nrow c i) 0 * gain_at n us k i * ago (fun k0 => in_at n us1 k0 i) k j) +
                b * (nth (ni - j) (nrow c i) 0 * gain_at n us k i * ago (fun k0 => in_at n us2 k0 i) k j))).
    2: { intros j Hj. rewrite (ago_ext _ (fun m => a * in_at n us1 m i + b * in_at n us2 m i)) by (intros; apply Hin; lia).
         rewrite ago_lin. ring. }
    rewrite (sumn_ext no (fun j => nth (no - 1 - j) (drow c i) 0 * (if iinteg c then 1 else 0) * ago (fun k0 => nd_at y k0 i) k (S j))
      (fun j => a * (nth (no - 1 - j) (drow c i) 0 * (if iinteg c then 1 else 0) * ago (fun k0 => nd_at y1 k0 i) k (S j)) +
                b * (nth (no - 1 - j) (drow c i) 0 * (if iinteg c then 1 else 0) * ago (fun k0 => nd_at y2 k0 i) k (S j)))).
    2: { intros j Hj. rewrite (ago_ext_lt _ (fun m => a * nd_at y1 m i + b * nd_at y2 m i)) by (intros; apply IH; lia).
         rewrite ago_lin. ring. }
    rewrite !sumn_add, !sumn_scale by auto. ring. }
  intros k i Hk Hi. split; auto.
  rewrite (iir_out c n ni no Snum Sden d us s y) by auto.
  rewrite (iir_out c n ni no Snum Sden d us1 s1 y1) by (auto; lia).
  rewrite (iir_out c n ni no Snum Sden d us2 s2 y2) by (auto; lia).
  assert (EA : forall j, ago (fun k => nd_at y k i) k j = a * ago (fun k => nd_at y1 k i) k j + b * ago (fun k => nd_at y2 k i) k j).
  { intros j. rewrite <- ago_lin. apply ago_ext. intros m Hm. apply ND; auto. lia. }
  destruct d; rewrite !EA; ring.
Qed.
End I.
End Field.
