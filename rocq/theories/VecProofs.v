From Coq Require Import List ZArith Bool Lia PeanoNat.
From Verif Require Import PyBase PyLemmas Arith ArithLemmas NpModel NpSpec NpProofs NpSegments VecModel VecSpec.
Import ListNotations.

(* ------------------------------------------------------------------ selections *)
Local Open Scope Z_scope.

Lemma same_count (a b : nat) (P : nat -> Prop) : (forall i, (i < a)%nat <-> P i) -> (forall i, (i < b)%nat <-> P i) -> a = b.
Proof.
  intros H1 H2. destruct (Nat.lt_trichotomy a b) as [L|[E|L]]; [|exact E|].
  - apply H2 in L. apply H1 in L. lia.
  - apply H1 in L. apply H2 in L. lia.
Qed.

Lemma slice_selects_unique s n ps qs : slice_selects s n ps -> slice_selects s n qs -> ps = qs.
Proof.
  unfold slice_selects. set (k := match sl_step s with Some k => k | None => 1 end).
  intros [(K & N1 & L1)|(K & N1 & L1)] [(K' & N2 & L2)|(K' & N2 & L2)]; try (exfalso; lia); cbv zeta in N1, L1, N2, L2.
  all: assert (E : length ps = length qs) by exact (same_count _ _ _ L1 L2).
  all: apply (nth_ext _ _ 0 0 E); intros i Hi; rewrite N1, N2; [reflexivity|now rewrite <- E|exact Hi].
Qed.

Theorem slice_pos_iff s n ps : 0 <= n -> slice_pos s n = Ok ps <-> slice_selects s n ps.
Proof.
  intros Hn. split; [intros H; now apply slice_pos_ok|]. intros H. destruct (slice_pos s n) as [qs|e] eqn:E.
  - f_equal. apply (slice_selects_unique s n); [now apply slice_pos_ok|exact H].
  - exfalso. assert (Q : sl_step s = Some 0) by (apply (slice_pos_err s n Hn); now exists e).
    unfold slice_selects in H. rewrite Q in H. destruct H as [[H _]|[H _]]; lia.
Qed.

Lemma slice_selects_range s n ps : 0 <= n -> slice_selects s n ps -> forall p, In p ps -> 0 <= p < n.
Proof. intros Hn H. apply slice_pos_iff in H; [|exact Hn]. now apply (slice_pos_ok _ _ _ Hn H). Qed.

(* ------------------------------------------------------------------------ slicer *)
Section Slicer.
Context {V : Type} (zero : V).

Theorem slicer_slice s (value : list V) : sl_step s <> Some 0 ->
  exists ps out, slicer_trigger (SelSlice s) value = Ok (View ps) /\
    read_sliced (View ps) value = Ok out /\ slice_selects s (zlen value) ps /\ elements_at value ps out.
Proof.
  intros Hs. cbn [slicer_trigger]. destruct (slice_pos s (zlen value)) as [ps|e] eqn:E.
  2:{ exfalso. apply Hs. apply (slice_pos_err s (zlen value) (zlen_nonneg _)). now exists e. }
  destruct (slice_pos_ok _ _ _ (zlen_nonneg value) E) as [S R].
  destruct (gather_total value ps R) as [out G]. exists ps, out. cbn [bind read_sliced].
  split; [reflexivity|]. split; [exact G|]. split; [exact S|]. now apply gather_ok.
Qed.

Theorem slicer_list is (value : list V) :
  (forall i, In i is -> - zlen value <= i < zlen value) ->
  exists ps out, slicer_trigger (SelList is) value = Ok (Own out) /\
    Forall2 (denotes (zlen value)) is ps /\ elements_at value ps out.
Proof.
  intros H. assert (P : exists ps, Forall2 (denotes (zlen value)) is ps).
  { clear zero. induction is as [|i is IH]; [exists []; constructor|].
    destruct IH as [ps Hps]; [intros j Hj; apply H; now right|]. specialize (H i (or_introl eq_refl)).
    exists ((if i <? 0 then i + zlen value else i) :: ps). constructor; [|exact Hps]. unfold denotes.
    destruct (Z.ltb_spec i 0); lia. }
  destruct P as [ps P]. destruct (gather_total value ps (denotes_range _ _ _ P)) as [out G].
  exists ps, out. cbn [slicer_trigger]. assert (T : take_list value is = Ok out).
  { apply take_list_ok. exists ps. split; [exact P|]. apply gather_ok; [now apply (denotes_range _ is)|exact G]. }
  rewrite T. split; [reflexivity|]. split; [exact P|]. apply gather_ok; [now apply (denotes_range _ is)|exact G].
Qed.

Theorem slicer_list_err is (value : list V) i : In i is -> ~ (- zlen value <= i < zlen value) ->
  slicer_trigger (SelList is) value = Err IndexError.
Proof.
  intros Hi Hn. cbn [slicer_trigger]. unfold take_list.
  assert (E : map_res (index_pos (zlen value)) is = Err IndexError); [|now rewrite E].
  induction is as [|j is IH]; [destruct Hi|]. cbn [map_res]. unfold index_pos at 1.
  destruct ((j <? - zlen value) || (zlen value <=? j)) eqn:B; [reflexivity|].
  cbn [bind]. destruct Hi as [->|Hi].
  - exfalso. apply Hn. apply orb_false_iff in B as [B1 B2]. apply Z.ltb_ge in B1. apply Z.leb_gt in B2. lia.
  - now rewrite (IH Hi).
Qed.

Theorem slicer_int i (value : list V) :
  (forall p, denotes (zlen value) i p -> exists v, nth_error value (Z.to_nat p) = Some v /\ slicer_trigger (SelInt i) value = Ok (Scalar v)) /\
  (~ (exists p, denotes (zlen value) i p) -> slicer_trigger (SelInt i) value = Err IndexError).
Proof.
  split.
  - intros p H. pose proof H as [R _]. apply index_pos_iff in H; [|apply zlen_nonneg]. cbn [slicer_trigger]. unfold take1.
    rewrite H. cbn [bind]. unfold at_pos. destruct (nth_error value (Z.to_nat p)) as [v|] eqn:E.
    + exists v. split; reflexivity.
    + apply nth_error_None in E. unfold zlen in R. lia.
  - intros H. cbn [slicer_trigger]. unfold take1. destruct (index_pos (zlen value) i) as [p|e] eqn:E.
    + exfalso. apply H. exists p. apply index_pos_iff; [apply zlen_nonneg|exact E].
    + cbn [bind]. unfold index_pos in E. destruct ((i <? - zlen value) || (zlen value <=? i)); [now injection E as <-|discriminate].
Qed.

(* the length declared at construction *)
Theorem slicer_declared (value : list V) a b k o ps :
  0 <= a <= b -> b <= zlen value -> 0 < match k with Some k => k | None => 1 end ->
  slicer_initial zero (SelSlice (mkSlice (Some a) (Some b) k)) = Ok o ->
  slice_selects (mkSlice (Some a) (Some b) k) (zlen value) ps -> length ps = length o.
Proof.
  intros Ha Hb Hk. cbn [slicer_initial sl_start sl_stop sl_step]. set (st := match k with Some k => k | None => 1 end) in *.
  destruct (Z.eqb_spec st 0); [lia|].
  destruct (Z.ltb_spec ((b - a + st - 1) / st) 0) as [L|L]; [discriminate|]. intros E. injection E as <-. rewrite repeat_length.
  unfold slice_selects. cbn [sl_start sl_stop sl_step]. fold st. intros [(_ & _ & H)|(Q & _)]; [|lia]. cbn zeta in H.
  apply (same_count _ _ (fun i => a + Z.of_nat i * st < b)).
  - intros i. rewrite H. unfold slice_bound. destruct (Z.ltb_spec a 0), (Z.ltb_spec b 0); lia.
  - intros i. pose proof (count_up (b - a) st (Z.of_nat i) ltac:(lia) ltac:(lia)) as C.
    assert (D : (b - a + st - 1) / st = (b - a - 1) / st + 1).
    { replace (b - a + st - 1) with ((b - a - 1) + 1 * st) by lia. now rewrite Z.div_add by lia. }
    rewrite D in L |- *. split; intros H1.
    + assert (Z.of_nat i * st < b - a) by (apply C; lia). lia.
    + assert (Z.of_nat i < (b - a - 1) / st + 1) by (apply C; lia). lia.
Qed.
End Slicer.

(* ---------------------------------------------------------------------- inserter *)
Section Inserter.
Context {V : Type} (zero : V).

Lemma src_take p (small : list V) vals :
  (match p with PairIdx a _ => take_list small a | PairSlice a _ => take_slice small a end) = Ok vals <->
  exists ss, src_places p (zlen small) ss /\ elements_at small ss vals.
Proof.
  destruct p as [a b|a b]; cbn [src_places].
  - apply take_list_ok.
  - rewrite take_slice_ok. split; intros (ss & H & E); exists ss; (split; [|exact E]); apply slice_pos_iff in H; auto using zlen_nonneg.
Qed.

Lemma dest_pos p n ds : 0 <= n ->
  (match p with PairIdx _ b => map_res (index_pos n) b | PairSlice _ b => slice_pos b n end) = Ok ds <-> dest_places p n ds.
Proof. intros Hn. destruct p as [a b|a b]; cbn [dest_places]; [now apply index_list_ok|now apply slice_pos_iff]. Qed.

Lemma dest_unique p n ds ds' : 0 <= n -> dest_places p n ds -> dest_places p n ds' -> ds = ds'.
Proof. intros Hn H1 H2. apply dest_pos in H1, H2; auto. congruence. Qed.
Lemma src_unique p n ds ds' : 0 <= n -> src_places p n ds -> src_places p n ds' -> ds = ds'.
Proof.
  intros Hn. destruct p as [a b|a b]; cbn [src_places]; intros H1 H2.
  - apply index_list_ok in H1, H2; auto. congruence.
  - now apply (slice_selects_unique a n).
Qed.
Lemma dest_range p n ds : 0 <= n -> dest_places p n ds -> forall q, In q ds -> 0 <= q < n.
Proof. intros Hn. destruct p as [a b|a b]; cbn [dest_places]; intros H; [now apply (denotes_range _ b)|now apply (slice_selects_range b)]. Qed.

Lemma insert_pair_ok small (out out' : list V) p : insert_pair small out p = Ok out' <->
  exists ss ds vals r, src_places p (zlen small) ss /\ dest_places p (zlen out) ds /\ elements_at small ss vals /\
    fits (length ds) vals = Ok r /\ out' = scatter out (combine ds r).
Proof.
  assert (E : insert_pair small out p =
    (v <- (match p with PairIdx a _ => take_list small a | PairSlice a _ => take_slice small a end) ;;
     ds <- (match p with PairIdx _ b => map_res (index_pos (zlen out)) b | PairSlice _ b => slice_pos b (zlen out) end) ;;
     assign out ds v)) by (destruct p; reflexivity).
  rewrite E. clear E. split.
  - intros H. inv_bind H. inv_bind H. apply src_take in E as (ss & S1 & S2). apply dest_pos in E0; [|apply zlen_nonneg].
    rewrite assign_fits in H. inv_bind H. injection H as <-. exists ss, a0, a, a1. auto.
  - intros (ss & ds & vals & r & S1 & D & S2 & F & ->).
    assert (T : (match p with PairIdx a _ => take_list small a | PairSlice a _ => take_slice small a end) = Ok vals)
      by (apply src_take; now exists ss).
    rewrite T. cbn [bind]. apply dest_pos in D; [|apply zlen_nonneg]. rewrite D. cbn [bind]. rewrite assign_fits, F. reflexivity.
Qed.

Lemma insert_pair_length small (out out' : list V) p : insert_pair small out p = Ok out' -> length out' = length out.
Proof. intros H. apply insert_pair_ok in H as (ss & ds & vals & r & _ & _ & _ & _ & ->). apply scatter_length. Qed.

Lemma combine_in_l {X Y} (l : list X) (l' : list Y) x y : In (x, y) (combine l l') -> In x l.
Proof. apply in_combine_l. Qed.

Lemma insert_pair_other small (out out' : list V) p q : insert_pair small out p = Ok out' ->
  0 <= q -> (forall ds, dest_places p (zlen out) ds -> ~ In q ds) -> nth_error out' (Z.to_nat q) = nth_error out (Z.to_nat q).
Proof.
  intros H Hq N. apply insert_pair_ok in H as (ss & ds & vals & r & _ & D & _ & _ & ->).
  apply scatter_other; [|intros x v Hx; apply in_combine_l in Hx; apply (dest_range p (zlen out) ds); auto using zlen_nonneg|exact Hq].
  intros v Hv. apply in_combine_l in Hv. now apply (N ds).
Qed.

Lemma combine_split {X Y} : forall (l : list X) (l' : list Y) j x y, nth_error l j = Some x -> nth_error l' j = Some y ->
  combine l l' = firstn j (combine l l') ++ (x, y) :: combine (skipn (S j) l) (skipn (S j) l').
Proof.
  induction l as [|a l IH]; intros l' [|j] x y H1 H2; try discriminate; destruct l' as [|b l']; try discriminate; cbn in H1, H2.
  - injection H1 as ->. injection H2 as ->. reflexivity.
  - cbn [combine firstn app]. f_equal. rewrite (IH l' j x y H1 H2) at 1. reflexivity.
Qed.

Lemma nth_skipn {X} (l : list X) : forall a i, nth_error (skipn a l) i = nth_error l (a + i).
Proof. induction l as [|x l IH]; intros [|a] i; cbn; auto. now destruct i. Qed.

Lemma insert_pair_at small (out out' : list V) p ss ds j q : insert_pair small out p = Ok out' ->
  src_places p (zlen small) ss -> dest_places p (zlen out) ds ->
  nth_error ds j = Some q -> (forall i, (j < i)%nat -> nth_error ds i <> Some q) ->
  exists s, source_of ss j = Some s /\ nth_error small (Z.to_nat s) <> None /\ nth_error out' (Z.to_nat q) = nth_error small (Z.to_nat s).
Proof.
  intros H Sp D Hj Hl. apply insert_pair_ok in H as (ss' & ds' & vals & r & S' & D' & [Lv Ev] & F & ->).
  assert (ss' = ss) as -> by (apply (src_unique p (zlen small)); auto using zlen_nonneg).
  assert (ds' = ds) as -> by (apply (dest_unique p (zlen out)); auto using zlen_nonneg).
  pose proof (fits_length _ _ _ F) as Lr.
  assert (Jl : (j < length ds)%nat) by (apply nth_error_Some; congruence).
  assert (Rj : exists s, source_of ss j = Some s /\ nth_error small (Z.to_nat s) <> None /\ nth_error r j = nth_error small (Z.to_nat s)).
  { unfold source_of. rewrite <- Lv. unfold fits in F. destruct vals as [|v [|w vals]].
    - cbn [length Nat.eqb] in *. destruct (Nat.eqb_spec (length ds) 0); [lia|discriminate].
    - cbn [length Nat.eqb] in *. destruct ss as [|s ss0]; [discriminate|]. destruct (Ev 0%nat s eq_refl) as [Rs E0].
      exists s. split; [reflexivity|]. cbn in E0. rewrite <- E0. split; [discriminate|].
      injection F as <-. clear - Jl. revert j Jl. induction (length ds) as [|n IH]; intros j Jl; [lia|]. destruct j; cbn; [reflexivity|]. apply IH. lia.
    - cbn [length Nat.eqb]. destruct (Nat.eqb_spec (length ds) (length (v :: w :: vals))) as [Ed|]; [|discriminate].
      injection F as <-. destruct (nth_error ss j) as [s|] eqn:Es.
      + exists s. split; [reflexivity|]. destruct (Ev j s Es) as [Rs E0]. rewrite <- E0. split; [|reflexivity].
        apply nth_error_Some. rewrite <- Ed. exact Jl.
      + exfalso. apply nth_error_None in Es. lia. }
  destruct Rj as (s & Es & Ns & Er). exists s. split; [exact Es|]. split; [exact Ns|].
  destruct (nth_error r j) as [v|] eqn:Ev'; [|exfalso; now apply Ns]. rewrite <- Er.
  rewrite (combine_split ds r j q v Hj Ev').
  assert (Rq : forall x, In x ds -> 0 <= x < zlen out) by (apply (dest_range p); auto using zlen_nonneg).
  apply scatter_last.
  - apply Rq. apply nth_error_In with j. exact Hj.
  - intros w Hw. apply in_combine_l in Hw. apply In_nth_error in Hw as [i Hi]. rewrite nth_skipn in Hi. apply (Hl (S j + i)%nat); [lia|exact Hi].
  - intros x w Hw. apply in_combine_l in Hw. assert (In x ds); [|apply Rq; auto].
    rewrite <- (firstn_skipn (S j) ds). apply in_or_app. now right.
Qed.

Lemma trigger_length ps : forall small (out out' : list V), inserter_trigger ps out small = Ok out' -> length out' = length out.
Proof.
  unfold inserter_trigger. induction ps as [|p ps IH]; intros small out out' H; cbn [fold_res] in H; [now injection H as <-|].
  inv_bind H. apply insert_pair_length in E. apply IH in H. congruence.
Qed.

Lemma trigger_other ps : forall small (out out' : list V) q, inserter_trigger ps out small = Ok out' -> 0 <= q ->
  (forall p ds, In p ps -> dest_places p (zlen out) ds -> ~ In q ds) -> nth_error out' (Z.to_nat q) = nth_error out (Z.to_nat q).
Proof.
  unfold inserter_trigger. induction ps as [|p ps IH]; intros small out out' q H Hq N; cbn [fold_res] in H; [now injection H as <-|].
  inv_bind H. pose proof (insert_pair_length _ _ _ _ E) as L.
  rewrite (IH small _ out' q H Hq).
  - apply (insert_pair_other small out _ p); auto. intros ds. apply N. now left.
  - intros p' ds Hp. unfold zlen. rewrite L. apply N. now right.
Qed.

Lemma trigger_app a b : forall small (out : list V), inserter_trigger (a ++ b) out small = (o <- inserter_trigger a out small ;; inserter_trigger b o small).
Proof.
  unfold inserter_trigger. induction a as [|p a IH]; intros small out; cbn [app fold_res bind]; [reflexivity|].
  destruct (insert_pair small out p) as [o|e]; cbn [bind]; [apply IH|reflexivity].
Qed.

Lemma run_length ps : forall ins (o out : list V), fold_res (inserter_trigger ps) o ins = Ok out -> length out = length o.
Proof.
  induction ins as [|i ins IH]; intros o out H; cbn [fold_res] in H; [now injection H as <-|].
  inv_bind H. apply trigger_length in E. apply IH in H. congruence.
Qed.

Lemma run_snoc ps ins small (o out : list V) : fold_res (inserter_trigger ps) o (ins ++ [small]) = Ok out ->
  exists o1, fold_res (inserter_trigger ps) o ins = Ok o1 /\ inserter_trigger ps o1 small = Ok out.
Proof.
  revert o. induction ins as [|i ins IH]; intros o H; cbn [app fold_res] in H |- *.
  - inv_bind H. exists o. split; [reflexivity|]. injection H as <-. exact E.
  - inv_bind H. rewrite E. cbn [bind]. now apply IH.
Qed.

Theorem inserter_uncovered ps n ins (out : list V) q : inserter_run zero ps n ins = Ok out ->
  0 <= q < Z.of_nat n -> (forall p ds, In p ps -> dest_places p (Z.of_nat n) ds -> ~ In q ds) ->
  nth_error out (Z.to_nat q) = Some zero.
Proof.
  unfold inserter_run. assert (G : forall ins (o out : list V), length o = n -> fold_res (inserter_trigger ps) o ins = Ok out ->
    0 <= q < Z.of_nat n -> (forall p ds, In p ps -> dest_places p (Z.of_nat n) ds -> ~ In q ds) ->
    nth_error out (Z.to_nat q) = nth_error o (Z.to_nat q)).
  { clear. induction ins as [|i ins IH]; intros o out L H Hq N; cbn [fold_res] in H; [now injection H as <-|].
    inv_bind H. pose proof (trigger_length _ _ _ _ E) as L1. rewrite (IH a out (eq_trans L1 L) H Hq N).
    apply (trigger_other ps i); [exact E|lia|]. unfold zlen. rewrite L. exact N. }
  intros H Hq N. rewrite (G ins _ out ltac:(unfold inserter_initial; apply repeat_length) H Hq N).
  unfold inserter_initial. clear - Hq. assert (Q : (Z.to_nat q < n)%nat) by lia. clear Hq. revert Q. generalize (Z.to_nat q).
  induction n as [|n IH]; intros [|k] Hk; cbn; try lia; [reflexivity|]. apply IH; lia.
Qed.

Theorem inserter_covered ps1 p ps2 n ins small (out : list V) ss ds j q :
  inserter_run zero (ps1 ++ p :: ps2) n (ins ++ [small]) = Ok out ->
  src_places p (zlen small) ss -> dest_places p (Z.of_nat n) ds ->
  nth_error ds j = Some q -> (forall i, (j < i)%nat -> nth_error ds i <> Some q) ->
  (forall p' ds', In p' ps2 -> dest_places p' (Z.of_nat n) ds' -> ~ In q ds') ->
  exists s, source_of ss j = Some s /\ nth_error small (Z.to_nat s) <> None /\ nth_error out (Z.to_nat q) = nth_error small (Z.to_nat s).
Proof.
  unfold inserter_run. intros H S D Hj Hl N. apply run_snoc in H as (o1 & H1 & H2).
  assert (L1 : length o1 = n) by (rewrite (run_length _ _ _ _ H1); unfold inserter_initial; apply repeat_length).
  rewrite trigger_app in H2. inv_bind H2. rename a into o2. pose proof (trigger_length _ _ _ _ E) as L2.
  unfold inserter_trigger in H2. cbn [fold_res] in H2. inv_bind H2. rename a into o3. pose proof (insert_pair_length _ _ _ _ E0) as L3.
  assert (Z2 : zlen o2 = Z.of_nat n) by (unfold zlen; lia). assert (Z3 : zlen o3 = Z.of_nat n) by (unfold zlen; lia).
  assert (Hq : 0 <= q) by (apply (dest_range p (Z.of_nat n) ds ltac:(lia) D q); now apply nth_error_In with j).
  rewrite <- Z2 in D.
  destruct (insert_pair_at small o2 o3 p ss ds j q E0 S D Hj Hl) as (s & Es & Ns & Ev). exists s. split; [exact Es|]. split; [exact Ns|].
  rewrite <- Ev. apply (trigger_other ps2 small); [exact H2|exact Hq|]. rewrite Z3. exact N.
Qed.

(* when a trigger is accepted *)
Theorem inserter_accepts ps small : forall (out : list V),
  (exists out', inserter_trigger ps out small = Ok out') <->
  (forall p, In p ps -> exists ss ds, src_places p (zlen small) ss /\ dest_places p (zlen out) ds /\ (length ss = length ds \/ length ss = 1%nat)).
Proof.
  unfold inserter_trigger. induction ps as [|p ps IH]; intros out; cbn [fold_res].
  - split; [intros _ p []|]. intros _. now exists out.
  - split.
    + intros [out' H]. inv_bind H. pose proof (insert_pair_length _ _ _ _ E) as L.
      intros p' [<-|Hp].
      * apply insert_pair_ok in E as (ss & ds & vals & r & S & D & [Lv _] & F & _). exists ss, ds. split; [exact S|]. split; [exact D|].
        rewrite <- Lv. destruct (Nat.eq_dec (length vals) (length ds)); [now left|]. destruct (Nat.eq_dec (length vals) 1); [now right|].
        rewrite fits_err in F; [discriminate|assumption|assumption].
      * assert (Q : exists out'', fold_res (insert_pair small) a ps = Ok out'') by now exists out'.
        rewrite IH in Q. specialize (Q p' Hp). unfold zlen in Q at 2. rewrite L in Q. exact Q.
    + intros H. destruct (H p (or_introl eq_refl)) as (ss & ds & S & D & Ln).
      assert (R : forall x, In x ss -> 0 <= x < zlen small).
      { destruct p; cbn [src_places] in S; [now apply (denotes_range _ src)|now apply (slice_selects_range src); auto using zlen_nonneg]. }
      destruct (gather_total small ss R) as [vals G]. apply gather_ok in G; [|exact R].
      assert (F : exists r, fits (length ds) vals = Ok r).
      { destruct G as [Lv _]. destruct Ln as [Ln|Ln]; [exists vals; apply fits_size; congruence|].
        destruct vals as [|v [|w vals]]; cbn in Lv; try lia. exists (repeat v (length ds)). reflexivity. }
      destruct F as [r F]. assert (I : insert_pair small out p = Ok (scatter out (combine ds r))).
      { apply insert_pair_ok. exists ss, ds, vals, r. auto. }
      rewrite I. cbn [bind]. apply IH. intros p' Hp. unfold zlen at 2. rewrite scatter_length. apply H. now right.
Qed.
End Inserter.
