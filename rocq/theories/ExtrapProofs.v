(* Proofs about extrapolation. *)
From Coq Require Import List ZArith Bool Arith Lia QArith Qcanon.
From Verif Require Import PyBase PyLemmas Arith FilterSpec OpticalModel ExtModel NpModel FitsModel RebinModel RebinProofs CutModel CutSpec CutProofs VecModel SlopecModel SlopecSpec SumLemmas QcTac
  FieldModel FieldSpec FieldProofs InterpModel InterpSpec InterpProofs ExtrapModel ExtrapSpec ExtrapEdge.
Import ListNotations.
Local Open Scope Qc_scope.


Lemma is_edge_beside thr a y x : is_edge thr a y x = beside (pupil_of thr a) (y, x).
Proof.
  unfold is_edge, beside. change (pupil_of thr a (y, x)) with (lit thr a y x). f_equal. change directions with (map dir_of ways). unfold ways, next_to. cbn [map existsb dir_of fst snd].
  destruct (steps thr a y x) as (A1 & A2 & A3 & A4 & A5 & A6 & A7 & A8). now rewrite A1, A3, A5, A7.
Qed.
Lemma in_edges thr a i j : In (i, j) (edges thr a) <-> (i < a_r a)%nat /\ (j < a_c a)%nat /\ is_edge thr a (Z.of_nat i) (Z.of_nat j) = true.
Proof.
  unfold edges. rewrite filter_In, in_flat_map. cbn [fst snd]. split.
  - intros [(k & Hk & Hm) E]. apply in_map_iff in Hm as (l & Hl & Hs). injection Hl as -> ->. apply in_seq in Hk, Hs. repeat split; try lia. exact E.
  - intros (Hi & Hj & E). split; [|exact E]. exists i. split; [apply in_seq; lia|]. apply in_map_iff. exists j. split; [reflexivity|apply in_seq; lia].
Qed.
Lemma find_map {X Y} (g : X -> Y) (q : Y -> bool) l : find q (map g l) = option_map g (find (fun x => q (g x)) l).
Proof. induction l as [|x l IH]; cbn; [reflexivity|]. destruct (q (g x)); [reflexivity|exact IH]. Qed.
Lemma find_table thr a i j : (i < a_r a)%nat -> (j < a_c a)%nat ->
  find (at_pos i j) (edge_table thr a) = if is_edge thr a (Z.of_nat i) (Z.of_nat j) then Some ((i, j), edge_row thr a (Z.of_nat i) (Z.of_nat j)) else None.
Proof.
  intros Hi Hj. unfold edge_table. rewrite find_map. unfold at_pos. cbn [fst].
  destruct (find _ _) as [[k l]|] eqn:F; cbn [option_map fst snd].
  - apply find_some in F as [F1 F2]. cbn [fst snd] in F2. apply andb_true_iff in F2 as [F2 F3]. apply Nat.eqb_eq in F2, F3. subst k l. apply in_edges in F1 as (_ & _ & ->). reflexivity.
  - destruct (is_edge thr a (Z.of_nat i) (Z.of_nat j)) eqn:E; [|reflexivity]. exfalso. pose proof (find_none _ _ F (i, j)) as N. cbn [fst snd] in N. rewrite !Nat.eqb_refl in N. discriminate N. now apply in_edges.
Qed.
Lemma extrapolated_image thr (a ph : arr2 Qc) r c : a_r a = r -> a_c a = c -> a_r ph = r -> a_c ph = c ->
  image (A:=qc) r c (fun i j => extension (pupil_of thr a) (value_of ph) (Z.of_nat i, Z.of_nat j)) (extrapolated thr (edge_table thr a) a ph).
Proof.
  intros Ar Ac Pr Pc. unfold extrapolated. rewrite Pr, Pc. eapply image_ext; [apply tab_image|]. intros i j Hi Hj. cbn beta. rewrite find_table by (rewrite ?Ar, ?Ac; assumption). rewrite is_edge_beside. unfold extension.
  pose proof (edge_value thr a ph (Z.of_nat i) (Z.of_nat j)) as V. unfold beside. change (pupil_of thr a (Z.of_nat i, Z.of_nat j)) with (lit thr a (Z.of_nat i) (Z.of_nat j)).
  assert (W : value_of ph (Z.of_nat i, Z.of_nat j) = ent qc ph i j) by (unfold value_of; cbn [fst snd]; now rewrite !Nat2Z.id).
  destruct (lit thr a (Z.of_nat i) (Z.of_nat j)); cbn [negb andb]; [rewrite W; qceq; ring|]. destruct (existsb _ _) eqn:X; [cbn [snd]; exact (V eq_refl)|qceq; ring].
Qed.

(* ---------------------------------------------------------------- the extension itself *)
Lemma guesses_ext P f g p : (forall q, P q = true -> f q = g q) -> guesses P f p = guesses P g p.
Proof.
  intros H. unfold guesses, shallow_first. f_equal.
  - unfold first_way. destruct (find _ _) as [w|] eqn:F; [|reflexivity]. apply find_some in F as [_ F]. destruct (two_deep P p w); [reflexivity|]. f_equal. now apply H.
  - apply map_ext_in. intros w Hw. apply filter_In in Hw as [_ Hw]. unfold two_deep in Hw. apply andb_true_iff in Hw as [H1 H2]. unfold line. now rewrite !H.
Qed.
Lemma extension_ext P f g p : (forall q, P q = true -> f q = g q) -> extension P f p = extension P g p.
Proof. intros H. unfold extension. destruct (P p) eqn:E; [now apply H|]. now rewrite (guesses_ext P f g p H). Qed.
Lemma guesses_some P f p : existsb (next_to P p) ways = true -> guesses P f p <> [].
Proof.
  intros H. unfold guesses, shallow_first, first_way. destruct (find (next_to P p) ways) as [w|] eqn:F.
  - destruct (two_deep P p w) eqn:T; [|discriminate]. cbn [app]. intros N. apply find_some in F as [F _]. assert (I : In w (filter (two_deep P p) ways)) by (apply filter_In; auto). apply map_eq_nil in N. now rewrite N in I.
  - exfalso. apply existsb_exists in H as (w & W1 & W2). pose proof (find_none _ _ F w W1). congruence.
Qed.
Lemma total_const l k : (forall v, In v l -> v = k) -> total l = k * qnat (length l).
Proof.
  induction l as [|v l IH]; intros H; cbn [total fold_right length]; [change (qnat 0) with 0; ring|]. change (fold_right Qcplus 0 l) with (total l). rewrite IH by (intros; apply H; now right). rewrite (H v) by now left. rewrite qnat_S. ring.
Qed.
Lemma average_const l k : l <> [] -> (forall v, In v l -> v = k) -> average l = k.
Proof.
  intros N H. unfold average. rewrite (total_const l k H). destruct l as [|v l]; [contradiction|]. cbn [length]. field. rewrite qnat_S. intros E. pose proof (qnat_le 0 (length l) (Nat.le_0_l _)) as L. change (qnat 0) with 0 in L. qclra.
Qed.
Definition flat (k0 ky kx : Qc) (p : Z * Z) : Qc := k0 + ky * qz (fst p) + kx * qz (snd p).
Lemma qz_plus a b : qz (a + b) = qz a + qz b.
Proof. unfold qz. apply Qc_is_canon. rewrite this_add, !this_q. rewrite inject_Z_plus. reflexivity. Qed.
Lemma qz_minus a b : qz (a - b) = qz a - qz b.
Proof. unfold Z.sub. rewrite qz_plus. unfold qz. apply Qc_is_canon. rewrite this_add, this_sub, !this_q, inject_Z_opp. reflexivity. Qed.
Lemma line_flat k0 ky kx p w : line (flat k0 ky kx) p w = flat k0 ky kx p.
Proof.
  unfold line, flat. destruct p as [y x]. destruct w; cbn [step fst snd]; rewrite ?qz_plus, ?qz_minus, qz_1, qz_2; ring.
Qed.
Lemma extension_flat P k0 ky kx p : P p = true \/ beside P p = true /\ deep P p -> extension P (flat k0 ky kx) p = flat k0 ky kx p.
Proof.
  intros H. unfold extension. destruct (P p) eqn:E; [reflexivity|]. destruct H as [|[H D]]; [discriminate|]. rewrite H. unfold beside in H. rewrite E in H. cbn [negb andb] in H.
  apply average_const; [now apply guesses_some|]. intros v Hv. unfold guesses in Hv. apply in_app_iff in Hv as [Hv|Hv].
  - unfold shallow_first in Hv. unfold deep in D. destruct (first_way P p); [rewrite D in Hv|]; contradiction.
  - apply in_map_iff in Hv as (w & <- & _). apply line_flat.
Qed.
Lemma extension_const P k p : P p = true \/ beside P p = true -> extension P (fun _ => k) p = k.
Proof.
  intros H. unfold extension. destruct (P p) eqn:E; [reflexivity|]. destruct H as [|H]; [discriminate|]. rewrite H. unfold beside in H. rewrite E in H. cbn [negb andb] in H.
  apply average_const; [now apply guesses_some|]. intros v Hv. unfold guesses in Hv. apply in_app_iff in Hv as [Hv|Hv].
  - unfold shallow_first in Hv. destruct (first_way P p); [|contradiction]. destruct (two_deep P p w); [contradiction|]. destruct Hv as [<-|[]]. reflexivity.
  - apply in_map_iff in Hv as (w & <- & _). unfold line. ring.
Qed.

(* ------------------------------------------------------------------------------ surfaces *)
Lemma tent_0 t : ~ (- (1) < t /\ t < 1) -> tent t = 0.
Proof.
  intros H. apply tent_far. destruct (Qclt_le_dec t 1) as [L|L]; [right|left; exact L]. destruct (Qclt_le_dec (- (1)) t) as [M|M]; [exfalso; apply H; now split|exact M].
Qed.
Lemma surface_local r c f g y x : (forall i j, (i < r)%nat -> (j < c)%nat -> touches y x i j -> f i j = g i j) -> surface r c f y x = surface r c g y x.
Proof.
  intros H. unfold surface. apply (sumn_ext (A:=qc)). intros i Hi. apply (sumn_ext (A:=qc)). intros j Hj.
  destruct (Qclt_le_dec (- (1)) (y - qnat i)) as [Y1|Y1]; [|rewrite (tent_0 (y - qnat i)) by (intros [? ?]; qclra); qceq; ring].
  destruct (Qclt_le_dec (y - qnat i) 1) as [Y2|Y2]; [|rewrite (tent_0 (y - qnat i)) by (intros [? ?]; qclra); qceq; ring].
  destruct (Qclt_le_dec (- (1)) (x - qnat j)) as [X1|X1]; [|rewrite (tent_0 (x - qnat j)) by (intros [? ?]; qclra); qceq; ring].
  destruct (Qclt_le_dec (x - qnat j) 1) as [X2|X2]; [|rewrite (tent_0 (x - qnat j)) by (intros [? ?]; qclra); qceq; ring].
  rewrite H; [reflexivity|assumption|assumption|]. unfold touches. auto.
Qed.

Lemma tents_one n x : (0 < n)%nat -> within n x -> sumn (A:=qc) n (fun j => tent (x - qnat j)) = 1.
Proof.
  intros Hn W. transitivity (sumn (A:=qc) n (fun j => 1 * tent (x - qnat j))); [apply (sumn_ext (A:=qc)); intros j _; qceq; ring|].
  rewrite (linear_tents n x (fun _ => 1) Hn W). qceq. ring.
Qed.
Lemma tents_id n x : (0 < n)%nat -> within n x -> sumn (A:=qc) n (fun j => qnat j * tent (x - qnat j)) = x.
Proof. intros Hn W. rewrite (linear_tents n x qnat Hn W). rewrite qnat_S. qceq. ring. Qed.
Lemma surface_flat r c k0 ky kx y x : (0 < r)%nat -> (0 < c)%nat -> within r y -> within c x ->
  surface r c (fun i j => k0 + ky * qnat i + kx * qnat j) y x = k0 + ky * y + kx * x.
Proof.
  intros Hr Hc Wy Wx. unfold surface.
  transitivity (sumn (A:=qc) r (fun i => (k0 + kx * x) * tent (y - qnat i) + ky * (qnat i * tent (y - qnat i)))).
  - apply (sumn_ext (A:=qc)). intros i _.
    transitivity (sumn (A:=qc) c (fun j => ((k0 + ky * qnat i) * tent (y - qnat i)) * tent (x - qnat j) + (kx * tent (y - qnat i)) * (qnat j * tent (x - qnat j)))); [apply (sumn_ext (A:=qc)); intros j _; qceq; ring|].
    etransitivity; [apply (sumn_add qc qc_field)|]. rewrite !(sumn_scale qc qc_field). rewrite (tents_one c x Hc Wx), (tents_id c x Hc Wx). qceq. ring.
  - etransitivity; [apply (sumn_add qc qc_field)|]. rewrite !(sumn_scale qc qc_field). rewrite (tents_one r y Hr Wy), (tents_id r y Hr Wy). qceq. ring.
Qed.
Lemma extension_pupil P P' f p : (forall q, P q = P' q) -> extension P f p = extension P' f p.
Proof.
  intros H. unfold extension, beside, guesses, shallow_first, first_way, next_to, two_deep, ways. cbn [existsb find filter]. rewrite !H.
  assert (E : forall w, P (step w 1 p) && P (step w 2 p) = P' (step w 1 p) && P' (step w 2 p)) by (intros; now rewrite !H).
  destruct (P' p); [reflexivity|]. destruct (P' (step Down 1 p)), (P' (step Up 1 p)), (P' (step Right 1 p)), (P' (step Left 1 p)); cbn [orb negb andb]; rewrite ?E; reflexivity.
Qed.
