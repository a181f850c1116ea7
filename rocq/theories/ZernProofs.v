From Coq Require Import Reals Arith Lia Lra ZArith List Bool.
From Verif Require Import PyBase PyLemmas ZernModel ZernSpec.
Import ListNotations.
Local Open Scope R_scope.

Ltac cring := unfold cmul, cadd, cscale, conj; cbn [fst snd]; f_equal; ring.
Lemma cx_eta (a : cx) : (fst a, snd a) = a. Proof. now destruct a. Qed.
Lemma cmul_comm a b : cmul a b = cmul b a. Proof. cring. Qed.
Lemma cmul_assoc a b c : cmul a (cmul b c) = cmul (cmul a b) c. Proof. cring. Qed.
Lemma cmul_scale k a b : cmul (cscale k a) b = cscale k (cmul a b). Proof. cring. Qed.
Lemma cscale_scale k l a : cscale k (cscale l a) = cscale (k * l) a. Proof. cring. Qed.
Lemma cscale_0 a : cscale 0 a = (0, 0). Proof. cring. Qed.
Lemma cscale_plus k l a : cscale (k + l) a = cadd (cscale k a) (cscale l a). Proof. cring. Qed.
Lemma cadd_0 a : cadd a (0, 0) = a. Proof. rewrite <- (cx_eta a). cring. Qed.
Lemma conj_mul a b : conj (cmul a b) = cmul (conj a) (conj b). Proof. cring. Qed.
Lemma conj_conj a : conj (conj a) = a. Proof. rewrite <- (cx_eta a). cring. Qed.
Lemma conj_pow a n : conj (cpow a n) = cpow (conj a) n.
Proof. induction n as [|n IH]; cbn [cpow]; [unfold conj; cbn; now rewrite Ropp_0|]. now rewrite conj_mul, IH. Qed.
Lemma mono_conj a b z : mono a b (conj z) = mono b a z.
Proof. unfold mono. rewrite conj_conj. apply cmul_comm. Qed.
Lemma conj_mono a b z : conj (mono a b z) = mono b a z.
Proof. unfold mono. rewrite conj_mul, !conj_pow, conj_conj. apply cmul_comm. Qed.

Lemma csum_ext n f g : (forall s, (s < n)%nat -> f s = g s) -> csum n f = csum n g.
Proof. induction n as [|n IH]; intros H; [reflexivity|]. cbn [csum]. rewrite IH, H; auto. Qed.
Lemma csum_add n f g : csum n (fun s => cadd (f s) (g s)) = cadd (csum n f) (csum n g).
Proof. induction n as [|n IH]; cbn [csum]; [cring|]. rewrite IH. cring. Qed.
Lemma csum_scale n k f : csum n (fun s => cscale k (f s)) = cscale k (csum n f).
Proof. induction n as [|n IH]; cbn [csum]; [cring|]. rewrite IH. cring. Qed.
Lemma csum_first n f : csum (S n) f = cadd (f 0%nat) (csum n (fun s => f (S s))).
Proof. induction n as [|n IH]; [cbn [csum]; cring|]. change (csum (S (S n)) f) with (cadd (csum (S n) f) (f (S n))). rewrite IH. cbn [csum]. cring. Qed.
Lemma csum_conj n f : conj (csum n f) = csum n (fun s => conj (f s)).
Proof. induction n as [|n IH]; cbn [csum]; [cring|]. rewrite <- IH. cring. Qed.
Lemma csum_longer n k f : (forall s, (n <= s)%nat -> f s = (0, 0)) -> csum (n + k) f = csum n f.
Proof. intros H. induction k as [|k IH]; [now rewrite Nat.add_0_r|]. rewrite <- plus_n_Sm. cbn [csum]. rewrite IH, H by lia. apply cadd_0. Qed.
Lemma csum_fst n f : fst (csum n f) = rsum n (fun s => fst (f s)). Proof. induction n; cbn; congruence. Qed.
Lemma csum_snd n f : snd (csum n f) = rsum n (fun s => snd (f s)). Proof. induction n; cbn; congruence. Qed.

(* coefficients, zero out of range *)
Definition gcoef (p q s : nat) : R := if ((s <=? p) && (s <=? q))%nat then coef p q s else 0.
Lemma disk_long p q N z : (Nat.min p q < N)%nat -> disk p q z = csum N (fun s => cscale (gcoef p q s) (mono (p - s) (q - s) z)).
Proof.
  intros H. replace N with (S (Nat.min p q) + (N - S (Nat.min p q)))%nat by lia. rewrite csum_longer.
  - unfold disk. apply csum_ext. intros s Hs. unfold gcoef. replace ((s <=? p) && (s <=? q))%nat with true; [reflexivity|]. symmetry. apply andb_true_iff. rewrite !Nat.leb_le. lia.
  - intros s Hs. unfold gcoef. replace ((s <=? p) && (s <=? q))%nat with false; [apply cscale_0|]. symmetry. apply andb_false_iff. rewrite !Nat.leb_gt. lia.
Qed.
(* derivative with respect to z, term by term *)
Definition dz (p q : nat) (z : cx) : cx := csum (S (Nat.min p q)) (fun s => cscale (coef p q s * INR (p - s)) (mono (p - s - 1) (q - s) z)).
Lemma dz_long p q N z : (Nat.min p q < N)%nat -> dz p q z = csum N (fun s => cscale (gcoef p q s * INR (p - s)) (mono (p - s - 1) (q - s) z)).
Proof.
  intros H. replace N with (S (Nat.min p q) + (N - S (Nat.min p q)))%nat by lia. rewrite csum_longer.
  - unfold dz. apply csum_ext. intros s Hs. unfold gcoef. replace ((s <=? p) && (s <=? q))%nat with true; [reflexivity|]. symmetry. apply andb_true_iff. rewrite !Nat.leb_le. lia.
  - intros s Hs. unfold gcoef. replace ((s <=? p) && (s <=? q))%nat with false; [rewrite Rmult_0_l; apply cscale_0|]. symmetry. apply andb_false_iff. rewrite !Nat.leb_gt. lia.
Qed.
Lemma fact_S n : INR (fact (S n)) = INR (S n) * INR (fact n).
Proof. rewrite <- mult_INR. reflexivity. Qed.
Lemma coef_rec p q s : (s <= p)%nat -> (s <= S q)%nat ->
  coef (S p) (S q) s * INR (S p - s) = match s with O => 0 | S t => gcoef p q t * INR (p - t) end + INR (p + q + 2) * coef p (S q) s.
Proof.
  intros H1 H2. assert (F : forall n, INR (fact n) <> 0) by apply INR_fact_neq_0. destruct s as [|t].
  - unfold coef. rewrite !Nat.sub_0_r. replace (S p + S q)%nat with (S (p + S q)) by lia. rewrite (fact_S (p + S q)), (fact_S p). replace (p + q + 2)%nat with (S (p + S q)) by lia. cbn [pow]. change (INR (fact 0)) with 1.
    assert (G : INR (S p) <> 0) by (apply not_0_INR; lia). field. repeat split; auto.
  - unfold gcoef. replace ((t <=? p) && (t <=? q))%nat with true by (symmetry; apply andb_true_iff; rewrite !Nat.leb_le; lia). unfold coef.
    replace (S p + S q - S t)%nat with (S (p + q - t)) by lia. replace (p + S q - S t)%nat with (p + q - t)%nat by lia.
    replace (S p - S t)%nat with (p - t)%nat by lia. replace (S q - S t)%nat with (q - t)%nat by lia.
    destruct (p - t)%nat as [|u] eqn:E; [exfalso; lia|]. replace (p - S t)%nat with u by lia. rewrite (fact_S t), (fact_S u), (fact_S (p + q - t)). cbn [pow].
    assert (G1 : INR (S t) <> 0) by (apply not_0_INR; lia). assert (G2 : INR (S u) <> 0) by (apply not_0_INR; lia).
    assert (S1 : INR (S (p + q - t)) = INR (p + q + 2) - INR (S t)) by (rewrite <- minus_INR by lia; f_equal; lia). rewrite S1. field. repeat split; auto.
Qed.
Lemma dz_rec p q z : dz (S p) (S q) z = cadd (dz p q z) (cscale (INR (p + q + 2)) (disk p (S q) z)).
Proof.
  rewrite (dz_long (S p) (S q) (S (p + q + 2))) by lia. rewrite (dz_long p q (p + q + 2)) by lia. rewrite (disk_long p (S q) (S (p + q + 2))) by lia.
  rewrite <- csum_scale. rewrite (csum_first _ (fun s => cscale (INR (p + q + 2)) _)), (csum_first _ (fun s => cscale (gcoef (S p) (S q) s * _) _)).
  match goal with |- cadd ?a (csum ?n ?f) = cadd (csum _ ?g) (cadd ?b (csum _ ?h)) => assert (A : a = b); [|assert (B : csum n f = csum n (fun s => cadd (g s) (h s)))] end.
  - unfold gcoef. cbn [Nat.leb andb]. rewrite !Nat.sub_0_r, cscale_scale. assert (R0 := coef_rec p q 0 ltac:(lia) ltac:(lia)). rewrite !Nat.sub_0_r in R0. rewrite R0, Rplus_0_l. replace (S p - 1)%nat with p by lia. reflexivity.
  - apply csum_ext. intros s Hs. rewrite cscale_scale. unfold gcoef. destruct (Nat.leb_spec (S s) (S p)) as [L1|L1]; destruct (Nat.leb_spec (S s) (S q)) as [L2|L2]; cbn [andb].
    + destruct (Nat.leb_spec (S s) p) as [L3|L3]; cbn [andb].
      * assert (R0 := coef_rec p q (S s) ltac:(lia) ltac:(lia)). rewrite R0, cscale_plus. unfold gcoef. replace (S p - S s - 1)%nat with (p - s - 1)%nat by lia. replace (S q - S s)%nat with (q - s)%nat by lia. replace (p - S s)%nat with (p - s - 1)%nat by lia. reflexivity.
      * replace (S p - S s)%nat with 0%nat by lia. replace (p - s)%nat with 0%nat by lia. cbn [INR]. rewrite !Rmult_0_r, !cscale_0. cring.
    + replace ((s <=? p) && (s <=? q))%nat with false by (symmetry; apply andb_false_iff; rewrite !Nat.leb_gt; lia). rewrite !andb_false_r, !Rmult_0_l, Rmult_0_r, !cscale_0. cring.
    + replace ((s <=? p) && (s <=? q))%nat with false by (symmetry; apply andb_false_iff; rewrite !Nat.leb_gt; lia). replace (S s <=? p)%nat with false by (symmetry; apply Nat.leb_gt; lia). cbn [andb]. rewrite !Rmult_0_l, Rmult_0_r, !cscale_0. cring.
    + replace ((s <=? p) && (s <=? q))%nat with false by (symmetry; apply andb_false_iff; rewrite !Nat.leb_gt; lia). rewrite !andb_false_r, !Rmult_0_l, Rmult_0_r, !cscale_0. cring.
  - rewrite A, B, csum_add. cring.
Qed.
Lemma dz_0l q z : dz 0 q z = (0, 0).
Proof. unfold dz. cbn [Nat.min csum Nat.sub INR]. rewrite Rmult_0_r, cscale_0. cring. Qed.
Lemma dz_0r p z : dz (S p) 0 z = cscale (INR (S p)) (disk p 0 z).
Proof.
  unfold dz, disk. rewrite !Nat.min_0_r. cbn [csum]. rewrite !Nat.sub_0_r. replace (S p - 1)%nat with p by lia.
  assert (A : coef (S p) 0 0 = 1). { unfold coef. rewrite Nat.add_0_r, !Nat.sub_0_r. cbn [pow]. change (INR (fact 0)) with 1. field. apply INR_fact_neq_0. }
  assert (B : coef p 0 0 = 1). { unfold coef. rewrite Nat.add_0_r, !Nat.sub_0_r. cbn [pow]. change (INR (fact 0)) with 1. field. apply INR_fact_neq_0. }
  rewrite A, B. cring.
Qed.
Lemma dz_sum p : forall q z, dz p q z = csum (Nat.min p (S q)) (fun k => cscale (INR (p + q - 2 * k)) (disk (p - 1 - k) (q - k) z)).
Proof.
  induction p as [|p IH]; intros q z; [apply dz_0l|]. destruct q as [|q].
  - rewrite dz_0r. rewrite (Nat.min_r (S p) 1) by lia. cbn [csum]. replace (S p - 1 - 0)%nat with p by lia. replace (S p + 0 - 2 * 0)%nat with (S p) by lia. rewrite Nat.sub_0_r. cring.
  - rewrite dz_rec, IH. change (Nat.min (S p) (S (S q))) with (S (Nat.min p (S q))). rewrite csum_first.
    replace (S p + S q - 2 * 0)%nat with (p + q + 2)%nat by lia. replace (S p - 1 - 0)%nat with p by lia. rewrite Nat.sub_0_r.
    match goal with |- cadd ?a ?b = cadd ?b ?c => assert (A : a = c); [|rewrite A; cring] end.
    apply csum_ext. intros k Hk. replace (S p + S q - 2 * S k)%nat with (p + q - 2 * k)%nat by lia. replace (S p - 1 - S k)%nat with (p - 1 - k)%nat by lia. replace (S q - S k)%nat with (q - k)%nat by lia. reflexivity.
Qed.
Lemma coef_sym p q s : coef p q s = coef q p s.
Proof. unfold coef. rewrite (Nat.add_comm p q), !Rmult_assoc, (Rmult_comm (INR (fact (p - s)))). reflexivity. Qed.
Lemma disk_conj p q z : disk p q (conj z) = disk q p z.
Proof. unfold disk. rewrite Nat.min_comm. apply csum_ext. intros s _. now rewrite mono_conj, coef_sym. Qed.
Lemma conj_disk p q z : conj (disk p q z) = disk q p z.
Proof. unfold disk. rewrite csum_conj, Nat.min_comm. apply csum_ext. intros s _. rewrite <- conj_mono, coef_sym. cring. Qed.

(* derivatives along the axes *)
Definition cderiv (f : R -> cx) (t : R) (l : cx) : Prop := derivable_pt_lim (fun u => fst (f u)) t (fst l) /\ derivable_pt_lim (fun u => snd (f u)) t (snd l).
Lemma deriv_ext f g t l : (forall u, f u = g u) -> derivable_pt_lim f t l -> derivable_pt_lim g t l.
Proof. intros H D eps He. destruct (D eps He) as [d Hd]. exists d. intros h. rewrite <- !H. apply Hd. Qed.
Lemma cderiv_mul f g t l k : cderiv f t l -> cderiv g t k -> cderiv (fun u => cmul (f u) (g u)) t (cadd (cmul l (g t)) (cmul (f t) k)).
Proof.
  intros [F1 F2] [G1 G2]. split; cbn [fst snd cmul cadd].
  - assert (D := derivable_pt_lim_minus _ _ _ _ _ (derivable_pt_lim_mult _ _ _ _ _ F1 G1) (derivable_pt_lim_mult _ _ _ _ _ F2 G2)). cbv beta in D.
    match type of D with derivable_pt_lim _ _ ?v => match goal with |- derivable_pt_lim _ _ ?w => replace w with v by ring end end. exact D.
  - assert (D := derivable_pt_lim_plus _ _ _ _ _ (derivable_pt_lim_mult _ _ _ _ _ F1 G2) (derivable_pt_lim_mult _ _ _ _ _ F2 G1)). cbv beta in D.
    match type of D with derivable_pt_lim _ _ ?v => match goal with |- derivable_pt_lim _ _ ?w => replace w with v by ring end end. exact D.
Qed.
Lemma cderiv_const a t : cderiv (fun _ => a) t (0, 0).
Proof. split; cbn [fst snd]; apply derivable_pt_lim_const. Qed.
Lemma cderiv_add f g t l k : cderiv f t l -> cderiv g t k -> cderiv (fun u => cadd (f u) (g u)) t (cadd l k).
Proof. intros [F1 F2] [G1 G2]. split; cbn [fst snd cadd]; [exact (derivable_pt_lim_plus _ _ _ _ _ F1 G1)|exact (derivable_pt_lim_plus _ _ _ _ _ F2 G2)]. Qed.
Lemma cderiv_scale k f t l : cderiv f t l -> cderiv (fun u => cscale k (f u)) t (cscale k l).
Proof. intros [F1 F2]. split; cbn [fst snd cscale]; [exact (derivable_pt_lim_scal _ k _ _ F1)|exact (derivable_pt_lim_scal _ k _ _ F2)]. Qed.
Lemma cderiv_sum n f t l : (forall s, cderiv (fun u => f u s) t (l s)) -> cderiv (fun u => csum n (f u)) t (csum n l).
Proof. intros H. induction n as [|n IH]; [exact (cderiv_const (0, 0) t)|]. exact (cderiv_add _ _ _ _ _ IH (H n)). Qed.
Lemma cderiv_pow f t l n : cderiv f t l -> cderiv (fun u => cpow (f u) n) t (cmul (cscale (INR n) (cpow (f t) (n - 1))) l).
Proof.
  intros H. induction n as [|n IH].
  - cbn [cpow INR]. replace (cmul (cscale 0 (cpow (f t) (0 - 1))) l) with ((0, 0) : cx) by cring. exact (cderiv_const (1, 0) t).
  - cbn [cpow]. assert (D := cderiv_mul _ _ _ _ _ H IH).
    match type of D with cderiv _ _ ?v => match goal with |- cderiv _ _ ?w => replace w with v; [exact D|] end end.
    replace (S n - 1)%nat with n by lia. rewrite S_INR. destruct n as [|n]; [cbn [cpow INR Nat.sub]; cring|]. replace (S n - 1)%nat with n by lia. cbn [cpow]. generalize (cpow (f t) n) (f t) (INR (S n)). intros a b c. cring.
Qed.
(* l: derivative of z *)
Lemma cderiv_mono a b f t l : cderiv f t l -> cderiv (fun u => mono a b (f u)) t
  (cadd (cmul (cscale (INR a) (mono (a - 1) b (f t))) l) (cmul (cscale (INR b) (mono a (b - 1) (f t))) (conj l))).
Proof.
  intros H. unfold mono. assert (C : cderiv (fun u => conj (f u)) t (conj l)) by (destruct H as [H1 H2]; split; cbn [fst snd conj]; [exact H1|exact (derivable_pt_lim_opp _ _ _ H2)]).
  assert (D := cderiv_mul _ _ _ _ _ (cderiv_pow _ _ _ a H) (cderiv_pow _ _ _ b C)). cbv beta in D.
  match type of D with cderiv _ _ ?v => match goal with |- cderiv _ _ ?w => replace w with v; [exact D|] end end.
  generalize (cpow (f t) (a - 1)) (cpow (conj (f t)) b) (cpow (f t) a) (cpow (conj (f t)) (b - 1)). intros w x y z. cring.
Qed.
Lemma cderiv_disk p q f t l : cderiv f t l -> cderiv (fun u => disk p q (f u)) t (cadd (cmul (dz p q (f t)) l) (cmul (dz q p (conj (f t))) (conj l))).
Proof.
  intros H. assert (D : cderiv (fun u => disk p q (f u)) t (csum (S (Nat.min p q)) (fun s => cscale (coef p q s) (cadd (cmul (cscale (INR (p - s)) (mono (p - s - 1) (q - s) (f t))) l) (cmul (cscale (INR (q - s)) (mono (p - s) (q - s - 1) (f t))) (conj l)))))).
  { unfold disk. apply (cderiv_sum _ (fun u s => cscale (coef p q s) (mono (p - s) (q - s) (f u)))). intros s. apply cderiv_scale, cderiv_mono, H. }
  match type of D with cderiv _ _ ?v => match goal with |- cderiv _ _ ?w => replace w with v; [exact D|] end end.
  assert (M : forall n g c, cmul (csum n g) c = csum n (fun s => cmul (g s) c)). { intros n g c. induction n as [|n IH]; cbn [csum]; [cring|]. rewrite <- IH. cring. }
  unfold dz. rewrite (Nat.min_comm q p), !M, <- csum_add. apply csum_ext. intros s _. rewrite mono_conj, (coef_sym q p). cring.
Qed.

Lemma csum_rev n f : csum n f = csum n (fun k => f (n - 1 - k)%nat).
Proof.
  induction n as [|n IH]; [reflexivity|]. rewrite (csum_first n (fun k => f (S n - 1 - k)%nat)). cbn [csum]. replace (S n - 1 - 0)%nat with n by lia. rewrite IH.
  match goal with |- cadd ?a ?b = cadd ?b ?c => assert (A : a = c); [|rewrite A; cring] end. apply csum_ext. intros k Hk. f_equal. lia.
Qed.
Definition low (q m : nat) (z : cx) : cx := csum (S q) (fun k => cscale (INR (2 * k + m)) (disk (k + m - 1) k z)).
Definition high (q m : nat) (z : cx) : cx := csum q (fun k => cscale (INR (2 * k + m + 2)) (disk (k + m + 1) k z)).
Lemma dz_low q m z : (1 <= m)%nat -> dz (q + m) q z = low q m z.
Proof.
  intros H. rewrite dz_sum, csum_rev. replace (Nat.min (q + m) (S q)) with (S q) by lia. apply csum_ext. intros k Hk. f_equal; [f_equal; lia|]. f_equal; lia.
Qed.
Lemma dz_high q m z : dz q (q + m) (conj z) = high q m z.
Proof.
  rewrite dz_sum, csum_rev. replace (Nat.min q (S (q + m))) with q by lia. apply csum_ext. intros k Hk. rewrite disk_conj. f_equal; [f_equal; lia|]. f_equal; lia.
Qed.
Lemma dz_zero q z : dz q q z = conj (high q 0 z).
Proof.
  rewrite <- (dz_high q 0), Nat.add_0_r, !dz_sum, csum_conj. apply csum_ext. intros k Hk. rewrite disk_conj, <- conj_disk. cring.
Qed.
Definition ddx (q m : nat) (z : cx) : cx := cadd (if (m =? 0)%nat then conj (high q 0 z) else low q m z) (high q m z).
Definition ddy (q m : nat) (z : cx) : cx := let a := if (m =? 0)%nat then conj (high q 0 z) else low q m z in let b := high q m z in (- snd a + snd b, fst a - fst b).
Lemma disk_dx q m x y : cderiv (fun u => disk (q + m) q (u, y)) x (ddx q m (x, y)).
Proof.
  assert (Z : cderiv (fun u => (u, y)) x (1, 0)) by (split; cbn [fst snd]; [apply derivable_pt_lim_id|apply derivable_pt_lim_const]).
  assert (D := cderiv_disk (q + m) q _ _ _ Z). cbv beta in D. rewrite dz_high in D.
  match type of D with cderiv _ _ ?v => replace (ddx q m (x, y)) with v; [exact D|] end. unfold ddx. destruct (Nat.eqb_spec m 0) as [->|N]; [rewrite Nat.add_0_r, dz_zero|rewrite dz_low by lia]; cring.
Qed.
Lemma disk_dy q m x y : cderiv (fun u => disk (q + m) q (x, u)) y (ddy q m (x, y)).
Proof.
  assert (Z : cderiv (fun u => (x, u)) y (0, 1)) by (split; cbn [fst snd]; [apply derivable_pt_lim_const|apply derivable_pt_lim_id]).
  assert (D := cderiv_disk (q + m) q _ _ _ Z). cbv beta in D. rewrite dz_high in D.
  match type of D with cderiv _ _ ?v => replace (ddy q m (x, y)) with v; [exact D|] end. unfold ddy. destruct (Nat.eqb_spec m 0) as [->|N]; [rewrite Nat.add_0_r, dz_zero|rewrite dz_low by lia]; cring.
Qed.
Lemma disk_real q z : snd (disk q q z) = 0.
Proof. assert (A := f_equal snd (conj_disk q q z)). unfold conj in A. cbn [snd] in A. lra. Qed.

(* real sums *)
Lemma rsum_ext n f g : (forall s, (s < n)%nat -> f s = g s) -> rsum n f = rsum n g.
Proof. induction n as [|n IH]; intros H; [reflexivity|]. cbn [rsum]. rewrite IH, H; auto. Qed.
Lemma rsum_add n f g : rsum n (fun s => f s + g s) = rsum n f + rsum n g.
Proof. induction n as [|n IH]; cbn [rsum]; [ring|]. rewrite IH. ring. Qed.
Lemma rsum_scale n k f : rsum n (fun s => k * f s) = k * rsum n f.
Proof. induction n as [|n IH]; cbn [rsum]; [ring|]. rewrite IH. ring. Qed.
Lemma rsum_zero n f : (forall s, (s < n)%nat -> f s = 0) -> rsum n f = 0.
Proof. intros H. rewrite (rsum_ext n f (fun _ => 0 * 0)) by (intros s Hs; rewrite H by exact Hs; ring). rewrite rsum_scale. ring. Qed.
Lemma rsum_split a b f : rsum (a + b) f = rsum a f + rsum b (fun s => f (a + s)%nat).
Proof. induction b as [|b IH]; [rewrite Nat.add_0_r; cbn [rsum]; ring|]. rewrite <- plus_n_Sm. cbn [rsum]. rewrite IH. ring. Qed.
Lemma tri_S n : tri (S n) = (tri n + S n)%nat.
Proof. unfold tri. replace (S n * (S n + 1))%nat with (n * (n + 1) + S n * 2)%nat by nia. apply Nat.div_add. lia. Qed.
Lemma rsum_tri n f : rsum (tri n) f = rsum n (fun n' => rsum (S n') (fun d => f (tri n' + d)%nat)).
Proof. induction n as [|n IH]; [reflexivity|]. rewrite tri_S, rsum_split, IH. reflexivity. Qed.
Lemma rsum_steps Q a g : (forall n', (forall k, n' <> 2 * k + a)%nat -> g n' = 0) -> rsum (2 * Q + a - 1) g = rsum Q (fun k => g (2 * k + a)%nat).
Proof.
  intros H. induction Q as [|Q IH].
  - cbn [rsum]. apply rsum_zero. intros s Hs. apply H. intros k. lia.
  - destruct (Nat.eq_dec (2 * Q + a) 0) as [E|N].
    + assert (Q = 0%nat) by lia. assert (a = 0%nat) by lia. subst. cbn. ring.
    + replace (2 * S Q + a - 1)%nat with (S (S (2 * Q + a - 1))) by lia. cbn [rsum]. rewrite IH. rewrite (H (2 * Q + a - 1)%nat) by (intros k; lia). replace (S (2 * Q + a - 1)) with (2 * Q + a)%nat by lia. ring.
Qed.

(* Noll's numbering *)
Definition mdeg (n d : nat) : nat := if Nat.even n then (2 * ((d + 1) / 2))%nat else (2 * (d / 2) + 1)%nat.
Lemma half_cases k : (exists h, k = 2 * h /\ k / 2 = h /\ (k + 1) / 2 = h)%nat \/ (exists h, k = 2 * h + 1 /\ k / 2 = h /\ (k + 1) / 2 = h + 1)%nat.
Proof.
  destruct (Nat.Even_or_Odd k) as [[h H]|[h H]]; [left|right]; exists h; subst k; repeat split; try lia.
  - rewrite (Nat.mul_comm 2 h). apply Nat.div_mul. lia.
  - symmetry. apply (Nat.div_unique _ _ _ 1); lia.
  - symmetry. apply (Nat.div_unique _ _ _ 1); lia.
  - symmetry. apply (Nat.div_unique _ _ _ 0); lia.
Qed.
Lemma even_cases n : (exists h, n = 2 * h /\ Nat.even n = true)%nat \/ (exists h, n = 2 * h + 1 /\ Nat.even n = false)%nat.
Proof.
  destruct (Nat.Even_or_Odd n) as [H|H]; [left|right]; assert (G := H); destruct H as [h ->]; exists h; (split; [reflexivity|]); [now apply Nat.even_spec|]. apply Nat.odd_spec in G. rewrite <- Nat.negb_odd, G. reflexivity.
Qed.
Lemma mdeg_pick n d mu : (1 <= mu)%nat -> (exists k, n = 2 * k + mu)%nat -> (mdeg n d = mu <-> d = mu \/ d = mu - 1)%nat.
Proof.
  intros H [k Hk]. unfold mdeg. destruct (even_cases n) as [(h & Hn & ->)|(h & Hn & ->)]; destruct (half_cases d) as [(e & E1 & E2 & E3)|(e & E1 & E2 & E3)]; rewrite ?E2, ?E3; lia.
Qed.
Lemma mdeg_zero n d : mdeg n d = 0%nat -> d = 0%nat /\ Nat.even n = true.
Proof. unfold mdeg. destruct (even_cases n) as [(h & Hn & ->)|(h & Hn & ->)]; destruct (half_cases d) as [(e & E1 & E2 & E3)|(e & E1 & E2 & E3)]; rewrite ?E2, ?E3; try lia; intros; split; try lia; reflexivity. Qed.
Lemma mdeg_range n d : (d <= n)%nat -> (mdeg n d <= n)%nat /\ exists q, n = (2 * q + mdeg n d)%nat.
Proof.
  intros H. unfold mdeg. destruct (even_cases n) as [(h & Hn & ->)|(h & Hn & ->)]; destruct (half_cases d) as [(e & E1 & E2 & E3)|(e & E1 & E2 & E3)]; rewrite ?E2, ?E3; (split; [lia|]); [exists (h - e)%nat|exists (h - e - 1)%nat|exists (h - e)%nat|exists (h - e)%nat]; lia.
Qed.
(* sum over the modes of a degree of a function of the frequency and of the parity of the number *)
Lemma pick n mu (h : bool -> R) : rsum (S n) (fun d => if (mdeg n d =? mu)%nat then h (Nat.even (tri n + d + 1)) else 0) =
  if ((mu <=? n)%nat && Nat.even (n - mu)) then (if (mu =? 0)%nat then h (Nat.even (tri n + 1)) else h true + h false) else 0.
Proof.
  destruct (Nat.leb_spec mu n) as [L|L]; cbn [andb].
  - destruct (Nat.even (n - mu)) eqn:E.
    + apply Nat.even_spec in E. destruct E as [k Hk]. destruct (Nat.eqb_spec mu 0) as [->|N].
      * replace (S n) with (1 + n)%nat by lia. rewrite rsum_split. rewrite (rsum_zero n).
        -- cbn [rsum]. assert (Z : mdeg n 0 = 0%nat) by (unfold mdeg; destruct (even_cases n) as [(t & Hn & ->)|(t & Hn & ->)]; [reflexivity|lia]). rewrite Z, Nat.eqb_refl, Nat.add_0_r. ring.
        -- intros s Hs. destruct (Nat.eqb_spec (mdeg n (1 + s)) 0) as [G|G]; [apply mdeg_zero in G; lia|reflexivity].
      * assert (P : forall d, mdeg n d = mu <-> (d = mu \/ d = mu - 1)%nat) by (intros d; apply mdeg_pick; [lia|exists k; lia]).
        replace (S n) with ((mu - 1) + (2 + (n - mu)))%nat by lia. rewrite !rsum_split. rewrite (rsum_zero (mu - 1)), (rsum_zero (n - mu)).
        -- cbn [rsum]. replace (mdeg n (mu - 1 + 0) =? mu)%nat with true by (symmetry; apply Nat.eqb_eq, P; lia). replace (mdeg n (mu - 1 + 1) =? mu)%nat with true by (symmetry; apply Nat.eqb_eq, P; lia).
           replace (tri n + (mu - 1 + 1) + 1)%nat with (S (tri n + (mu - 1 + 0) + 1)) by lia. rewrite Nat.even_succ, <- Nat.negb_even. destruct (Nat.even (tri n + (mu - 1 + 0) + 1)); cbn [negb]; ring.
        -- intros s Hs. destruct (Nat.eqb_spec (mdeg n (mu - 1 + (2 + s))) mu) as [G|G]; [apply P in G; lia|reflexivity].
        -- intros s Hs. destruct (Nat.eqb_spec (mdeg n s) mu) as [G|G]; [apply P in G; lia|reflexivity].
    + apply rsum_zero. intros d Hd. destruct (Nat.eqb_spec (mdeg n d) mu) as [G|G]; [|reflexivity]. exfalso. destruct (mdeg_range n d ltac:(lia)) as [_ [q Hq]]. replace (n - mu)%nat with (2 * q)%nat in E by lia. rewrite Nat.even_mul in E. discriminate.
  - apply rsum_zero. intros d Hd. destruct (Nat.eqb_spec (mdeg n d) mu) as [G|G]; [|reflexivity]. exfalso. destruct (mdeg_range n d ltac:(lia)) as [G1 _]. lia.
Qed.

(* the radial polynomials are one at the edge *)
Fixpoint bin (n k : nat) : R := match n, k with _, O => 1 | O, S _ => 0 | S n', S k' => bin n' k' + bin n' (S k') end.
Lemma bin_0 n : bin n 0 = 1. Proof. now destruct n. Qed.
Lemma bin_high n : forall k, (n < k)%nat -> bin n k = 0.
Proof. induction n as [|n IH]; intros [|k] H; try lia; [reflexivity|]. cbn [bin]. rewrite !IH by lia. ring. Qed.
Lemma bin_fact n : forall k, (k <= n)%nat -> bin n k * INR (fact k) * INR (fact (n - k)) = INR (fact n).
Proof.
  induction n as [|n IH]; intros [|k] H; try lia; [cbn; ring|rewrite bin_0, Nat.sub_0_r; change (INR (fact 0)) with 1; ring|].
  cbn [bin]. destruct (Nat.eq_dec k n) as [->|N].
  - rewrite (bin_high n (S n)) by lia. replace (S n - S n)%nat with 0%nat by lia. change (INR (fact 0)) with 1. specialize (IH n ltac:(lia)). rewrite Nat.sub_diag in IH. change (INR (fact 0)) with 1 in IH. rewrite !(fact_S n). replace ((bin n n + 0) * (INR (S n) * INR (fact n)) * 1) with (INR (S n) * (bin n n * INR (fact n) * 1)) by ring. now rewrite IH.
  - assert (A := IH k ltac:(lia)). assert (B := IH (S k) ltac:(lia)). replace (S n - S k)%nat with (S (n - S k)) by lia. replace (n - k)%nat with (S (n - S k)) in A by lia.
    rewrite (fact_S n). assert (E : INR (S n) = INR (S k) + INR (S (n - S k))) by (rewrite <- plus_INR; f_equal; lia). rewrite E.
    transitivity (INR (S k) * (bin n k * INR (fact k) * INR (fact (S (n - S k)))) + INR (S (n - S k)) * (bin n (S k) * INR (fact (S k)) * INR (fact (n - S k)))); [rewrite (fact_S k), (fact_S (n - S k)); ring|rewrite A, B; ring].
Qed.
Definition alt (K : nat) (f : nat -> R) : R := rsum (S K) (fun s => (-1) ^ s * bin K s * f s).
Lemma rsum_first n f : rsum (S n) f = f 0%nat + rsum n (fun s => f (S s)).
Proof. change (S n) with (1 + n)%nat. rewrite rsum_split. cbn [rsum Nat.add]. ring. Qed.
Lemma alt_S K f : alt (S K) f = alt K f - alt K (fun s => f (S s)).
Proof.
  unfold alt. rewrite (rsum_first (S K)). rewrite (rsum_ext (S K) (fun s => (-1) ^ S s * bin (S K) (S s) * f (S s)) (fun s => -1 * ((-1) ^ s * bin K s * f (S s)) + (-1) ^ S s * bin K (S s) * f (S s))) by (intros s _; cbn [bin pow]; ring).
  rewrite rsum_add, rsum_scale. cbn [rsum pow]. rewrite (bin_high K (S K)) by lia. rewrite !bin_0.
  assert (E : rsum K (fun s => (-1) ^ S s * bin K (S s) * f (S s)) = rsum K (fun s => (-1) ^ s * bin K s * f s) + (-1) ^ K * bin K K * f K - f 0%nat).
  { assert (A := rsum_first K (fun s => (-1) ^ s * bin K s * f s)). cbn [rsum pow] in A. rewrite bin_0 in A. cbn [pow]. lra. }
  cbn [pow] in E. rewrite E. ring.
Qed.
Lemma alt_bin K : forall N J, (K <= J)%nat -> (K <= N)%nat -> alt K (fun s => bin (N - s) J) = bin (N - K) (J - K).
Proof.
  induction K as [|K IH]; intros N J HJ HN.
  - unfold alt. cbn [rsum pow bin]. rewrite !Nat.sub_0_r. ring.
  - rewrite alt_S, IH by lia. assert (A := IH (N - 1)%nat J ltac:(lia) ltac:(lia)).
    assert (B : alt K (fun s => bin (N - S s) J) = alt K (fun s => bin (N - 1 - s) J)) by (unfold alt; apply rsum_ext; intros s _; do 2 f_equal; lia). rewrite B, A.
    replace (N - K)%nat with (S (N - S K)) by lia. replace (J - K)%nat with (S (J - S K)) by lia. replace (N - 1 - K)%nat with (N - S K)%nat by lia. cbn [bin]. ring.
Qed.
Lemma jacobi_one K b : jacobi K b 1 = 1.
Proof.
  assert (F : forall n, INR (fact n) <> 0) by apply INR_fact_neq_0.
  assert (A := alt_bin K (2 * K + b) K ltac:(lia) ltac:(lia)). rewrite Nat.sub_diag, bin_0 in A. rewrite <- A at 2. unfold jacobi, alt. apply rsum_ext. intros s Hs.
  replace ((1 + 1) / 2) with 1 by field. rewrite pow1, Rmult_1_r.
  assert (B := bin_fact K s ltac:(lia)). assert (C := bin_fact (2 * K + b - s) K ltac:(lia)). replace (2 * K + b - s - K)%nat with (K + b - s)%nat in C by lia.
  rewrite <- C. replace (INR (fact s)) with (INR (fact K) / (bin K s * INR (fact (K - s)))).
  - assert (N : bin K s <> 0) by (intros E; rewrite E, !Rmult_0_l in B; symmetry in B; now apply F in B). field. repeat split; auto.
  - rewrite <- B. assert (N : bin K s <> 0) by (intros E; rewrite E, !Rmult_0_l in B; symmetry in B; now apply F in B). field. split; auto.
Qed.

Lemma mono_square b m z : mono (b + m) b z = cscale ((fst z ^ 2 + snd z ^ 2) ^ b) (cpow z m).
Proof.
  induction b as [|b IH]; [unfold mono; cbn [Nat.add cpow pow]; cring|].
  assert (A : mono (S b + m) (S b) z = cmul (cmul z (conj z)) (mono (b + m) b z)) by (unfold mono; cbn [Nat.add cpow]; cring).
  rewrite A, IH. cbn [pow]. cring.
Qed.
Lemma cpow_polar r t n : cpow (r * cos t, r * sin t) n = (r ^ n * cos (INR n * t), r ^ n * sin (INR n * t)).
Proof.
  induction n as [|n IH]; [cbn [cpow INR pow]; rewrite Rmult_0_l, cos_0, sin_0; f_equal; ring|].
  cbn [cpow]. rewrite IH, S_INR, Rmult_plus_distr_r, Rmult_1_l, cos_plus, sin_plus. unfold cmul. cbn [fst snd pow]. f_equal; ring.
Qed.
Lemma disk_polar q m r t : disk (q + m) q (r * cos t, r * sin t) = cscale (jacobi q m (2 * r ^ 2 - 1)) (r ^ m * cos (INR m * t), r ^ m * sin (INR m * t)).
Proof.
  unfold disk, jacobi. replace (Nat.min (q + m) q) with q by lia.
  rewrite (csum_ext _ _ (fun s => cscale (coef (q + m) q s * (r ^ 2) ^ (q - s)) (r ^ m * cos (INR m * t), r ^ m * sin (INR m * t)))).
  - assert (G : forall n f v, csum n (fun s => cscale (f s) v) = cscale (rsum n f) v) by (intros n f v; induction n as [|n IH]; cbn [csum rsum]; [cring|rewrite IH; cring]). rewrite G. f_equal. apply rsum_ext. intros s Hs.
    replace ((2 * r ^ 2 - 1 + 1) / 2) with (r ^ 2) by field. f_equal. unfold coef. replace (q + m + q - s)%nat with (2 * q + m - s)%nat by lia. rewrite !Rmult_assoc, (Rmult_comm (INR (fact (q + m - s)))). reflexivity.
  - intros s Hs. replace (q + m - s)%nat with (q - s + m)%nat by lia. rewrite mono_square, cscale_scale, cpow_polar. cbn [fst snd]. do 3 f_equal.
    assert (S2 := sin2_cos2 t). unfold Rsqr in S2. replace ((r * cos t) ^ 2 + (r * sin t) ^ 2) with (r ^ 2 * (sin t * sin t + cos t * cos t)) by ring. rewrite S2. ring.
Qed.
Lemma arctan2_polar x y : let r := sqrt (x ^ 2 + y ^ 2) in (r * cos (arctan2 y x), r * sin (arctan2 y x)) = (x, y).
Proof.
  assert (A : forall u v, 0 < u -> sqrt (u ^ 2 + v ^ 2) * cos (atan (v / u)) = u /\ sqrt (u ^ 2 + v ^ 2) * sin (atan (v / u)) = v).
  { intros u v Hu. rewrite cos_atan, sin_atan. assert (P : 0 < 1 + (v / u)²) by (unfold Rsqr; nra). assert (S : sqrt (u ^ 2 + v ^ 2) = u * sqrt (1 + (v / u)²)).
    { replace (u ^ 2 + v ^ 2) with (u ^ 2 * (1 + (v / u)²)) by (unfold Rsqr; field; lra). rewrite sqrt_mult by nra. f_equal. apply sqrt_pow2. lra. }
    assert (Q : sqrt (1 + (v / u)²) <> 0) by (apply Rgt_not_eq, sqrt_lt_R0; exact P). rewrite S. split; field; (split; [exact Q|lra]) || (split; [lra|exact Q]) || exact Q. }
  cbv zeta. unfold arctan2. destruct (Rlt_dec 0 x) as [H|H]; [destruct (A x y H) as [A1 A2]; now rewrite A1, A2|]. destruct (Rlt_dec x 0) as [G|G].
  - destruct (A (- x) (- y) ltac:(lra)) as [A1 A2]. replace ((- x) ^ 2 + (- y) ^ 2) with (x ^ 2 + y ^ 2) in * by ring. replace (- y / - x) with (y / x) in * by (field; lra).
    destruct (Rle_dec 0 y).
    + rewrite neg_cos, neg_sin. f_equal; lra.
    + replace (atan (y / x) - PI) with (- (PI - atan (y / x))) by ring. rewrite cos_neg, sin_neg, Rtrigo_facts.cos_pi_minus, Rtrigo_facts.sin_pi_minus. f_equal; lra.
  - assert (x = 0) by lra. subst x. destruct (Rlt_dec 0 y) as [K|K]; [|destruct (Rlt_dec y 0) as [L|L]].
    + replace (0 ^ 2 + y ^ 2) with (y ^ 2) by ring. rewrite sqrt_pow2, cos_PI2, sin_PI2 by lra. f_equal; ring.
    + replace (0 ^ 2 + y ^ 2) with ((- y) ^ 2) by ring. rewrite sqrt_pow2, cos_neg, sin_neg, cos_PI2, sin_PI2 by lra. f_equal; ring.
    + assert (y = 0) by lra. subst y. replace (0 ^ 2 + 0 ^ 2) with 0 by ring. rewrite sqrt_0. f_equal; ring.
Qed.

(* numbers of the modes *)
Lemma tri2 n : (2 * tri n = n * (n + 1))%nat.
Proof. induction n as [|n IH]; [reflexivity|]. rewrite tri_S. lia. Qed.
Lemma ceil_unique x z : IZR z - 1 < x <= IZR z -> ceil x = z.
Proof.
  intros [A B]. unfold ceil. destruct (base_Int_part (- x)) as [C D].
  assert (IZR (Int_part (- x)) < IZR (- z + 1)) by (rewrite plus_IZR, opp_IZR; lra). assert (IZR (- z) < IZR (Int_part (- x) + 1)) by (rewrite plus_IZR, opp_IZR; lra). apply lt_IZR in H, H0. lia.
Qed.
Lemma radial_order_spec j n : (tri n < j <= tri (S n))%nat -> radial_order (Z.of_nat j) = Z.of_nat n.
Proof.
  intros [A B]. unfold radial_order. apply ceil_unique. rewrite <- !INR_IZR_INZ.
  assert (T1 := tri2 n). assert (T2 := tri2 (S n)). assert (N : 0 <= INR n) by apply pos_INR.
  assert (A' : INR n * (INR n + 1) < 2 * INR j) by (rewrite <- S_INR, <- mult_INR; change 2 with (INR 2); rewrite <- mult_INR; apply lt_INR; lia).
  assert (B' : 2 * INR j <= (INR n + 1) * (INR n + 2)) by (replace (INR n + 2) with (INR (S (S n))) by (rewrite !S_INR; ring); rewrite <- S_INR, <- mult_INR; change 2 with (INR 2); rewrite <- mult_INR; apply le_INR; lia).
  assert (C : 2 * INR n + 1 < sqrt (8 * INR j + 1)). { rewrite <- (sqrt_pow2 (2 * INR n + 1)) by lra. apply sqrt_lt_1; nra. }
  assert (D : sqrt (8 * INR j + 1) <= 2 * INR n + 3). { rewrite <- (sqrt_pow2 (2 * INR n + 3)) by lra. apply sqrt_le_1; nra. }
  lra.
Qed.
Lemma order_exists j : (1 <= j)%nat -> exists n d, (d <= n)%nat /\ j = (tri n + d + 1)%nat.
Proof.
  intros H. induction j as [|j IH]; [lia|]. destruct (Nat.eq_dec j 0) as [->|N]; [exists 0%nat, 0%nat; split; [lia|reflexivity]|].
  destruct (IH ltac:(lia)) as (n & d & Hd & ->). destruct (Nat.eq_dec d n) as [->|Nd]; [exists (S n), 0%nat; rewrite tri_S; lia|exists n, (S d); lia].
Qed.
Lemma degree_spec n d : (d <= n)%nat -> degree (Z.of_nat (tri n + d + 1)) = (Z.of_nat n, Z.of_nat (mdeg n d)).
Proof.
  intros H. unfold degree. rewrite (radial_order_spec _ n) by (rewrite tri_S; lia). f_equal.
  assert (T : (Z.of_nat n * (Z.of_nat n + 1) / 2 = Z.of_nat (tri n))%Z) by (symmetry; apply (Z.div_unique _ _ _ 0); [lia|]; assert (G := tri2 n); nia). rewrite T.
  replace (Z.of_nat (tri n + d + 1) - (Z.of_nat (tri n) + 1))%Z with (Z.of_nat d) by lia.
  unfold mdeg. destruct (even_cases n) as [(h & Hn & E)|(h & Hn & E)]; rewrite E.
  - replace (Z.of_nat n mod 2 =? 0)%Z with true by (symmetry; apply Z.eqb_eq; symmetry; apply (Z.mod_unique _ _ (Z.of_nat h)); lia).
    destruct (half_cases d) as [(e & E1 & E2 & E3)|(e & E1 & E2 & E3)]; rewrite E3.
    + replace ((Z.of_nat d + 1) / 2)%Z with (Z.of_nat e) by (apply (Z.div_unique _ _ _ 1); lia). lia.
    + replace ((Z.of_nat d + 1) / 2)%Z with (Z.of_nat e + 1)%Z by (apply (Z.div_unique _ _ _ 0); lia). lia.
  - replace (Z.of_nat n mod 2 =? 0)%Z with false by (symmetry; apply Z.eqb_neq; replace (Z.of_nat n mod 2)%Z with 1%Z; [lia|]; apply (Z.mod_unique _ _ (Z.of_nat h)); lia).
    destruct (half_cases d) as [(e & E1 & E2 & E3)|(e & E1 & E2 & E3)]; rewrite E2.
    + replace (Z.of_nat d / 2)%Z with (Z.of_nat e) by (apply (Z.div_unique _ _ _ 0); lia). lia.
    + replace (Z.of_nat d / 2)%Z with (Z.of_nat e) by (apply (Z.div_unique _ _ _ 1); lia). lia.
Qed.
Lemma even_spec j : even (Z.of_nat j) = Nat.even j.
Proof.
  unfold even. destruct (even_cases j) as [(h & Hn & ->)|(h & Hn & ->)]; [apply Z.eqb_eq; symmetry; apply (Z.mod_unique _ _ (Z.of_nat h)); lia|].
  apply Z.eqb_neq. replace (Z.of_nat j mod 2)%Z with 1%Z; [lia|]. apply (Z.mod_unique _ _ (Z.of_nat h)); lia.
Qed.
Lemma zernike_mode n d q x y : (d <= n)%nat -> n = (2 * q + mdeg n d)%nat -> zernike (Z.of_nat (tri n + d + 1)) x y = Ok (mode q (mdeg n d) (Nat.even (tri n + d + 1)) x y).
Proof.
  intros H Q. unfold zernike. replace (Z.of_nat (tri n + d + 1) <=? 0)%Z with false by (symmetry; apply Z.leb_gt; lia). unfold polar. rewrite degree_spec by exact H.
  set (m := mdeg n d) in *. set (j := (tri n + d + 1)%nat). set (r := sqrt (x ^ 2 + y ^ 2)). set (t := arctan2 y x).
  assert (P : disk (q + m) q (x, y) = cscale (jacobi q m (2 * r ^ 2 - 1)) (r ^ m * cos (INR m * t), r ^ m * sin (INR m * t))) by (rewrite <- disk_polar; f_equal; symmetry; apply arctan2_polar).
  assert (R : rnm (Z.of_nat n) (Z.of_nat m) r = Ok (r ^ m * jacobi q m (2 * r ^ 2 - 1))).
  { unfold rnm. replace ((Z.of_nat n - Z.of_nat m) mod 2 =? 0)%Z with true by (symmetry; apply Z.eqb_eq; symmetry; apply (Z.mod_unique _ _ (Z.of_nat q)); lia). cbn [negb].
    rewrite Z.abs_eq by lia. replace (Z.of_nat n <? Z.of_nat m)%Z with false by (symmetry; apply Z.ltb_ge; lia).
    destruct ((Z.of_nat n =? 0) && (Z.of_nat m =? 0))%Z eqn:E0.
    - apply andb_true_iff in E0. rewrite !Z.eqb_eq in E0. assert (m = 0%nat) by lia. assert (q = 0%nat) by lia. rewrite H0, H1. f_equal. unfold jacobi. cbn [rsum Nat.sub Nat.mul Nat.add pow]. change (INR (fact 0)) with 1. field.
    - replace ((Z.of_nat n - Z.of_nat m) / 2)%Z with (Z.of_nat q) by (apply (Z.div_unique _ _ _ 0); lia). rewrite !Nat2Z.id, jacobi_one. f_equal. field. }
  rewrite R. cbn [bind]. fold (even (Z.of_nat j)). rewrite even_spec, <- !INR_IZR_INZ. unfold mode. rewrite P. cbn [fst snd cscale]. rewrite <- Q.
  destruct m as [|m'] eqn:Em.
  - change (Z.of_nat 0 =? 0)%Z with true. cbv iota. f_equal. cbn [INR pow]. rewrite Rmult_0_l, cos_0, Rmult_1_l, !Rmult_1_r. f_equal. rewrite <- sqrt_mult by (try lra; assert (G := pos_INR n); lra). f_equal. field.
  - replace (Z.of_nat (S m') =? 0)%Z with false by (symmetry; apply Z.eqb_neq; lia). destruct (Nat.even j); f_equal; ring.
Qed.

(* sums over the modes of lower degree *)
Definition near (m m' : nat) : bool := (m' =? S m)%nat || (S m' =? m)%nat.
Definition size (n m n' m' : nat) : R := let v := sqrt ((INR n + 1) * (INR n' + 1)) in if ((m =? 0) || (m' =? 0))%nat then v * sqrt 2 else v.
Definition kx (n m : nat) (e : bool) (n' m' : nat) (e' : bool) : R :=
  if ((negb (m =? 0)%nat && negb (m' =? 0)%nat && ((e && e') || (negb e && negb e'))) || (((m =? 0)%nat && e') || ((m' =? 0)%nat && e))) && near m m' then size n m n' m' else 0.
Definition ky (n m : nat) (e : bool) (n' m' : nat) (e' : bool) : R :=
  if ((negb (m =? 0)%nat && negb (m' =? 0)%nat && ((negb e && e') || (e && negb e'))) || (((m =? 0)%nat && negb e') || ((m' =? 0)%nat && negb e))) && near m m'
  then (if (((m' =? S m)%nat && negb e) || ((S m' =? m)%nat && e)) && negb (m =? 0)%nat then size n m n' m' * -1 else size n m n' m') else 0.
Lemma zeqb0 m : (Z.of_nat m =? 0)%Z = (m =? 0)%nat.
Proof. destruct (Nat.eqb_spec m 0), (Z.eqb_spec (Z.of_nat m) 0); try reflexivity; lia. Qed.
Lemma zeqbS m m' : (Z.of_nat m' =? Z.of_nat m + 1)%Z = (m' =? S m)%nat.
Proof. destruct (Nat.eqb_spec m' (S m)), (Z.eqb_spec (Z.of_nat m') (Z.of_nat m + 1)); try reflexivity; lia. Qed.
Lemma zeqbP m m' : (Z.of_nat m' =? Z.of_nat m - 1)%Z = (S m' =? m)%nat.
Proof. destruct (Nat.eqb_spec (S m') m), (Z.eqb_spec (Z.of_nat m') (Z.of_nat m - 1)); try reflexivity; lia. Qed.
Lemma zltb i j : (Z.of_nat j <? Z.of_nat i)%Z = (j <? i)%nat.
Proof. destruct (Nat.ltb_spec j i), (Z.ltb_spec (Z.of_nat j) (Z.of_nat i)); try reflexivity; lia. Qed.
Lemma gx_nat n d n' d' : (d <= n)%nat -> (d' <= n')%nat -> gx (Z.of_nat (tri n + d + 1)) (Z.of_nat (tri n' + d' + 1)) =
  if (tri n' + d' + 1 <? tri n + d + 1)%nat then kx n (mdeg n d) (Nat.even (tri n + d + 1)) n' (mdeg n' d') (Nat.even (tri n' + d' + 1)) else 0.
Proof.
  intros H H'. unfold gx. rewrite !degree_spec by assumption. rewrite !even_spec, !zeqb0, zeqbS, zeqbP, zltb, <- !INR_IZR_INZ. unfold kx, near, size.
  destruct (tri n' + d' + 1 <? tri n + d + 1)%nat; [rewrite andb_true_r; reflexivity|now rewrite andb_false_r].
Qed.
Lemma gy_nat n d n' d' : (d <= n)%nat -> (d' <= n')%nat -> gy (Z.of_nat (tri n + d + 1)) (Z.of_nat (tri n' + d' + 1)) =
  if (tri n' + d' + 1 <? tri n + d + 1)%nat then ky n (mdeg n d) (Nat.even (tri n + d + 1)) n' (mdeg n' d') (Nat.even (tri n' + d' + 1)) else 0.
Proof.
  intros H H'. unfold gy. rewrite !degree_spec by assumption. rewrite !even_spec, !zeqb0, zeqbS, zeqbP, zltb, <- !INR_IZR_INZ. unfold ky, near, size.
  destruct (tri n' + d' + 1 <? tri n + d + 1)%nat; [rewrite andb_true_r; reflexivity|now rewrite andb_false_r].
Qed.

Section Lower.
Variables (x y : R) (kf : nat -> nat -> bool -> R) (q m : nat).
Let n := (2 * q + m)%nat.
Hypothesis Hnear : forall n' m' e', near m m' = false -> kf n' m' e' = 0.
Hypothesis Hzero : m = 1%nat -> forall n', kf n' 0%nat true = kf n' 0%nat false.
Definition md (n' m' : nat) (b : bool) : R := mode ((n' - m') / 2) m' b x y.
Definition pair_of (n' mu : nat) : R := if (mu =? 0)%nat then kf n' mu true * md n' mu true else kf n' mu true * md n' mu true + kf n' mu false * md n' mu false.
Lemma mode_0 k b c : mode k 0 b x y = mode k 0 c x y. Proof. reflexivity. Qed.
Lemma part mu : (mu = 0%nat -> m = 1%nat) -> rsum n (fun n' => rsum (S n') (fun d => if (mdeg n' d =? mu)%nat then kf n' (mdeg n' d) (Nat.even (tri n' + d + 1)) * md n' (mdeg n' d) (Nat.even (tri n' + d + 1)) else 0)) =
  rsum n (fun n' => if ((mu <=? n')%nat && Nat.even (n' - mu)) then pair_of n' mu else 0).
Proof.
  intros Hmu. apply rsum_ext. intros n' _.
  rewrite (rsum_ext _ _ (fun d => if (mdeg n' d =? mu)%nat then (fun b => kf n' mu b * md n' mu b) (Nat.even (tri n' + d + 1)) else 0)).
  - rewrite (pick n' mu (fun b => kf n' mu b * md n' mu b)). destruct ((mu <=? n')%nat && Nat.even (n' - mu)); [|reflexivity]. unfold pair_of. destruct (Nat.eqb_spec mu 0) as [->|N]; [|reflexivity].
    unfold md. rewrite (mode_0 _ (Nat.even (tri n' + 1)) true). destruct (Nat.even (tri n' + 1)); [reflexivity|]. now rewrite (Hzero (Hmu eq_refl)).
  - intros d _. destruct (Nat.eqb_spec (mdeg n' d) mu) as [->|N]; reflexivity.
Qed.
Lemma steps mu Q : (2 * Q + mu - 1 = n)%nat -> rsum n (fun n' => if ((mu <=? n')%nat && Nat.even (n' - mu)) then pair_of n' mu else 0) = rsum Q (fun k => pair_of (2 * k + mu) mu).
Proof.
  intros H. rewrite <- H, rsum_steps.
  - apply rsum_ext. intros k _. replace (mu <=? 2 * k + mu)%nat with true by (symmetry; apply Nat.leb_le; lia). replace (2 * k + mu - mu)%nat with (2 * k)%nat by lia. rewrite Nat.even_mul. reflexivity.
  - intros n' Hn. destruct (Nat.leb_spec mu n') as [L|L]; [|reflexivity]. cbn [andb]. destruct (Nat.even (n' - mu)) eqn:E; [|reflexivity]. apply Nat.even_spec in E. destruct E as [k Hk]. exfalso. apply (Hn k). lia.
Qed.
Lemma collapse : rsum n (fun n' => rsum (S n') (fun d => kf n' (mdeg n' d) (Nat.even (tri n' + d + 1)) * md n' (mdeg n' d) (Nat.even (tri n' + d + 1)))) =
  (if (m =? 0)%nat then 0 else rsum (S q) (fun k => pair_of (2 * k + (m - 1)) (m - 1))) + rsum q (fun k => pair_of (2 * k + S m) (S m)).
Proof.
  set (F := fun n' d => kf n' (mdeg n' d) (Nat.even (tri n' + d + 1)) * md n' (mdeg n' d) (Nat.even (tri n' + d + 1))).
  assert (B : rsum n (fun n' => rsum (S n') (fun d => if (mdeg n' d =? S m)%nat then F n' d else 0)) = rsum q (fun k => pair_of (2 * k + S m) (S m))).
  { unfold F. rewrite part by discriminate. apply steps. unfold n. lia. }
  destruct (Nat.eqb_spec m 0) as [E|E].
  - rewrite <- B, Rplus_0_l. apply rsum_ext. intros n' _. apply rsum_ext. intros d _. fold (F n' d). destruct (Nat.eqb_spec (mdeg n' d) (S m)) as [G|G]; [reflexivity|]. unfold F. rewrite Hnear; [ring|]. unfold near. destruct (Nat.eqb_spec (mdeg n' d) (S m)); [contradiction|]. destruct (Nat.eqb_spec (S (mdeg n' d)) m); [lia|reflexivity].
  - assert (A : rsum n (fun n' => rsum (S n') (fun d => if (mdeg n' d =? m - 1)%nat then F n' d else 0)) = rsum (S q) (fun k => pair_of (2 * k + (m - 1)) (m - 1))).
    { unfold F. rewrite part by lia. apply steps. unfold n. lia. }
    rewrite <- A, <- B, <- rsum_add. apply rsum_ext. intros n' _. rewrite <- rsum_add. apply rsum_ext. intros d _. fold (F n' d).
    destruct (Nat.eqb_spec (mdeg n' d) (S m)) as [G|G], (Nat.eqb_spec (mdeg n' d) (m - 1)) as [K|K]; [lia|ring|ring|]. unfold F. rewrite Hnear; [ring|]. unfold near. destruct (Nat.eqb_spec (mdeg n' d) (S m)); [contradiction|]. destruct (Nat.eqb_spec (S (mdeg n' d)) m); [lia|reflexivity].
Qed.
End Lower.
Definition zval (j : nat) (x y : R) : R := match zernike (Z.of_nat j) x y with Ok v => v | Err _ => 0 end.
Lemma zval_mode n d x y : (d <= n)%nat -> zval (tri n + d + 1) x y = md x y n (mdeg n d) (Nat.even (tri n + d + 1)).
Proof.
  intros H. destruct (mdeg_range n d H) as [_ [q Hq]]. unfold zval. rewrite (zernike_mode n d q) by assumption. unfold md. f_equal. apply (Nat.div_unique _ _ _ 0); lia.
Qed.
Lemma lower_sum (g : Z -> Z -> R) (k : nat -> nat -> bool -> nat -> nat -> bool -> R) n d x y : (d <= n)%nat ->
  (forall n' d', (d' <= n')%nat -> g (Z.of_nat (tri n + d + 1)) (Z.of_nat (tri n' + d' + 1)) = if (tri n' + d' + 1 <? tri n + d + 1)%nat then k n (mdeg n d) (Nat.even (tri n + d + 1)) n' (mdeg n' d') (Nat.even (tri n' + d' + 1)) else 0) ->
  (forall n' m' e', near (mdeg n d) m' = false -> k n (mdeg n d) (Nat.even (tri n + d + 1)) n' m' e' = 0) ->
  rsum (tri n + d) (fun t => g (Z.of_nat (tri n + d + 1)) (Z.of_nat (t + 1)) * zval (t + 1) x y) =
  rsum n (fun n' => rsum (S n') (fun d' => k n (mdeg n d) (Nat.even (tri n + d + 1)) n' (mdeg n' d') (Nat.even (tri n' + d' + 1)) * md x y n' (mdeg n' d') (Nat.even (tri n' + d' + 1)))).
Proof.
  intros H G N. rewrite rsum_split, rsum_tri. rewrite (rsum_zero d).
  - rewrite Rplus_0_r. apply rsum_ext. intros n' Hn. apply rsum_ext. intros d' Hd. rewrite G, zval_mode by lia.
    assert (T : (tri n' + S n' <= tri n)%nat). { rewrite <- tri_S. clear - Hn. induction n as [|n IH]; [lia|]. rewrite (tri_S n). destruct (Nat.eq_dec n' n) as [->|E]; [rewrite tri_S; lia|]. specialize (IH ltac:(lia)). lia. }
    replace (tri n' + d' + 1 <? tri n + d + 1)%nat with true by (symmetry; apply Nat.ltb_lt; lia). reflexivity.
  - intros s Hs. rewrite G by lia. rewrite N; [destruct (_ <? _)%nat; ring|]. destruct (mdeg_range n d H) as [_ [q Hq]]. destruct (mdeg_range n s ltac:(lia)) as [_ [q' Hq']]. unfold near.
    destruct (Nat.eqb_spec (mdeg n s) (S (mdeg n d))); [lia|]. destruct (Nat.eqb_spec (S (mdeg n s)) (mdeg n d)); [lia|]. reflexivity.
Qed.

(* the sums are the derivatives *)
Lemma fst_csum n f : fst (csum n f) = rsum n (fun k => fst (f k)).
Proof. induction n as [|n IH]; [reflexivity|]. cbn [csum rsum cadd fst]. now rewrite IH. Qed.
Lemma snd_csum n f : snd (csum n f) = rsum n (fun k => snd (f k)).
Proof. induction n as [|n IH]; [reflexivity|]. cbn [csum rsum cadd snd]. now rewrite IH. Qed.
Lemma sq1 a b : 0 <= a -> 0 <= b -> sqrt (a * b) * sqrt 2 * sqrt (2 * b) = 2 * sqrt a * b.
Proof.
  intros A B. rewrite (sqrt_mult a b), (sqrt_mult 2 b) by lra. assert (X := sqrt_sqrt 2 ltac:(lra)). assert (Y := sqrt_sqrt b B).
  transitivity (sqrt a * (sqrt 2 * sqrt 2) * (sqrt b * sqrt b)); [ring|]. rewrite X, Y. ring.
Qed.
Lemma sq2 a b : 0 <= a -> 0 <= b -> sqrt (a * b) * sqrt (2 * b) = sqrt (2 * a) * b.
Proof.
  intros A B. rewrite (sqrt_mult a b), (sqrt_mult 2 b), (sqrt_mult 2 a) by lra. assert (Y := sqrt_sqrt b B).
  transitivity (sqrt a * sqrt 2 * (sqrt b * sqrt b)); [ring|]. rewrite Y. ring.
Qed.
Lemma sq3 a b : 0 <= a -> 0 <= b -> sqrt (a * b) * sqrt 2 * sqrt b = sqrt (2 * a) * b.
Proof.
  intros A B. rewrite (sqrt_mult a b), (sqrt_mult 2 a) by lra. assert (Y := sqrt_sqrt b B).
  transitivity (sqrt a * sqrt 2 * (sqrt b * sqrt b)); [ring|]. rewrite Y. ring.
Qed.
Lemma pos1 n : 0 <= INR n + 1. Proof. assert (H := pos_INR n). lra. Qed.
(* value of the derivative given that of the polynomial of the complex number *)
Definition dmode (q m : nat) (c : bool) (v : cx) : R :=
  match m with O => sqrt (INR (2 * q + m) + 1) * fst v | _ => sqrt (2 * (INR (2 * q + m) + 1)) * (if c then fst v else snd v) end.
Lemma md_step x y k mu b : md x y (2 * k + mu) mu b = mode k mu b x y.
Proof. unfold md. f_equal. symmetry. apply (Nat.div_unique _ _ _ 0); lia. Qed.
Ltac eqbs := repeat match goal with |- context [(?a =? ?b)%nat] => destruct (Nat.eqb_spec a b); [try (exfalso; lia)|try (exfalso; lia)] end; cbn [negb andb orb].
Section Terms.
Variables (x y : R) (q : nat).
Let z : cx := (x, y).
Lemma hi1 a k : 0 <= a -> sqrt (a * (INR (2 * k + 1) + 1)) * sqrt 2 * sqrt (2 * (INR (2 * k + 1) + 1)) = 2 * sqrt a * INR (2 * k + 0 + 2).
Proof. intros A. rewrite sq1 by (exact A || apply pos1). f_equal. replace (2 * k + 0 + 2)%nat with (S (2 * k + 1)) by lia. now rewrite S_INR. Qed.
Lemma lo1 a k : 0 <= a -> sqrt (a * (INR (2 * k + 0) + 1)) * sqrt 2 * sqrt (INR (2 * k + 0) + 1) = sqrt (2 * a) * INR (2 * k + 1).
Proof. intros A. rewrite sq3 by (exact A || apply pos1). f_equal. replace (2 * k + 1)%nat with (S (2 * k + 0)) by lia. now rewrite S_INR. Qed.
Lemma gen a k mu N : 0 <= a -> N = S (2 * k + mu) -> sqrt (a * (INR (2 * k + mu) + 1)) * sqrt (2 * (INR (2 * k + mu) + 1)) = sqrt (2 * a) * INR N.
Proof. intros A ->. rewrite sq2 by (exact A || apply pos1). f_equal. now rewrite S_INR. Qed.
End Terms.
Lemma disk_zero k z : snd (disk k k z) = 0. Proof. apply disk_real. Qed.
(* one term *)
Lemma x_high n m e k x y : pair_of x y (kx n m e) (2 * k + S m) (S m) =
  if (m =? 0)%nat then 2 * sqrt (INR n + 1) * INR (2 * k + m + 2) * fst (disk (k + m + 1) k (x, y))
  else sqrt (2 * (INR n + 1)) * INR (2 * k + m + 2) * (if e then fst (disk (k + m + 1) k (x, y)) else snd (disk (k + m + 1) k (x, y))).
Proof.
  unfold pair_of. rewrite !md_step. unfold mode, kx, near, size. replace (k + S m)%nat with (k + m + 1)%nat by lia. destruct m as [|m].
  - eqbs. rewrite <- (hi1 _ k (pos1 n)). ring.
  - eqbs. rewrite <- (gen _ k (S (S m)) (2 * k + S m + 2) (pos1 n)) by lia. destruct e; cbn [negb andb orb]; ring.
Qed.
Lemma x_low n m e k x y : (1 <= m)%nat -> pair_of x y (kx n m e) (2 * k + (m - 1)) (m - 1) =
  sqrt (2 * (INR n + 1)) * INR (2 * k + m) * (if e then fst (disk (k + m - 1) k (x, y)) else snd (disk (k + m - 1) k (x, y))).
Proof.
  intros H. unfold pair_of. rewrite !md_step. unfold mode, kx, near, size. destruct m as [|[|m]]; [lia| |].
  - replace (1 - 1)%nat with 0%nat by lia. replace (k + 1 - 1)%nat with k by lia. replace (k + 0)%nat with k by lia. rewrite <- (lo1 _ k (pos1 n)). eqbs. destruct e; cbn [negb andb orb]; [ring|]. rewrite disk_zero. ring.
  - replace (S (S m) - 1)%nat with (S m) by lia. replace (k + S (S m) - 1)%nat with (k + S m)%nat by lia. eqbs. rewrite <- (gen _ k (S m) (2 * k + S (S m)) (pos1 n)) by lia. destruct e; cbn [negb andb orb]; ring.
Qed.
Lemma y_high n m e k x y : pair_of x y (ky n m e) (2 * k + S m) (S m) =
  if (m =? 0)%nat then 2 * sqrt (INR n + 1) * INR (2 * k + m + 2) * snd (disk (k + m + 1) k (x, y))
  else sqrt (2 * (INR n + 1)) * INR (2 * k + m + 2) * (if e then snd (disk (k + m + 1) k (x, y)) else - fst (disk (k + m + 1) k (x, y))).
Proof.
  unfold pair_of. rewrite !md_step. unfold mode, ky, near, size. replace (k + S m)%nat with (k + m + 1)%nat by lia. destruct m as [|m].
  - eqbs. rewrite <- (hi1 _ k (pos1 n)). destruct e; cbn [negb andb orb]; ring.
  - eqbs. rewrite <- (gen _ k (S (S m)) (2 * k + S m + 2) (pos1 n)) by lia. destruct e; cbn [negb andb orb]; ring.
Qed.
Lemma y_low n m e k x y : (1 <= m)%nat -> pair_of x y (ky n m e) (2 * k + (m - 1)) (m - 1) =
  sqrt (2 * (INR n + 1)) * INR (2 * k + m) * (if e then - snd (disk (k + m - 1) k (x, y)) else fst (disk (k + m - 1) k (x, y))).
Proof.
  intros H. unfold pair_of. rewrite !md_step. unfold mode, ky, near, size. destruct m as [|[|m]]; [lia| |].
  - replace (1 - 1)%nat with 0%nat by lia. replace (k + 1 - 1)%nat with k by lia. replace (k + 0)%nat with k by lia. rewrite <- (lo1 _ k (pos1 n)). eqbs. destruct e; cbn [negb andb orb]; [|ring]. rewrite disk_zero. ring.
  - replace (S (S m) - 1)%nat with (S m) by lia. replace (k + S (S m) - 1)%nat with (k + S m)%nat by lia. eqbs. rewrite <- (gen _ k (S m) (2 * k + S (S m)) (pos1 n)) by lia. destruct e; cbn [negb andb orb]; ring.
Qed.
Lemma x_total q m e x y : (if (m =? 0)%nat then 0 else rsum (S q) (fun k => pair_of x y (kx (2 * q + m) m e) (2 * k + (m - 1)) (m - 1))) +
  rsum q (fun k => pair_of x y (kx (2 * q + m) m e) (2 * k + S m) (S m)) = dmode q m e (ddx q m (x, y)).
Proof.
  rewrite (rsum_ext q _ _ (fun k _ => x_high (2 * q + m) m e k x y)). unfold dmode, ddx. destruct (Nat.eqb_spec m 0) as [->|N].
  - cbn [cadd conj fst]. unfold high. rewrite fst_csum. cbn [cscale fst]. rewrite Rplus_0_l.
    rewrite (rsum_ext q _ (fun k => (2 * sqrt (INR (2 * q + 0) + 1)) * (INR (2 * k + 0 + 2) * fst (disk (k + 0 + 1) k (x, y))))) by (intros; ring). rewrite rsum_scale. ring.
  - rewrite (rsum_ext (S q) _ _ (fun k _ => x_low (2 * q + m) m e k x y ltac:(lia))). destruct m as [|m]; [lia|]. cbn [cadd fst snd]. unfold high, low. rewrite !fst_csum, !snd_csum. cbn [cscale fst snd].
    destruct e; (rewrite (rsum_ext (S q) _ _ (fun k _ => Rmult_assoc _ _ _)), (rsum_ext q _ _ (fun k _ => Rmult_assoc _ _ _)), !rsum_scale; ring).
Qed.
Lemma y_total q m e x y : (if (m =? 0)%nat then 0 else rsum (S q) (fun k => pair_of x y (ky (2 * q + m) m e) (2 * k + (m - 1)) (m - 1))) +
  rsum q (fun k => pair_of x y (ky (2 * q + m) m e) (2 * k + S m) (S m)) = dmode q m e (ddy q m (x, y)).
Proof.
  rewrite (rsum_ext q _ _ (fun k _ => y_high (2 * q + m) m e k x y)). unfold dmode, ddy. destruct (Nat.eqb_spec m 0) as [->|N].
  - cbn [conj fst snd]. unfold high. rewrite snd_csum. cbn [cscale snd]. rewrite Rplus_0_l.
    rewrite (rsum_ext q _ (fun k => (2 * sqrt (INR (2 * q + 0) + 1)) * (INR (2 * k + 0 + 2) * snd (disk (k + 0 + 1) k (x, y))))) by (intros; ring). rewrite rsum_scale. ring.
  - rewrite (rsum_ext (S q) _ _ (fun k _ => y_low (2 * q + m) m e k x y ltac:(lia))). destruct m as [|m]; [lia|]. cbn [fst snd]. unfold high, low. rewrite !fst_csum, !snd_csum. cbn [cscale fst snd].
    destruct e.
    + rewrite (rsum_ext (S q) _ (fun k => (- sqrt (2 * (INR (2 * q + S m) + 1))) * (INR (2 * k + S m) * snd (disk (k + S m - 1) k (x, y))))) by (intros; ring). rewrite (rsum_ext q _ _ (fun k _ => Rmult_assoc _ _ _)), !rsum_scale. ring.
    + rewrite (rsum_ext q _ (fun k => (- sqrt (2 * (INR (2 * q + S m) + 1))) * (INR (2 * k + S m + 2) * fst (disk (k + S m + 1) k (x, y))))) by (intros; ring). rewrite (rsum_ext (S q) _ _ (fun k _ => Rmult_assoc _ _ _)), !rsum_scale. ring.
Qed.
Lemma mode_dx q m c x y : derivable_pt_lim (fun u => mode q m c u y) x (dmode q m c (ddx q m (x, y))).
Proof.
  destruct (disk_dx q m x y) as [A B]. unfold mode, dmode. destruct m as [|m]; [exact (derivable_pt_lim_scal _ _ _ _ A)|]. destruct c; [exact (derivable_pt_lim_scal _ _ _ _ A)|exact (derivable_pt_lim_scal _ _ _ _ B)].
Qed.
Lemma mode_dy q m c x y : derivable_pt_lim (fun u => mode q m c x u) y (dmode q m c (ddy q m (x, y))).
Proof.
  destruct (disk_dy q m x y) as [A B]. unfold mode, dmode. destruct m as [|m]; [exact (derivable_pt_lim_scal _ _ _ _ A)|]. destruct c; [exact (derivable_pt_lim_scal _ _ _ _ A)|exact (derivable_pt_lim_scal _ _ _ _ B)].
Qed.
Lemma kx_near n m e n' m' e' : near m m' = false -> kx n m e n' m' e' = 0.
Proof. intros H. unfold kx. rewrite H, andb_false_r. reflexivity. Qed.
Lemma ky_near n m e n' m' e' : near m m' = false -> ky n m e n' m' e' = 0.
Proof. intros H. unfold ky. rewrite H, andb_false_r. reflexivity. Qed.
Lemma kx_zero n e n' : kx n 1 e n' 0 true = kx n 1 e n' 0 false. Proof. unfold kx. cbn. reflexivity. Qed.
Lemma ky_zero n e n' : ky n 1 e n' 0 true = ky n 1 e n' 0 false. Proof. unfold ky. cbn. reflexivity. Qed.
Lemma sum_dx n d x y : (d <= n)%nat -> derivable_pt_lim (fun u => zval (tri n + d + 1) u y) x
  (rsum (tri n + d) (fun t => gx (Z.of_nat (tri n + d + 1)) (Z.of_nat (t + 1)) * zval (t + 1) x y)).
Proof.
  intros H. destruct (mdeg_range n d H) as [_ [q Hq]]. rewrite (lower_sum gx kx n d x y H (fun n' d' => gx_nat n d n' d' H)) by (intros; now apply kx_near).
  assert (D := mode_dx q (mdeg n d) (Nat.even (tri n + d + 1)) x y). rewrite <- x_total in D.
  rewrite <- (collapse x y (kx (2 * q + mdeg n d) (mdeg n d) (Nat.even (tri n + d + 1))) q (mdeg n d)) in D; [|intros; now apply kx_near|intros E n'; rewrite E; apply kx_zero].
  rewrite <- Hq in D. revert D. apply deriv_ext. intros u. unfold zval. now rewrite (zernike_mode n d q) by assumption.
Qed.
Lemma sum_dy n d x y : (d <= n)%nat -> derivable_pt_lim (fun u => zval (tri n + d + 1) x u) y
  (rsum (tri n + d) (fun t => gy (Z.of_nat (tri n + d + 1)) (Z.of_nat (t + 1)) * zval (t + 1) x y)).
Proof.
  intros H. destruct (mdeg_range n d H) as [_ [q Hq]]. rewrite (lower_sum gy ky n d x y H (fun n' d' => gy_nat n d n' d' H)) by (intros; now apply ky_near).
  assert (D := mode_dy q (mdeg n d) (Nat.even (tri n + d + 1)) x y). rewrite <- y_total in D.
  rewrite <- (collapse x y (ky (2 * q + mdeg n d) (mdeg n d) (Nat.even (tri n + d + 1))) q (mdeg n d)) in D; [|intros; now apply ky_near|intros E n'; rewrite E; apply ky_zero].
  rewrite <- Hq in D. revert D. apply deriv_ext. intros u. unfold zval. now rewrite (zernike_mode n d q) by assumption.
Qed.
