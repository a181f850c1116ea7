From Coq Require Import Reals List Bool Arith Lia Lra ZArith FinFun.
From Verif Require Import PyBase PyLemmas PupCalModel PupCalSpec.
Import ListNotations.
Local Open Scope R_scope.

Lemma rltb_spec x y : rltb x y = true <-> x < y.
Proof. unfold rltb. destruct (Rlt_dec x y); split; congruence || tauto. Qed.
Lemma rltb_false x y : rltb x y = false <-> y <= x.
Proof. unfold rltb. destruct (Rlt_dec x y); split; try discriminate; try lra; reflexivity. Qed.
Lemma rleb_spec x y : rleb x y = true <-> x <= y.
Proof. unfold rleb. destruct (Rle_dec x y); split; congruence || tauto. Qed.
Lemma rleb_false x y : rleb x y = false <-> y < x.
Proof. unfold rleb. destruct (Rle_dec x y); split; try discriminate; try lra; reflexivity. Qed.
Lemma bool_iff a b : (a = true <-> b = true) -> a = b.
Proof. destruct a, b; intros [H1 H2]; auto; [symmetry; auto]. Qed.
Lemma rltb_scale k x y : 0 < k -> rltb (k * x) (k * y) = rltb x y.
Proof. intros K. apply bool_iff. rewrite !rltb_spec. split; intros H; [now apply Rmult_lt_reg_l with k|now apply Rmult_lt_compat_l]. Qed.
Lemma rleb_scale k x y : 0 < k -> rleb (k * x) (k * y) = rleb x y.
Proof. intros K. apply bool_iff. rewrite !rleb_spec. split; intros H; [now apply Rmult_le_reg_l with k|apply Rmult_le_compat_l; lra]. Qed.
Lemma rsum_scale {X} (f : X -> R) k l : rsum (map (fun x => k * f x) l) = k * rsum (map f l).
Proof. unfold rsum. induction l as [|x l IH]; cbn [fold_right map]; [ring|]. rewrite IH. ring. Qed.
Lemma rmean_scale {X} (f : X -> R) k l : rmean (map (fun x => k * f x) l) = k * rmean (map f l).
Proof. unfold rmean. rewrite !map_length, rsum_scale. unfold Rdiv. ring. Qed.
Lemma rmean_scale_id k l : rmean (map (Rmult k) l) = k * rmean l.
Proof. assert (H := rmean_scale (fun x : R => x) k l). now rewrite map_id in H. Qed.
Lemma rsum_app l l' : rsum (l ++ l') = rsum l + rsum l'.
Proof. unfold rsum. induction l as [|x l IH]; cbn [fold_right app]; [ring|]. rewrite IH. ring. Qed.
Lemma rmin_scale k l : 0 < k -> rmin_l (map (Rmult k) l) = k * rmin_l l.
Proof.
  intros K. destruct l as [|a l]; [cbn [map rmin_l]; ring|]. cbn [map rmin_l]. revert a. induction l as [|b l IH]; intros a; [reflexivity|]. cbn [map fold_left]. rewrite <- IH. f_equal. unfold Rmin.
  assert (B := rleb_scale k a b K). unfold rleb in B. destruct (Rle_dec (k * a) (k * b)), (Rle_dec a b); try discriminate; reflexivity.
Qed.
Lemma rmax_scale k l : 0 < k -> rmax_l (map (Rmult k) l) = k * rmax_l l.
Proof.
  intros K. destruct l as [|a l]; [cbn [map rmax_l]; ring|]. cbn [map rmax_l]. revert a. induction l as [|b l IH]; intros a; [reflexivity|]. cbn [map fold_left]. rewrite <- IH. f_equal. unfold Rmax.
  assert (B := rleb_scale k a b K). unfold rleb in B. destruct (Rle_dec (k * a) (k * b)), (Rle_dec a b); try discriminate; reflexivity.
Qed.
Lemma filter_map_comm {X Y} (f : X -> Y) p l : filter p (map f l) = map f (filter (fun x => p (f x)) l).
Proof. induction l as [|x l IH]; [reflexivity|]. cbn. destruct (p (f x)); cbn; now rewrite IH. Qed.
(* flux *)
Lemma single_scale c dim q k : 0 < k -> single c dim (fun i j => k * q i j) = single c dim q.
Proof.
  intros K. unfold single. set (px := pixels dim dim).
  assert (V : map (fun p => k * q (fst p) (snd p)) px = map (Rmult k) (map (fun p => q (fst p) (snd p)) px)) by (rewrite map_map; reflexivity). rewrite V. set (vs := map (fun p => q (fst p) (snd p)) px).
  rewrite rmin_scale, rmax_scale by exact K. set (s := rmin_l vs + (rmax_l vs - rmin_l vs) * c_thr1 c). replace (k * rmin_l vs + (k * rmax_l vs - k * rmin_l vs) * c_thr1 c) with (k * s) by (unfold s; ring).
  set (th := fun p : nat * nat => if rltb (q (fst p) (snd p)) s then 0 else q (fst p) (snd p)). set (th' := fun p : nat * nat => if rltb (k * q (fst p) (snd p)) (k * s) then 0 else k * q (fst p) (snd p)).
  assert (T : forall p, th' p = k * th p) by (intros p; unfold th', th; rewrite rltb_scale by exact K; destruct (rltb _ _); ring).
  rewrite (map_ext th' (fun p => k * th p) T). assert (P : filter (rltb 0) (map (fun p => k * th p) px) = map (Rmult k) (filter (rltb 0) (map th px))).
  { rewrite <- (map_map th (Rmult k)). rewrite (filter_map_comm (Rmult k)). f_equal. apply filter_ext. intros x. rewrite <- (rltb_scale k 0 x K). now rewrite Rmult_0_r. }
  rewrite P. set (pos := filter (rltb 0) (map th px)). destruct vs as [|v0 vs']; [reflexivity|]. cbn [map].
  assert (M : forall p, (match map (Rmult k) pos with [] => false | _ => rleb (rmean (map (Rmult k) pos) * c_thr2 c) (th' p) end) = match pos with [] => false | _ => rleb (rmean pos * c_thr2 c) (th p) end).
  { intros p. rewrite T, rmean_scale_id, Rmult_assoc, rleb_scale by exact K. now destruct pos. }
  now rewrite (filter_ext _ _ M).
Qed.
Lemma single_ext c dim q q' : (forall i j, (i < dim)%nat -> (j < dim)%nat -> q i j = q' i j) -> single c dim q = single c dim q'.
Proof.
  intros H. assert (I : forall p, In p (pixels dim dim) -> q (fst p) (snd p) = q' (fst p) (snd p)).
  { intros p Hp. unfold pixels in Hp. apply in_flat_map in Hp. destruct Hp as (i & Hi & Hj). apply in_map_iff in Hj. destruct Hj as (j & <- & Hj). apply in_seq in Hi, Hj. apply H; cbn; lia. }
  unfold single. rewrite (map_ext_in _ _ _ I). set (vs := map (fun p => q' (fst p) (snd p)) (pixels dim dim)). set (s := rmin_l vs + (rmax_l vs - rmin_l vs) * c_thr1 c).
  set (th := fun p : nat * nat => if rltb (q (fst p) (snd p)) s then 0 else q (fst p) (snd p)). set (th' := fun p : nat * nat => if rltb (q' (fst p) (snd p)) s then 0 else q' (fst p) (snd p)).
  assert (T : forall p, In p (pixels dim dim) -> th p = th' p) by (intros p Hp; unfold th, th'; now rewrite (I p Hp)). rewrite (map_ext_in _ _ _ T). set (pos := filter (rltb 0) (map th' (pixels dim dim))). destruct vs; [reflexivity|].
  assert (F : filter (fun p => match pos with [] => false | _ => rleb (rmean pos * c_thr2 c) (th p) end) (pixels dim dim) = filter (fun p => match pos with [] => false | _ => rleb (rmean pos * c_thr2 c) (th' p) end) (pixels dim dim)) by (apply filter_ext_in; intros p Hp; now rewrite (T p Hp)).
  unfold th, th' in F. rewrite F. reflexivity.
Qed.
Lemma pixels_in rows cols p : In p (pixels rows cols) <-> (fst p < rows)%nat /\ (snd p < cols)%nat.
Proof.
  unfold pixels. rewrite in_flat_map. split.
  - intros (i & I & J). apply in_map_iff in J. destruct J as (j & <- & J). apply in_seq in I, J. cbn. lia.
  - intros [I J]. exists (fst p). split; [apply in_seq; lia|]. apply in_map_iff. exists (snd p). split; [now destruct p|apply in_seq; lia].
Qed.
Lemma map_res_ext {X Y} (f g : X -> res Y) l : (forall x, In x l -> f x = g x) -> map_res f l = map_res g l.
Proof. induction l as [|x l IH]; intros H; [reflexivity|]. cbn. rewrite (H x (or_introl eq_refl)). rewrite IH by (intros; apply H; now right). reflexivity. Qed.

(* binary images *)
Lemma rsum_const {X} (c : R) (l : list X) : rsum (map (fun _ => c) l) = INR (length l) * c.
Proof. induction l as [|x l IH]; [cbn; ring|]. cbn [map rsum fold_right length]. unfold rsum in IH. rewrite IH, S_INR. ring. Qed.
Lemma fold_min_01 (l : list R) : forall a, (a = 0 \/ a = 1) -> (forall x, In x l -> x = 0 \/ x = 1) -> fold_left Rmin l a = 0 /\ (a = 0 \/ In 0 l) \/ fold_left Rmin l a = 1 /\ a = 1 /\ (forall x, In x l -> x = 1).
Proof.
  induction l as [|b l IH]; intros a A H; [cbn; destruct A; [left|right]; repeat split; auto; intros ? []|]. cbn [fold_left]. assert (B := H b (or_introl eq_refl)). assert (M : Rmin a b = 0 /\ (a = 0 \/ b = 0) \/ Rmin a b = 1 /\ a = 1 /\ b = 1).
  { unfold Rmin. destruct (Rle_dec a b), A, B; subst; auto; exfalso; lra. }
  destruct (IH (Rmin a b)) as [[E F]|(E & F & G)]; [tauto|intros; apply H; now right| |].
  - left. split; [exact E|]. destruct F as [F|F]; [|right; now right]. destruct M as [[_ [->| ->]]|(M & _)]; [now left|right; now left|lra].
  - right. split; [exact E|]. destruct M as [[M _]|(_ & -> & ->)]; [lra|]. split; [reflexivity|]. intros x [<-|Hx]; auto.
Qed.
Lemma fold_max_01 (l : list R) : forall a, (a = 0 \/ a = 1) -> (forall x, In x l -> x = 0 \/ x = 1) -> fold_left Rmax l a = 1 /\ (a = 1 \/ In 1 l) \/ fold_left Rmax l a = 0 /\ a = 0 /\ (forall x, In x l -> x = 0).
Proof.
  induction l as [|b l IH]; intros a A H; [cbn; destruct A; [right|left]; repeat split; auto; intros ? []|]. cbn [fold_left]. assert (B := H b (or_introl eq_refl)). assert (M : Rmax a b = 1 /\ (a = 1 \/ b = 1) \/ Rmax a b = 0 /\ a = 0 /\ b = 0).
  { unfold Rmax. destruct (Rle_dec a b), A, B; subst; auto; exfalso; lra. }
  destruct (IH (Rmax a b)) as [[E F]|(E & F & G)]; [tauto|intros; apply H; now right| |].
  - left. split; [exact E|]. destruct F as [F|F]; [|right; now right]. destruct M as [[_ [->| ->]]|(M & _)]; [now left|right; now left|lra].
  - right. split; [exact E|]. destruct M as [[M _]|(_ & -> & ->)]; [lra|]. split; [reflexivity|]. intros x [<-|Hx]; auto.
Qed.
Definition binary (b : nat -> nat -> bool) : image := fun i j => if b i j then 1 else 0.
Definition lit_of (dim : nat) (b : nat -> nat -> bool) : list (nat * nat) := filter (fun p => b (fst p) (snd p)) (pixels dim dim).
Lemma single_binary c dim b : 0 < c_thr1 c <= 1 -> 0 < c_thr2 c <= 1 -> (0 < dim)%nat ->
  single c dim (binary b) = Ok (match lit_of dim b with [] => mkPup 0 0 0 | l => mkPup (rmean (map (fun p => INR (snd p)) l)) (rmean (map (fun p => INR (fst p)) l)) (sqrt (INR (length l) / PI)) end).
Proof.
  intros T1 T2 D. unfold single. set (px := pixels dim dim). set (vs := map (fun p => binary b (fst p) (snd p)) px).
  assert (B01 : forall x, In x vs -> x = 0 \/ x = 1) by (intros x Hx; unfold vs in Hx; apply in_map_iff in Hx; destruct Hx as (p & <- & _); unfold binary; destruct (b _ _); auto).
  assert (N : vs <> []). { unfold vs. intros E. apply map_eq_nil in E. assert (I : In (0%nat, 0%nat) px) by (apply pixels_in; cbn; lia). rewrite E in I. destruct I. }
  set (s := rmin_l vs + (rmax_l vs - rmin_l vs) * c_thr1 c).
  assert (S : (0 < s <= 1) \/ (s = 0 /\ forall x, In x vs -> x = 0)).
  { unfold s. destruct vs as [|a l]; [now destruct N|]. cbn [rmin_l rmax_l]. assert (A := B01 a (or_introl eq_refl)). assert (L : forall x, In x l -> x = 0 \/ x = 1) by (intros; apply B01; now right).
    destruct (fold_min_01 l a A L) as [[E _]|(E & E1 & E2)], (fold_max_01 l a A L) as [[F _]|(F & F1 & F2)]; rewrite E, F; try (left; lra). right. split; [ring|]. intros x [<-|Hx]; auto. }
  set (th := fun p : nat * nat => if rltb (binary b (fst p) (snd p)) s then 0 else binary b (fst p) (snd p)).
  assert (T : forall p, th p = binary b (fst p) (snd p)).
  { intros p. unfold th. destruct (rltb _ s) eqn:E; [|reflexivity]. apply rltb_spec in E. unfold binary in *. destruct (b _ _); [|reflexivity]. exfalso. destruct S as [S|[S _]]; lra. }
  rewrite (map_ext _ _ T). fold vs.
  assert (P : filter (rltb 0) vs = map (fun _ => 1) (lit_of dim b)).
  { unfold vs, lit_of. fold px. rewrite filter_map_comm. rewrite (filter_ext _ (fun p => b (fst p) (snd p))).
    - apply map_ext_in. intros p Hp. apply filter_In in Hp. unfold binary. destruct Hp as [_ ->]. reflexivity.
    - intros p. unfold binary. destruct (b _ _); unfold rltb; destruct (Rlt_dec 0 _); lra || reflexivity. }
  rewrite P. set (lit := lit_of dim b). destruct vs; [now destruct N|].
  assert (M : forall p, (match map (fun _ => 1) lit with [] => false | _ => rleb (rmean (map (fun _ => 1) lit) * c_thr2 c) (th p) end) = (match lit with [] => false | _ => b (fst p) (snd p) end)).
  { intros p. destruct lit as [|x0 l0] eqn:E; [reflexivity|]. rewrite <- E. assert (ME : rmean (map (fun _ : nat * nat => 1) lit) = 1). { unfold rmean. rewrite rsum_const, map_length. field. apply not_0_INR. rewrite E. discriminate. }
    rewrite ME, T. rewrite E. cbn [map]. unfold binary. destruct (b _ _); unfold rleb; destruct (Rle_dec _ _); lra || reflexivity. }
  rewrite (filter_ext _ _ M). destruct lit as [|x0 l0] eqn:E.
  - replace (filter (fun _ => false) px) with (@nil (nat * nat)); [reflexivity|]. clear. induction px; [reflexivity|assumption].
  - fold (lit_of dim b). change (filter (fun p => b (fst p) (snd p)) px) with (lit_of dim b). fold lit. rewrite E. reflexivity.
Qed.

(* distances *)
Lemma sq_nonneg a b : 0 <= a ^ 2 + b ^ 2.
Proof. assert (A := pow2_ge_0 a). assert (B := pow2_ge_0 b). lra. Qed.
Lemma le_sqrt r s : 0 <= r -> 0 <= s -> r <= sqrt s <-> r * r <= s.
Proof.
  intros Hr Hs. split; intros H.
  - rewrite <- (sqrt_sqrt s Hs). apply Rmult_le_compat; assumption.
  - rewrite <- (sqrt_square r Hr). apply sqrt_le_1_alt. exact H.
Qed.
Lemma sqrt_le r s : 0 <= r -> 0 <= s -> sqrt s <= r <-> s <= r * r.
Proof.
  intros Hr Hs. split; intros H.
  - rewrite <- (sqrt_sqrt s Hs). apply Rmult_le_compat; try apply sqrt_pos; assumption.
  - rewrite <- (sqrt_square r Hr). apply sqrt_le_1_alt. exact H.
Qed.
Lemma in_disc_annulus p radius ratio x : 0 <= radius -> in_disc p radius ratio x = true <-> annulus (p_x p) (p_y p) (if rltb 0 ratio then radius * ratio else 0) radius x.
Proof.
  intros Hr. unfold in_disc, annulus. rewrite andb_true_iff, rleb_spec. unfold distance. rewrite sqrt_le by (try apply sq_nonneg; exact Hr). assert (E : (INR (snd x) - p_x p) ^ 2 + (INR (fst x) - p_y p) ^ 2 = (INR (snd x) - p_x p) * (INR (snd x) - p_x p) + (INR (fst x) - p_y p) * (INR (fst x) - p_y p)) by ring.
  destruct (rltb 0 ratio) eqn:Q.
  - apply rltb_spec in Q. rewrite rleb_spec, le_sqrt by (try apply sq_nonneg; apply Rmult_le_pos; lra). rewrite E. tauto.
  - rewrite E. assert (S := sq_nonneg (INR (snd x) - p_x p) (INR (fst x) - p_y p)). rewrite E in S. rewrite Rmult_0_l. tauto.
Qed.

(* extremes and means *)
Lemma fold_max_ge (l : list R) : forall a, a <= fold_left Rmax l a /\ forall x, In x l -> x <= fold_left Rmax l a.
Proof.
  induction l as [|b l IH]; intros a; cbn [fold_left]; [split; [lra|intros x []]|]. destruct (IH (Rmax a b)) as [H1 H2]. assert (M1 := Rmax_l a b). assert (M2 := Rmax_r a b). split; [lra|]. intros x [<-|Hx]; [lra|auto].
Qed.
Lemma fold_max_in (l : list R) : forall a, fold_left Rmax l a = a \/ In (fold_left Rmax l a) l.
Proof.
  induction l as [|b l IH]; intros a; cbn [fold_left]; [now left|]. destruct (IH (Rmax a b)) as [E|I]; [|right; now right]. rewrite E. unfold Rmax. destruct (Rle_dec a b); [right; now left|now left].
Qed.
Lemma rmax_ge l x : In x l -> x <= rmax_l l.
Proof. destruct l as [|a l]; [intros []|]. cbn [rmax_l]. destruct (fold_max_ge l a) as [H1 H2]. intros [<-|H]; auto. Qed.
Lemma rmax_in l : l <> [] -> In (rmax_l l) l.
Proof. destruct l as [|a l]; [congruence|]. intros _. cbn [rmax_l]. destruct (fold_max_in l a) as [E|I]; [left; now rewrite E|now right]. Qed.
Lemma fold_min_le (l : list R) : forall a, fold_left Rmin l a <= a.
Proof. induction l as [|b l IH]; intros a; cbn [fold_left]; [lra|]. assert (H := IH (Rmin a b)). assert (M := Rmin_l a b). lra. Qed.
Lemma rmin_le_max l : rmin_l l <= rmax_l l.
Proof. destruct l as [|a l]; cbn [rmin_l rmax_l]; [lra|]. destruct (fold_max_ge l a) as [H _]. assert (M := fold_min_le l a). lra. Qed.
Lemma rsum_between l a b : (forall x, In x l -> a <= x <= b) -> INR (length l) * a <= rsum l <= INR (length l) * b.
Proof.
  induction l as [|x l IH]; intros H; [cbn; lra|]. cbn [length]. rewrite S_INR. change (rsum (x :: l)) with (x + rsum l). assert (X := H x (or_introl eq_refl)). destruct IH; [intros; apply H; now right|]. lra.
Qed.
Lemma rmean_between l a b : l <> [] -> (forall x, In x l -> a <= x <= b) -> a <= rmean l <= b.
Proof.
  intros N H. assert (B := rsum_between l a b H). assert (P : 0 < INR (length l)) by (apply lt_0_INR; destruct l; [congruence|cbn; lia]). unfold rmean.
  assert (E : INR (length l) * (rsum l / INR (length l)) = rsum l) by (field; lra). split; apply Rmult_le_reg_l with (INR (length l)); lra.
Qed.

(* one quadrant *)
Definition lit_set (c : settings) (dim : nat) (q : image) (lit : list (nat * nat)) (p : pupil) : Prop :=
  incl lit (pixels dim dim) /\ NoDup lit /\
  p = match lit with [] => mkPup 0 0 0 | _ => mkPup (rmean (map (fun p => INR (snd p)) lit)) (rmean (map (fun p => INR (fst p)) lit)) (sqrt (INR (length lit) / PI)) end.
Lemma NoDup_app_intro {X} (l l' : list X) : NoDup l -> NoDup l' -> (forall x, In x l -> ~ In x l') -> NoDup (l ++ l').
Proof.
  induction l as [|x l IH]; intros A B D; [exact B|]. inversion_clear A as [|? ? Nx Nl]. cbn. constructor; [|apply IH; auto; intros y Y; apply D; now right]. rewrite in_app_iff. intros [H|H]; [easy|]. exact (D x (or_introl eq_refl) H).
Qed.
Lemma pixels_nodup rows cols : NoDup (pixels rows cols).
Proof.
  unfold pixels. assert (G : forall l : list nat, NoDup l -> NoDup (flat_map (fun i => map (fun j => (i, j)) (seq 0 cols)) l)); [|apply G, seq_NoDup].
  induction l as [|i l IH]; intros N; [constructor|]. inversion_clear N as [|? ? Ni Nl]. cbn [flat_map]. apply NoDup_app_intro; [|now apply IH|].
  - apply Injective_map_NoDup; [intros a b E; congruence|apply seq_NoDup].
  - intros x X Y. apply in_map_iff in X. destruct X as (j & <- & _). apply in_flat_map in Y. destruct Y as (i' & I' & Y). apply in_map_iff in Y. destruct Y as (j' & E & _). apply Ni. congruence.
Qed.
Lemma single_cases c dim q p : single c dim q = Ok p -> exists lit, lit_set c dim q lit p.
Proof.
  unfold single. destruct (map _ _); [discriminate|]. cbv zeta. match goal with |- context [filter ?f (pixels dim dim)] => set (lit := filter f (pixels dim dim)) end.
  intros H. exists lit. repeat split; [apply incl_filter|apply NoDup_filter, pixels_nodup|]. destruct lit; congruence.
Qed.
Lemma single_ok c dim q : (0 < dim)%nat -> exists p, single c dim q = Ok p.
Proof.
  intros D. unfold single. destruct (map _ _) eqn:E; cbv zeta.
  - apply map_eq_nil in E. assert (I : In (0%nat, 0%nat) (pixels dim dim)) by (apply pixels_in; cbn; lia). rewrite E in I. destruct I.
  - match goal with |- context [filter ?f (pixels dim dim)] => destruct (filter f (pixels dim dim)) end; now eexists.
Qed.
Lemma radius_pos (lit : list (nat * nat)) : lit <> [] -> 0 < sqrt (INR (length lit) / PI).
Proof. intros N. apply sqrt_lt_R0. apply Rdiv_lt_0_compat; [apply lt_0_INR; destruct lit; [congruence|cbn; lia]|exact PI_RGT_0]. Qed.
Lemma single_lit c dim q p : single c dim q = Ok p -> c_thr1 c <= 1 -> c_thr2 c <= 1 -> 0 < p_r p <-> exists i j, (i < dim)%nat /\ (j < dim)%nat /\ 0 < q i j.
Proof.
  intros H T1 T2. unfold single in H. set (px := pixels dim dim) in *. set (vs := map (fun p => q (fst p) (snd p)) px) in *. cbv zeta in H.
  set (s := rmin_l vs + (rmax_l vs - rmin_l vs) * c_thr1 c) in *.
  set (th := fun p : nat * nat => if rltb (q (fst p) (snd p)) s then 0 else q (fst p) (snd p)) in *.
  set (pos := filter (rltb 0) (map th px)) in *.
  set (mask := fun p : nat * nat => match pos with [] => false | _ => rleb (rmean pos * c_thr2 c) (th p) end).
  assert (H' : match vs with [] => Err ValueError | _ => match filter mask px with [] => Ok (mkPup 0 0 0) | l => Ok (mkPup (rmean (map (fun p => INR (snd p)) l)) (rmean (map (fun p => INR (fst p)) l)) (sqrt (INR (length l) / PI))) end end = Ok p).
  { destruct vs; [exact H|]. match type of H with context [filter ?f px] => change f with mask in H end. destruct (filter mask px); exact H. }
  clear H. assert (N : vs <> []) by (destruct vs; congruence).
  assert (H : p = match filter mask px with [] => mkPup 0 0 0 | l => mkPup (rmean (map (fun p => INR (snd p)) l)) (rmean (map (fun p => INR (fst p)) l)) (sqrt (INR (length l) / PI)) end) by (destruct vs; [congruence|]; destruct (filter mask px); congruence). clear H'.
  split.
  - intros R. destruct (filter mask px) as [|x0 l0] eqn:E; [subst p; cbn in R; lra|]. assert (I : In x0 (filter mask px)) by (rewrite E; now left). apply filter_In in I. destruct I as [_ M]. unfold mask in M. destruct pos as [|v l] eqn:Ep; [discriminate|].
    assert (V : In v pos) by (rewrite Ep; now left). unfold pos in V. apply filter_In in V. destruct V as [V V0]. apply rltb_spec in V0. apply in_map_iff in V. destruct V as (y & <- & Y). apply pixels_in in Y. exists (fst y), (snd y). split; [apply Y|]. split; [apply Y|]. unfold th in V0. destruct (rltb _ _); lra.
  - intros (i & j & I & J & Q). assert (HI : In (q i j) vs) by (unfold vs; apply in_map_iff; exists (i, j); split; [reflexivity|apply pixels_in; cbn; lia]).
    assert (Hm := rmax_ge vs _ HI). assert (Hin := rmax_in vs N). unfold vs in Hin at 2. apply in_map_iff in Hin. destruct Hin as (y & Ey & Iy). assert (ML := rmin_le_max vs).
    assert (S : s <= rmax_l vs). { unfold s. assert (A : (rmax_l vs - rmin_l vs) * c_thr1 c <= (rmax_l vs - rmin_l vs) * 1) by (apply Rmult_le_compat_l; lra). lra. }
    assert (Ty : th y = rmax_l vs). { unfold th. rewrite Ey. replace (rltb (rmax_l vs) s) with false by (symmetry; apply rltb_false; lra). reflexivity. }
    assert (Py : In (rmax_l vs) pos). { unfold pos. apply filter_In. split; [|apply rltb_spec; lra]. rewrite <- Ty. now apply in_map. }
    assert (Pn : pos <> []) by (destruct pos; [destruct Py|congruence]).
    assert (B : 0 <= rmean pos <= rmax_l vs). { apply rmean_between; [exact Pn|]. intros x X. unfold pos in X. apply filter_In in X. destruct X as [X X0]. apply rltb_spec in X0. split; [lra|]. apply in_map_iff in X. destruct X as (z & Ez & Iz). unfold th in Ez. assert (Z : In (q (fst z) (snd z)) vs) by (unfold vs; apply in_map_iff; now exists z). assert (Zm := rmax_ge vs _ Z). destruct (rltb _ _); lra. }
    assert (My : In y (filter mask px)). { apply filter_In. split; [exact Iy|]. unfold mask. destruct pos eqn:Ep; [congruence|]. rewrite <- Ep in *. apply rleb_spec. rewrite Ty. assert (A : rmean pos * c_thr2 c <= rmean pos * 1) by (apply Rmult_le_compat_l; lra). lra. }
    rewrite H. destruct (filter mask px) as [|x0 l0] eqn:E; [destruct My|]. rewrite <- E. cbn [p_r]. apply radius_pos. rewrite E. discriminate.
Qed.
(* centre within the square; a pixel is near the centre *)
Lemma single_centre c dim q p : single c dim q = Ok p -> 0 <= p_x p <= INR (dim - 1) /\ 0 <= p_y p <= INR (dim - 1).
Proof.
  intros H. destruct (single_cases c dim q p H) as (lit & I & _ & ->). assert (P := pos_INR (dim - 1)). destruct lit as [|x0 l0]; [cbn [p_x p_y]; lra|]. set (l := x0 :: l0) in *. cbn [p_x p_y].
  split; apply rmean_between; try (unfold l; discriminate); intros v V; apply in_map_iff in V; destruct V as (y & <- & Y); apply I, pixels_in in Y; (split; [apply pos_INR|apply le_INR; lia]).
Qed.
Lemma PI_le_4 : PI <= 4.
Proof. exact PI_4. Qed.
Lemma PI_gt_3 : 3 < PI.
Proof. assert (H := PI2_3_2). lra. Qed.
Lemma single_radius c dim q p : single c dim q = Ok p -> 0 < p_r p -> 1 / PI <= p_r p * p_r p /\ (1 / 2 <= p_r p * p_r p \/ exists a b, p_x p = INR a /\ p_y p = INR b).
Proof.
  intros H R. destruct (single_cases c dim q p H) as (lit & I & _ & ->). destruct lit as [|x0 l0]; [cbn in R; lra|]. set (l := x0 :: l0) in *. cbn [p_x p_y p_r] in *. clear R.
  assert (P := PI_RGT_0). assert (P4 := PI_le_4). rewrite sqrt_sqrt by (apply Rlt_le, Rdiv_lt_0_compat; [apply lt_0_INR; unfold l; cbn; lia|exact P]).
  assert (PI1 : / 4 <= / PI) by (apply Rinv_le_contravar; lra). unfold Rdiv. destruct l0 as [|x1 l1].
  - split; [unfold l; cbn [length INR]; lra|]. right. exists (snd x0), (fst x0). unfold l, rmean. cbn. split; field.
  - assert (L2 : 2 <= INR (length l)) by (unfold l; cbn [length]; rewrite !S_INR; assert (Q := pos_INR (length l1)); lra). assert (M : 2 * / PI <= INR (length l) * / PI) by (apply Rmult_le_compat_r; lra). split; [lra|left; lra].
Qed.

(* rounding *)
Lemma round_even_near x : - (1 / 2) <= IZR (round_even x) - x <= 1 / 2.
Proof.
  unfold round_even. destruct (base_Int_part x) as [A B]. destruct (rltb (x - IZR (Int_part x)) (1 / 2)) eqn:E; [apply rltb_spec in E; lra|]. apply rltb_false in E.
  destruct (rltb (1 / 2) (x - IZR (Int_part x))) eqn:F; [rewrite plus_IZR; lra|]. apply rltb_false in F. destruct (Z.even _); [|rewrite plus_IZR]; lra.
Qed.
Lemma round_even_IZR z : round_even (IZR z) = z.
Proof.
  assert (H := round_even_near (IZR z)). rewrite <- minus_IZR in H. assert (A : (-1 < round_even (IZR z) - z)%Z) by (apply lt_IZR; lra). assert (B : (round_even (IZR z) - z < 1)%Z) by (apply lt_IZR; lra). lia.
Qed.
(* an integer near r whose translation is near p *)
Lemma near_both (m n : Z) (r p : R) (s : Z) : (0 <= m <= n)%Z -> 0 <= r <= IZR m -> 0 <= p <= IZR n -> - (1 / 2) <= IZR s - (p - r) <= 1 / 2 ->
  exists i, (0 <= i <= m)%Z /\ (0 <= i + s <= n)%Z /\ - (1 / 2) <= IZR i - r <= 1 / 2 /\ (forall z, r = IZR z -> i = z).
Proof.
  intros M Hr Hp Hs. destruct (base_Int_part r) as [A B]. set (f := Int_part r) in *.
  assert (F0 : (0 <= f)%Z) by (assert (-1 < f)%Z by (apply lt_IZR; lra); lia). assert (Fm : (f <= m)%Z) by (apply le_IZR; lra).
  assert (G : forall i, - (1 / 2) <= IZR i - r <= 1 / 2 -> - (1 / 2) < IZR i - r \/ - (1 / 2) < IZR s - (p - r) -> (0 <= i + s)%Z).
  { intros i Hi D. assert (-1 < i + s)%Z; [|lia]. apply lt_IZR. rewrite plus_IZR. destruct D; lra. }
  assert (G' : forall i, - (1 / 2) <= IZR i - r <= 1 / 2 -> IZR i - r < 1 / 2 \/ IZR s - (p - r) < 1 / 2 -> (i + s <= n)%Z).
  { intros i Hi D. assert (i + s < n + 1)%Z; [|lia]. apply lt_IZR. rewrite !plus_IZR. destruct D; lra. }
  destruct (Rtotal_order (r - IZR f) (1 / 2)) as [L|[E|L]].
  - exists f. split; [lia|]. split; [split; [apply G|apply G']; lra|]. split; [lra|]. intros z ->. assert (f < z + 1)%Z by (apply lt_IZR; rewrite plus_IZR; lra). assert (z < f + 1)%Z by (apply lt_IZR; rewrite plus_IZR; lra). lia.
  - assert (Fm' : (f + 1 <= m)%Z) by (assert (f < m)%Z by (apply lt_IZR; lra); lia). destruct (Rlt_dec (- (1 / 2)) (IZR s - (p - r))) as [D|D].
    + exists f. split; [lia|]. split; [split; [apply G|apply G']; lra|]. split; [lra|]. intros z ->. exfalso. assert (0 < z - f)%Z by (apply lt_IZR; rewrite minus_IZR; lra). assert (z - f < 1)%Z by (apply lt_IZR; rewrite minus_IZR; lra). lia.
    + exists (f + 1)%Z. assert (E1 : IZR (f + 1) = IZR f + 1) by apply plus_IZR. split; [lia|]. split; [split; [apply G|apply G']; lra|]. split; [lra|]. intros z ->. exfalso. assert (0 < z - f)%Z by (apply lt_IZR; rewrite minus_IZR; lra). assert (z - f < 1)%Z by (apply lt_IZR; rewrite minus_IZR; lra). lia.
  - assert (E1 : IZR (f + 1) = IZR f + 1) by apply plus_IZR. assert (Fm' : (f + 1 <= m)%Z) by (assert (f < m)%Z by (apply lt_IZR; lra); lia). exists (f + 1)%Z. split; [lia|]. split; [split; [apply G|apply G']; lra|]. split; [lra|]. intros z ->. exfalso. assert (0 < z - f)%Z by (apply lt_IZR; rewrite minus_IZR; lra). assert (z - f < 1)%Z by (apply lt_IZR; rewrite minus_IZR; lra). lia.
Qed.

(* rows and columns *)
Definition rows_of (n : nat) (cols : list (list Z)) : list (list Z) := map (fun r => map (fun col => nth r col (-1)%Z) cols) (seq 0 n).
Lemma filter_id {X} (f : X -> bool) l : (forall x, In x l -> f x = true) -> filter f l = l.
Proof. induction l as [|x l IH]; intros H; [reflexivity|]. cbn. rewrite (H x (or_introl eq_refl)), IH; [reflexivity|]. intros; apply H; now right. Qed.
Lemma rows_kept n cols col : In col cols -> (forall r, (r < n)%nat -> nth r col (-1)%Z <> (-1)%Z) -> filter (existsb (fun z => negb (z =? -1)%Z)) (rows_of n cols) = rows_of n cols.
Proof.
  intros C H. apply filter_id. intros x X. unfold rows_of in X. apply in_map_iff in X. destruct X as (r & <- & R). apply in_seq in R. apply existsb_exists. exists (nth r col (-1)%Z). split; [apply in_map_iff; now exists col|]. apply negb_true_iff, Z.eqb_neq, H. lia.
Qed.
Lemma column_rows n cols i : (i < length cols)%nat -> length (nth i cols []) = n -> map (fun row => nth i row (-1)%Z) (rows_of n cols) = nth i cols [].
Proof.
  intros I L. unfold rows_of. rewrite map_map. apply nth_ext with (d := (-1)%Z) (d' := (-1)%Z); [now rewrite map_length, seq_length|]. intros r R. rewrite map_length, seq_length in R.
  rewrite (nth_indep _ _ (nth i (map (fun col => nth 0 col (-1)%Z) cols) (-1)%Z)) by (rewrite map_length, seq_length; exact R). rewrite (map_nth (fun r => nth i (map (fun col => nth r col (-1)%Z) cols) (-1)%Z)). rewrite seq_nth by exact R. cbn [plus].
  rewrite (nth_indep _ _ (nth r [] (-1)%Z)) by (rewrite map_length; exact I). now rewrite (map_nth (fun col => nth r col (-1)%Z)).
Qed.
