From Coq Require Import String Reals List Bool Arith ZArith Lia Lra.
From Verif Require Import PyBase PyLemmas CubeModel Properties_Cube RandPhaseModel RandPhaseSpec.
Import ListNotations.
Local Open Scope nat_scope.

(* the sequence of seeds and squares *)
Section Sequence.
Variables (K u : nat) (s0 : Z).
Hypotheses (K0 : K <> 0) (u0 : u <> 0).
Definition last_at (n : nat) : nat := match n / u with 0 => 0 | S q => S (q mod K) end.
Definition seed_at (n : nat) : Z :=
  match (n / u)%nat with 0%nat => s0 | S q => (s0 + Z.of_nat (q / K * u) + (if (S (q mod K) =? K)%nat then Z.of_nat (n mod u) else 0))%Z end.
(* what is shown *)
Definition shown_square (n : nat) : nat := square_of n K u.
Definition shown_seed (n : nat) : Z :=
  match round_of n K u with
  | 0%nat => s0
  | S r => if (square_of n K u =? 0)%nat then (s0 + Z.of_nat (r * u + n mod u + 1))%Z else (s0 + Z.of_nat (S r * u))%Z
  end.
Lemma succ_mod q : (S (q mod K) = K /\ S q mod K = 0 /\ S q / K = S (q / K)) \/ (S (q mod K) < K /\ S q mod K = S (q mod K) /\ S q / K = q / K).
Proof.
  pose proof (Nat.div_mod q K K0) as D. pose proof (Nat.mod_upper_bound q K K0) as M.
  destruct (Nat.eq_dec (S (q mod K)) K) as [E|E]; [left | right].
  - split; [exact E|]. assert (X : S q = K * S (q / K) + 0) by nia. split; symmetry; [eapply Nat.mod_unique | eapply Nat.div_unique]; try exact X; lia.
  - split; [lia|]. assert (X : S q = K * (q / K) + S (q mod K)) by lia. split; symmetry; [eapply Nat.mod_unique | eapply Nat.div_unique]; try exact X; lia.
Qed.
Lemma prepared n : (if K <=? last_at n then ((seed_at n + 1)%Z, 0) else (seed_at n, last_at n)) = (shown_seed n, shown_square n).
Proof.
  unfold last_at, seed_at, shown_seed, shown_square, round_of, square_of. destruct (n / u) as [|q].
  - rewrite Nat.div_0_l, Nat.mod_0_l by exact K0. destruct (Nat.leb_spec K 0); [lia | reflexivity].
  - destruct (succ_mod q) as [(A & B & C) | (A & B & C)]; rewrite B, C.
    + rewrite A, Nat.leb_refl, !Nat.eqb_refl. f_equal. lia.
    + destruct (Nat.leb_spec K (S (q mod K))); [lia|]. destruct (Nat.eqb_spec (S (q mod K)) K); [lia|]. rewrite Z.add_0_r.
      destruct (q / K); cbn [Nat.eqb]; f_equal. lia.
Qed.
Lemma next n : (if Z.of_nat (S n) mod Z.of_nat u =? 0 then S (shown_square n) else last_at n)%Z = last_at (S n) /\ seed_at (S n) = shown_seed n.
Proof.
  pose proof (Nat.div_mod n u u0) as D. pose proof (Nat.mod_upper_bound n u u0) as M. rewrite <- Nat2Z.inj_mod.
  unfold last_at, seed_at, shown_seed, shown_square, round_of, square_of.
  destruct (Nat.eq_dec (S (n mod u)) u) as [E|E].
  - assert (X : S n = u * S (n / u) + 0) by nia.
    assert (A : S n / u = S (n / u)) by (symmetry; eapply Nat.div_unique; [|exact X]; lia).
    assert (B : S n mod u = 0) by (symmetry; eapply Nat.mod_unique; [|exact X]; lia).
    rewrite A, B. cbn [Z.of_nat Z.eqb]. split; [reflexivity|].
    destruct (n / u) as [|q].
    + rewrite Nat.div_0_l, Nat.mod_0_l by exact K0. destruct (1 =? K); lia.
    + destruct (succ_mod q) as [(A' & B' & C') | (A' & B' & C')]; rewrite B', C'.
      * rewrite Nat.eqb_refl. set (x := q / K). set (r := n mod u) in *. clearbody x r. clear - E. destruct (1 =? K)%nat; nia.
      * destruct (Nat.eqb_spec (S (S (q mod K))) K); destruct (q / K); cbn [Nat.eqb]; lia.
  - assert (X : S n = u * (n / u) + S (n mod u)) by lia.
    assert (A : S n / u = n / u) by (symmetry; eapply Nat.div_unique; [|exact X]; lia).
    assert (B : S n mod u = S (n mod u)) by (symmetry; eapply Nat.mod_unique; [|exact X]; lia).
    rewrite A, B. split; [destruct (Z.eqb_spec (Z.of_nat (S (n mod u))) 0); [lia | reflexivity]|].
    destruct (n / u) as [|q].
    + rewrite Nat.div_0_l by exact K0. reflexivity.
    + destruct (succ_mod q) as [(A' & B' & C') | (A' & B' & C')]; rewrite B', C'.
      * rewrite A', !Nat.eqb_refl. lia.
      * destruct (Nat.eqb_spec (S (q mod K)) K); [lia|]. destruct (q / K); cbn [Nat.eqb]; lia.
Qed.
End Sequence.

Lemma square_cut c screen seed k y x : slices c <> 0 -> c_pupil c <> 0 -> x < c_pupil c ->
  square c screen seed k y x = (cut (screen seed) (slices c) (c_pupil c) k y x * (c_wl c / (2 * PI)))%R.
Proof.
  intros N P X. unfold square, cut, flat. cbv zeta. set (n := slices c) in *. set (p := c_pupil c) in *.
  pose proof (Nat.mod_upper_bound k n N) as M. set (b := k mod n) in *. set (a := k / n).
  assert (E : ((a * p + y) * n + b) * p + x = (n * p) * (a * p + y) + (b * p + x)) by nia.
  assert (L : b * p + x < n * p) by nia.
  rewrite <- (Nat.div_unique _ (n * p) (a * p + y) (b * p + x) L E).
  rewrite <- (Nat.mod_unique _ (n * p) (a * p + y) (b * p + x) L E). reflexivity.
Qed.

(* names *)
Lemma stamp_ok c t ts : Forall simple_name (c_sources c) ->
  exists ts', stamp c t ts = Ok ts' /\ (forall e, In e (ef_names c) -> ts' e = t) /\ (forall e, ~ In e (ef_names c) -> ts' e = ts e).
Proof.
  intros H. unfold stamp.
  assert (G : forall ln en, Forall2 (fun l e => str_replace (String.length l) "_layer" "_ef" l = e /\ In e (ef_names c)) ln en -> forall ts,
    exists ts', fold_res (fun ts name => let ef := str_replace (String.length name) "_layer" "_ef" name in
      if existsb (String.eqb ef) (ef_names c) then Ok (fun x => if String.eqb x ef then t else ts x) else Err KeyError) ts ln = Ok ts' /\
      (forall e, In e en \/ ts e = t -> ts' e = t) /\ (forall e, ~ In e en -> ts' e = ts e)).
  { induction 1 as [|l e ln en (E & I) F IH]; intros ts0; cbn [fold_res].
    - eexists. split; [reflexivity|]. split; [intros e [[]|E]; exact E | reflexivity].
    - cbv zeta. rewrite E. assert (X : existsb (String.eqb e) (ef_names c) = true) by (apply existsb_exists; exists e; split; [exact I | apply String.eqb_refl]).
      rewrite X. cbn [bind]. destruct (IH (fun x => if String.eqb x e then t else ts0 x)) as (ts' & E1 & A & B). exists ts'. split; [exact E1|]. split.
      + intros z [[<-|Z]|Z]; apply A; [right; now rewrite String.eqb_refl | now left | right; rewrite Z; now destruct (String.eqb z e)].
      + intros z Z. rewrite B by (intros Y; apply Z; now right). destruct (String.eqb_spec z e) as [->|]; [exfalso; apply Z; now left | reflexivity]. }
  assert (Hn : Forall2 (fun l e => str_replace (String.length l) "_layer" "_ef" l = e /\ In e (ef_names c)) (layer_names c) (ef_names c)).
  { assert (K : forall src all, (forall e, In e (map (fun n => "out_" ++ n ++ "_ef")%string src) -> In e all) -> Forall simple_name src ->
      Forall2 (fun l e => str_replace (String.length l) "_layer" "_ef" l = e /\ In e all) (map (fun n => "out_" ++ n ++ "_layer")%string src) (map (fun n => "out_" ++ n ++ "_ef")%string src)).
    { induction src as [|a r IHr]; intros all Hall Hs; cbn [map]; constructor.
      - split; [|apply Hall; now left]. inversion_clear Hs as [|? ? Ha _].
        rewrite <- !str_assoc. rewrite (replace_plain ("out_" ++ a) _ (out_plain a Ha)); [reflexivity|]. rewrite (str_length_app ("out_" ++ a) "_layer"). set (q := ("out_" ++ a)%string). change (String.length "_layer") with 6. lia.
      - inversion_clear Hs as [|? ? _ Hr]. apply IHr; [intros e E; apply Hall; now right | exact Hr]. }
    unfold layer_names, ef_names. destruct (c_sources c) as [|a l] eqn:S.
    - constructor; [|constructor]. split; [reflexivity | now left].
    - apply K; [auto | exact H]. }
  destruct (G _ _ Hn ts) as (ts' & E & A & B). exists ts'. split; [exact E|]. split; [intros e I; apply A; now left | exact B].
Qed.

(* scaling *)
Lemma Rpower_mul_base x y z : (0 < x -> 0 < y -> Rpower (x * y) z = Rpower x z * Rpower y z)%R.
Proof. intros X Y. unfold Rpower. rewrite ln_mult by assumption. rewrite <- exp_plus. f_equal. ring. Qed.
Lemma Rpower_inv_base x z : (0 < x -> Rpower (/ x) z = Rpower x (- z))%R.
Proof. intros X. unfold Rpower. rewrite ln_Rinv by exact X. f_equal. ring. Qed.
Lemma Rpower_pos x y : (0 < Rpower x y)%R. Proof. apply exp_pos. Qed.
Lemma scale_value c seeing : (0 < c_pitch c -> 0 < c_wl c -> 0 < airmass c -> 0 < seeing ->
  scale c seeing = Rpower (c_pitch c / fried seeing) (5 / 6) * sqrt (airmass c) * (500 / c_wl c))%R.
Proof.
  intros P W A S. unfold scale, r0, fried.
  set (f := (9759 / 10000 * (1 / 2) / (4848 / 1000 * seeing))%R).
  assert (F : (0 < f)%R) by (unfold f; apply Rdiv_lt_0_compat; nra).
  replace (9759 / 10000 * (5 / 10) / (seeing * (4848 / 1000)))%R with f by (unfold f; field; lra).
  assert (W5 : (0 < c_wl c / 500)%R) by lra.
  pose proof (Rpower_pos (airmass c) (- 3 / 5)) as A1. pose proof (Rpower_pos (c_wl c / 500) (6 / 5)) as W1.
  replace (c_pitch c / (f * Rpower (airmass c) (- 3 / 5) * Rpower (c_wl c / 500) (6 / 5)))%R
    with (c_pitch c / f * (/ Rpower (airmass c) (- 3 / 5) * / Rpower (c_wl c / 500) (6 / 5)))%R by (field; lra).
  assert (Q : (0 < c_pitch c / f)%R) by (now apply Rdiv_lt_0_compat).
  assert (I1 : (0 < / Rpower (airmass c) (- 3 / 5))%R) by (now apply Rinv_0_lt_compat).
  assert (I2 : (0 < / Rpower (c_wl c / 500) (6 / 5))%R) by (now apply Rinv_0_lt_compat).
  rewrite Rpower_mul_base; [|exact Q | now apply Rmult_lt_0_compat]. rewrite Rpower_mul_base by assumption.
  rewrite !Rpower_inv_base, !Rpower_mult by assumption.
  replace (- 3 / 5 * - (5 / 6))%R with (/ 2)%R by field. rewrite Rpower_sqrt by exact A.
  replace (6 / 5 * - (5 / 6))%R with (- (1))%R by field. rewrite Rpower_Ropp, Rpower_1 by exact W5. field. lra.
Qed.

Lemma construct_ok c seed s : construct c seed = Ok s -> c_pupil c <> 0 /\ c_pupil c <= c_side c /\ (1 <= seed)%Z /\ s = mkSt seed 0 0 (fun _ => (-1)%Z).
Proof.
  unfold construct. destruct (Nat.ltb_spec (c_side c) (c_pupil c)); [discriminate|]. destruct (Z.ltb_spec seed 1); [discriminate|].
  destruct (Nat.eqb_spec (c_pupil c) 0); [discriminate|]. intros [= <-]. auto.
Qed.
Lemma slices_pos c : c_pupil c <> 0 -> c_pupil c <= c_side c -> slices c <> 0.
Proof. intros P L. unfold slices. pose proof (Nat.div_le_mono _ _ (c_pupil c) P L) as D. rewrite Nat.div_same in D by exact P. lia. Qed.

(* the state before the trigger of number n *)
Definition inv (c : config) (seed : Z) (u n : nat) (s : state) : Prop :=
  s_seed s = seed_at (slices c * slices c) u seed n /\ s_last s = last_at (slices c * slices c) u n /\ s_steps s = Z.of_nat n.
Lemma inv_step c screen seed u n s seeing stop t f s' : slices c <> 0 -> u <> 0 -> c_interval c = Z.of_nat u ->
  inv c seed u n s -> trigger c screen s seeing stop t = Ok (f, s') ->
  inv c seed u (S n) s' /\ f_amp f = stop /\ f_time f = t /\
  f_phase f = (fun y x => square c screen (shown_seed (slices c * slices c) u seed n) (shown_square (slices c * slices c) u n) y x * scale c seeing)%R.
Proof.
  intros N U I (A & B & C) T. set (K := slices c * slices c) in *. assert (K0 : K <> 0) by (unfold K; nia).
  unfold trigger, prepare in T. fold K in T. rewrite A, B, (prepared K u seed K0 U n) in T. apply bind_ok in T. destruct T as (ts & _ & T).
  destruct (c_interval c =? 0)%Z; [discriminate|]. injection T as <- <-.
  destruct (next K u seed K0 U n) as (X & Y). cbn [f_amp f_time f_phase]. split; [|auto]. unfold inv. fold K. cbn [s_seed s_last s_steps]. rewrite C, I.
  replace (Z.of_nat n + 1)%Z with (Z.of_nat (S n)) by lia. auto.
Qed.
Lemma run_inv c screen seed u l : slices c <> 0 -> u <> 0 -> c_interval c = Z.of_nat u -> forall m s fs s', inv c seed u m s -> run c screen s l = Ok (fs, s') ->
  forall n seeing stop t, nth_error l n = Some (seeing, stop, t) -> exists f, nth_error fs n = Some f /\ f_amp f = stop /\ f_time f = t /\
  f_phase f = (fun y x => square c screen (shown_seed (slices c * slices c) u seed (m + n)) (shown_square (slices c * slices c) u (m + n)) y x * scale c seeing)%R.
Proof.
  intros N U I. induction l as [|((a, b), d) l IH]; intros m s fs s' V R n seeing stop t E; [now destruct n|].
  cbn [run] in R. apply bind_ok in R. destruct R as ((f, s1) & T & R). apply bind_ok in R. destruct R as ((fs1, s2) & R1 & R). injection R as <- <-. cbn [fst snd] in *.
  destruct (inv_step c screen seed u m s a b d f s1 N U I V T) as (V' & F). destruct n as [|n]; cbn [nth_error] in *.
  - injection E as <- <- <-. exists f. rewrite Nat.add_0_r. auto.
  - destruct (IH (S m) s1 fs1 s2 V' R1 n seeing stop t E) as (g & G). exists g. replace (m + S n) with (S m + n) by lia. exact G.
Qed.
