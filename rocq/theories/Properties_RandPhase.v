(* Properties of the random phase screens (C119). *)
From Coq Require Import String Reals List Bool Arith ZArith Lia Lra.
From Verif Require Import PyBase PyLemmas CubeModel Properties_Cube RandPhaseModel RandPhaseSpec RandPhaseProofs.
Import ListNotations.
Local Open Scope nat_scope.

(* Every frame of a sequence of triggers.  The screen of a seed is cut in squares of the size of the pupil, shown one
   after the other for [u] triggers each; when all have been shown the seed changes.  In the rounds after the first
   the first square is taken from a new seed at each trigger. *)
Theorem C119_frame c screen seed s l fs s' (u : nat) n seeing stop t : construct c seed = Ok s -> c_interval c = Z.of_nat u -> u <> 0 ->
  run c screen s l = Ok (fs, s') -> nth_error l n = Some (seeing, stop, t) ->
  exists f, nth_error fs n = Some f /\ f_amp f = stop /\ f_time f = t /\
    let m := c_side c / c_pupil c in
    let k := square_of n (m * m) u in
    let sd := match round_of n (m * m) u with
              | 0 => seed
              | S r => (seed + Z.of_nat (if Nat.eqb k 0 then r * u + n mod u + 1 else S r * u))%Z
              end in
    k < m * m /\
    forall y x, y < c_pupil c -> x < c_pupil c ->
      f_phase f y x = (cut (screen sd) m (c_pupil c) k y x * (c_wl c / (2 * PI)) * scale c seeing)%R.
Proof.
  intros C I U R E. apply construct_ok in C. destruct C as (P & L & _ & ->). pose proof (slices_pos c P L) as N.
  assert (V : inv c seed u 0 (mkSt seed 0 0 (fun _ => (-1)%Z))).
  { unfold inv, seed_at, last_at. rewrite Nat.div_0_l by exact U. auto. }
  destruct (run_inv c screen seed u l N U I 0 _ fs s' V R n seeing stop t E) as (f & F & A & T & Ph). exists f. split; [exact F|]. split; [exact A|]. split; [exact T|].
  cbv zeta. fold (slices c). split; [unfold square_of; apply Nat.mod_upper_bound; nia|].
  intros y x Y X. rewrite Ph. cbn [Nat.add]. rewrite square_cut by assumption. unfold shown_seed, shown_square.
  destruct (round_of n (slices c * slices c) u); [reflexivity|]. destruct (square_of n (slices c * slices c) u =? 0); reflexivity.
Qed.
Print Assumptions C119_frame.
(* With one trigger per square, each seed shows each of its squares once, in order. *)
Theorem C119_one c screen seed s l fs s' n seeing stop t : construct c seed = Ok s -> c_interval c = 1%Z ->
  run c screen s l = Ok (fs, s') -> nth_error l n = Some (seeing, stop, t) ->
  exists f, nth_error fs n = Some f /\ let m := c_side c / c_pupil c in
    forall y x, y < c_pupil c -> x < c_pupil c ->
      f_phase f y x = (cut (screen (seed + Z.of_nat (n / (m * m)))%Z) m (c_pupil c) (n mod (m * m)) y x * (c_wl c / (2 * PI)) * scale c seeing)%R.
Proof.
  intros C I R E. destruct (C119_frame c screen seed s l fs s' 1 n seeing stop t C I ltac:(lia) R E) as (f & F & _ & _ & _ & H). exists f. split; [exact F|].
  cbv zeta in *. intros y x Y X. rewrite (H y x Y X). unfold square_of, round_of. rewrite Nat.div_1_r, Nat.mod_1_r.
  set (m := c_side c / c_pupil c) in *. destruct (n / (m * m)) as [|r]; [now rewrite Z.add_0_r|].
  replace (if n mod (m * m) =? 0 then r * 1 + 0 + 1 else S r * 1) with (S r) by (destruct (n mod (m * m) =? 0); lia). reflexivity.
Qed.
Print Assumptions C119_one.
(* In the first round a square stays the same for its u triggers. *)
Theorem C119_first_round c screen seed s l fs s' (u : nat) n seeing stop t : construct c seed = Ok s -> c_interval c = Z.of_nat u -> u <> 0 ->
  run c screen s l = Ok (fs, s') -> nth_error l n = Some (seeing, stop, t) -> n < u * ((c_side c / c_pupil c) * (c_side c / c_pupil c)) ->
  exists f, nth_error fs n = Some f /\ let m := c_side c / c_pupil c in
    forall y x, y < c_pupil c -> x < c_pupil c ->
      f_phase f y x = (cut (screen seed) m (c_pupil c) (n / u) y x * (c_wl c / (2 * PI)) * scale c seeing)%R.
Proof.
  intros C I U R E L. destruct (C119_frame c screen seed s l fs s' u n seeing stop t C I U R E) as (f & F & _ & _ & _ & H). exists f. split; [exact F|].
  cbv zeta in *. intros y x Y X. rewrite (H y x Y X). unfold square_of, round_of. set (m := c_side c / c_pupil c) in *.
  assert (D : n / u < m * m) by (apply Nat.div_lt_upper_bound; [exact U | exact L]). rewrite (Nat.div_small _ _ D), (Nat.mod_small _ _ D). reflexivity.
Qed.
Print Assumptions C119_first_round.

(* The cut: every pixel of the part of the screen that is used is in one square, at one place. *)
Theorem C119_cut (m p Y X : nat) : Y < m * p -> X < m * p ->
  exists k y x, k < m * m /\ y < p /\ x < p /\ (forall a, cut a m p k y x = a Y X) /\
    forall k' y' x', k' < m * m -> y' < p -> x' < p -> (forall a, cut a m p k' y' x' = a Y X) -> k' = k /\ y' = y /\ x' = x.
Proof.
  intros HY HX. assert (P : p <> 0) by nia. assert (M : m <> 0) by nia.
  pose proof (Nat.div_mod Y p P) as DY. pose proof (Nat.mod_upper_bound Y p P). pose proof (Nat.div_mod X p P) as DX. pose proof (Nat.mod_upper_bound X p P).
  assert (YQ : Y / p < m) by (apply Nat.div_lt_upper_bound; [exact P | lia]). assert (XQ : X / p < m) by (apply Nat.div_lt_upper_bound; [exact P | lia]).
  exists (m * (Y / p) + X / p), (Y mod p), (X mod p).
  assert (Q : (m * (Y / p) + X / p) / m = Y / p) by (symmetry; eapply Nat.div_unique; [exact XQ | reflexivity]).
  assert (R : (m * (Y / p) + X / p) mod m = X / p) by (symmetry; eapply Nat.mod_unique; [exact XQ | reflexivity]).
  split; [nia|]. split; [assumption|]. split; [assumption|]. split.
  - intros a. unfold cut. rewrite Q, R. f_equal; lia.
  - intros k' y' x' K' Y' X' E.
    assert (E1 : k' / m * p + y' = Y).
    { specialize (E (fun r _ => INR r)). unfold cut in E. cbv beta in E. now apply INR_eq. }
    assert (E2 : k' mod m * p + x' = X).
    { specialize (E (fun _ r => INR r)). unfold cut in E. cbv beta in E. now apply INR_eq. }
    assert (A : k' / m = Y / p) by (eapply Nat.div_unique; [exact Y' | lia]). assert (B : y' = Y mod p) by (eapply Nat.mod_unique; [exact Y' | rewrite <- E1; rewrite (Nat.mul_comm p); reflexivity]).
    assert (A2 : k' mod m = X / p) by (eapply Nat.div_unique; [exact X' | lia]). assert (B2 : x' = X mod p) by (eapply Nat.mod_unique; [exact X' | rewrite <- E2; rewrite (Nat.mul_comm p); reflexivity]).
    split; [|auto]. rewrite (Nat.div_mod k' m M), A, A2. reflexivity.
Qed.
Print Assumptions C119_cut.

(* The phase, in nm, does not depend on the wavelength: it is that of 500 nm, with the Fried parameter of the seeing, and
   grows with the square root of the airmass. *)
Theorem C119_phase c seeing v : (0 < c_pitch c)%R -> (0 < c_wl c)%R -> (0 < seeing)%R ->
  match c_zenith c with Some a => (0 < cos (a * PI / 180))%R | None => True end ->
  (v * (c_wl c / (2 * PI)) * scale c seeing =
   v * (500 / (2 * PI)) * Rpower (c_pitch c / fried seeing) (5 / 6) * match c_zenith c with Some a => / sqrt (cos (a * PI / 180)) | None => 1 end)%R.
Proof.
  intros P W S Z. assert (A : (0 < airmass c)%R).
  { unfold airmass. destruct (c_zenith c); [apply Rdiv_lt_0_compat; lra | lra]. }
  rewrite (scale_value c seeing P W A S).
  assert (Q : sqrt (airmass c) = match c_zenith c with Some a => (/ sqrt (cos (a * PI / 180)))%R | None => 1%R end).
  { unfold airmass. destruct (c_zenith c); [|apply sqrt_1]. rewrite sqrt_div by lra. rewrite sqrt_1. unfold Rdiv. ring. }
  rewrite <- Q. pose proof PI_RGT_0. field. lra.
Qed.
Print Assumptions C119_phase.
(* in terms of the seeing *)
Theorem C119_seeing c seeing k : (0 < c_pitch c)%R -> (0 < c_wl c)%R -> (0 < seeing)%R -> (0 < k)%R ->
  match c_zenith c with Some a => (0 < cos (a * PI / 180))%R | None => True end ->
  scale c (k * seeing) = (Rpower k (5 / 6) * scale c seeing)%R.
Proof.
  intros P W S K Z. assert (A : (0 < airmass c)%R).
  { unfold airmass. destruct (c_zenith c); [apply Rdiv_lt_0_compat; lra | lra]. }
  assert (KS : (0 < k * seeing)%R) by (now apply Rmult_lt_0_compat).
  rewrite !scale_value by assumption.
  assert (F : forall s, (0 < s)%R -> (0 < c_pitch c / fried s)%R).
  { intros s' Hs. unfold fried. apply Rdiv_lt_0_compat; [exact P | apply Rdiv_lt_0_compat; nra]. }
  replace (c_pitch c / fried (k * seeing))%R with (k * (c_pitch c / fried seeing))%R by (unfold fried; field; lra).
  rewrite Rpower_mul_base; [ring | exact K | now apply F].
Qed.
Print Assumptions C119_seeing.

(* With plain names of sources nothing is refused, whatever the sequence, and every field gets the time of the trigger. *)
Theorem C119_runs c screen seed s l : construct c seed = Ok s -> c_interval c <> 0%Z -> Forall simple_name (c_sources c) ->
  exists fs s', run c screen s l = Ok (fs, s') /\ length fs = length l /\
    forall seeing stop t, last (map Some l) None = Some (seeing, stop, t) -> forall e, In e (ef_names c) -> s_times s' e = t.
Proof.
  intros _ I N. revert s. induction l as [|((a, b), t) l IH]; intros s; cbn [run].
  - exists [], s. split; [reflexivity|]. split; [reflexivity | intros ? ? ? E; discriminate E].
  - unfold trigger at 1. destruct (prepare c s) as (sd, k). destruct (stamp_ok c t (s_times s) N) as (ts & E & T & _). rewrite E. cbn [bind].
    destruct (Z.eqb_spec (c_interval c) 0); [contradiction|]. cbn [bind fst snd].
    match goal with |- context [run c screen ?st l] => destruct (IH st) as (fs & s' & R & L & X); rewrite R end. cbn [bind fst snd].
    eexists. exists s'. split; [reflexivity|]. split; [cbn [length]; now rewrite L|].
    intros sg st t' E'. destruct l as [|h l].
    + cbn in E'. injection E' as -> -> ->. cbn [run] in R. injection R as _ <-. exact T.
    + apply (X sg st t'). exact E'.
Qed.
Print Assumptions C119_runs.
(* errors of the constructor *)
Theorem C119_construct c seed : match construct c seed with
  | Ok _ => c_pupil c <> 0 /\ c_pupil c <= c_side c /\ (1 <= seed)%Z
  | Err e => (e = ValueError /\ (c_side c < c_pupil c \/ (seed < 1)%Z)) \/ (e = ZeroDivisionError /\ c_pupil c = 0 /\ (1 <= seed)%Z)
  end.
Proof.
  unfold construct. destruct (Nat.ltb_spec (c_side c) (c_pupil c)); [now left; auto|]. destruct (Z.ltb_spec seed 1); [left; auto|].
  destruct (Nat.eqb_spec (c_pupil c) 0); [right; auto | auto].
Qed.
Print Assumptions C119_construct.
(* an interval of zero is found after the first trigger *)
Theorem C119_zero_interval c screen s seeing stop t : c_interval c = 0%Z -> Forall simple_name (c_sources c) -> trigger c screen s seeing stop t = Err ZeroDivisionError.
Proof.
  intros I N. unfold trigger. destruct (prepare c s). destruct (stamp_ok c t (s_times s) N) as (ts & E & _). rewrite E. cbn [bind]. now rewrite I.
Qed.
Print Assumptions C119_zero_interval.

(* examples: a screen of 4 x 4 pixels and a pupil of 2 *)
Definition numbered : Z -> image := fun s y x => (INR (4 * y + x) + 100 * IZR s)%R.
Definition small (u : Z) (src : list string) : config := mkCfg 2 4 1%R 500%R None u src.
Fixpoint shots (k : nat) : list (R * image * Z) := match k with 0 => [] | S n => shots n ++ [(1%R, (fun _ _ => 1%R), Z.of_nat k)] end.
(* seed and square at each trigger *)
Fixpoint history (c : config) (s : state) (k : nat) : list (Z * nat) :=
  match k with
  | 0 => []
  | S n => let '(sd, q) := prepare c s in
      let steps := (s_steps s + 1)%Z in
      (sd, q) :: history c (mkSt sd (if (steps mod c_interval c =? 0)%Z then S q else s_last s) steps (s_times s)) n
  end.
Example C119_frame_example : history (small 2 []) (mkSt 7 0 0 (fun _ => 0%Z)) 11 =
  [(7%Z, 0); (7%Z, 0); (7%Z, 1); (7%Z, 1); (7%Z, 2); (7%Z, 2); (7%Z, 3); (7%Z, 3); (8%Z, 0); (9%Z, 0); (9%Z, 1)].
Proof. vm_compute. reflexivity. Qed.
Example C119_one_example : history (small 1 []) (mkSt 7 0 0 (fun _ => 0%Z)) 6 = [(7%Z, 0); (7%Z, 1); (7%Z, 2); (7%Z, 3); (8%Z, 0); (8%Z, 1)].
Proof. vm_compute. reflexivity. Qed.
Example C119_cut_example : map (fun q => cut (fun y x => INR (4 * y + x)) 2 2 q 1 0) [0; 1; 2; 3] = map INR [4; 6; 12; 14].
Proof. reflexivity. Qed.
Example C119_phase_example : scale (mkCfg 2 4 1 1000 None 1 []) 1 = (1 / 2 * scale (mkCfg 2 4 1 500 None 1 []) 1)%R.
Proof.
  assert (A : airmass (mkCfg 2 4 1 1000 None 1 []) = 1%R) by reflexivity. assert (B : airmass (mkCfg 2 4 1 500 None 1 []) = 1%R) by reflexivity.
  rewrite !scale_value; cbn [c_pitch c_wl]; try rewrite A; try rewrite B; try lra. 
Qed.
Example C119_runs_example : exists fs s', run (small 2 ["sun"; "star"]%string) numbered (mkSt 7 0 0 (fun _ => 0%Z)) (shots 3) = Ok (fs, s') /\
  map (s_times s') ["out_sun_ef"; "out_star_ef"; "other"]%string = [3; 3; 0]%Z /\ map f_time fs = [1; 2; 3]%Z.
Proof. eexists. eexists. split; [vm_compute; reflexivity|]. split; reflexivity. Qed.
Example C119_construct_example : construct (mkCfg 5 4 1%R 500%R None 1 []) 1 = Err ValueError /\ construct (small 1 []) 0 = Err ValueError /\
  construct (mkCfg 0 4 1%R 500%R None 1 []) 1 = Err ZeroDivisionError.
Proof. repeat split. Qed.

(* A square is not kept for the whole interval, nor is a seed used for all its squares: in the second round the two
   triggers of the first square come from two seeds, and the first of them is never shown again. *)
Theorem C119_interval_refuted : exists c screen seed s fs s' f g, construct c seed = Ok s /\ c_interval c = 2%Z /\
  run c screen s (shots 10) = Ok (fs, s') /\ nth_error fs 8 = Some f /\ nth_error fs 9 = Some g /\ f_phase f 0 0 <> f_phase g 0 0.
Proof.
  exists (small 2 []), numbered, 7%Z, (mkSt 7 0 0 (fun _ => (-1)%Z)).
  destruct (C119_runs (small 2 []) numbered 7 (mkSt 7 0 0 (fun _ => (-1)%Z)) (shots 10) eq_refl ltac:(discriminate) (Forall_nil _)) as (fs & s' & R & _).
  destruct (C119_frame (small 2 []) numbered 7 _ _ fs s' 2 8 1 (fun _ _ => 1%R) 9 eq_refl eq_refl ltac:(lia) R eq_refl) as (f & F & _ & _ & _ & Pf).
  destruct (C119_frame (small 2 []) numbered 7 _ _ fs s' 2 9 1 (fun _ _ => 1%R) 10 eq_refl eq_refl ltac:(lia) R eq_refl) as (g & G & _ & _ & _ & Pg).
  exists fs, s', f, g. repeat split; auto. rewrite (Pf 0 0), (Pg 0 0) by (cbn; lia).
  pose proof PI_RGT_0. cbn -[scale]. unfold cut, numbered. cbn -[scale].
  assert (S : (0 < scale (small 2 []) 1)%R) by apply Rpower_pos. set (k := scale (small 2 []) 1) in *.
  assert (Q : (0 < 500 / (2 * PI) * k)%R) by (apply Rmult_lt_0_compat; [apply Rdiv_lt_0_compat; lra | exact S]).
  intros E. assert (X : (100 * (500 / (2 * PI) * k) = 0)%R) by lra. lra.
Qed.
Print Assumptions C119_interval_refuted.
(* The name of a source may not hold "layer" after an underscore: with "layer1", the field of out_layer1_layer is looked
   for under the name out_ef1_ef. *)
Theorem C119_name_refuted : exists c screen seed s seeing stop t, construct c seed = Ok s /\ c_interval c = 1%Z /\ c_sources c = ["layer1"%string] /\
  trigger c screen s seeing stop t = Err KeyError.
Proof. exists (small 1 ["layer1"%string]), numbered, 7%Z, (mkSt 7 0 0 (fun _ => (-1)%Z)), 1%R, (fun _ _ => 1%R), 0%Z. repeat split. Qed.
Print Assumptions C119_name_refuted.
