(* C83: evolution of the atmosphere *)
From Coq Require Import List ZArith Bool Arith QArith Qcanon Qround Lqa Lia.
From Verif Require Import PyBase PyLemmas Arith FilterSpec OpticalModel ExtModel NpModel FitsModel RebinModel RebinProofs CutModel CutSpec CutProofs VecModel SlopecModel SlopecSpec SumLemmas QcTac
  FieldModel FieldSpec FieldProofs InterpModel InterpSpec InterpProofs PropModel AtmoModel AtmoSpec AtmoProofs Properties_Filter Properties_Field.
Import ListNotations.
Local Open Scope Qc_scope.

Definition s0 : sheet := mkSheet 0 (mkA2 0 []) 0.
Definition d0 : drift := mkDrift 0 (mkA2 0 []).
Definition columns (s : sheet) : nat := a_c (sh_screen s).
Definition value (s : sheet) (i j : nat) : Qc := entry 0 (sh_screen s) i j.
(* a screen is a full array with enough rows *)
Definition sheet_ok (s : sheet) : Prop :=
  image (A:=qc) (a_r (sh_screen s)) (columns s) (value s) (sh_screen s) /\ (sh_size s <= a_r (sh_screen s))%nat /\ 0 <= sh_extra s.

Section P.
Variable pitch : Qc.
Variable strength : Qc -> Qc.
Variable rotate : Qc -> arr2 Qc -> arr2 Qc.
Hypothesis Hrot : forall r n f a, image (A:=qc) n n f a -> exists g, image (A:=qc) n n g (rotate r a).
Hypothesis Hpitch : 0 < pitch.
Notation evolution := (evolution pitch strength rotate).
Notation looks := (looks rotate).
Notation offset := (offset pitch).
Definition speed (k : nat) (w : weather) : Qc := fst (nth k (we_wind w) (0, 0)).
Definition heading (k : nat) (w : weather) : Qc := snd (nth k (we_wind w) (0, 0)).
Definition scale_of (w : weather) : Qc := seeing_scale strength (we_seeing w).

(* Time does not go back, winds are not negative, and the window of a layer at the beginning of
   its screen fits in the screen. *)
Definition gentle (ss : list sheet) (hist : list weather) : Prop :=
  (forall s, In s ss -> sheet_ok s) /\
  (forall h w r, hist = h ++ w :: r -> (end_time 0 (moments 0 h) <= we_t w)%Z) /\
  (forall w, In w hist -> length (we_wind w) = length ss /\ forall k, (k < length ss)%nat -> fits pitch (nth k ss s0) (columns (nth k ss s0)) (speed k w)).

(* distance covered by layer k between two triggers *)
Definition leap (k : nat) (t0 : Z) (w : weather) : Qc := speed k w * elapsed t0 (we_t w) / pitch.
(* the window at this position is inside the screen *)
Definition room (s : sheet) (x v : Qc) : Prop := x + offset s v + qnat (sh_size s) < qnat (columns s).

Lemma gentle_pre ss h w : gentle ss (h ++ [w]) -> gentle ss h.
Proof.
  intros (A & B & C). split; [exact A|]. split.
  - intros h1 w1 r E. apply (B h1 w1 (r ++ [w])). rewrite E, <- app_assoc. reflexivity.
  - intros x Hx. apply C. apply in_or_app. now left.
Qed.
Definition known ss (hist : list weather) (ds : list drift) : Prop := forall k, (k < length ss)%nat ->
  let s := nth k ss s0 in let d := nth k ds d0 in
  0 <= dr_pos d /\ square d (sh_size s) /\ (hist = [] -> dr_pos d = 0) /\
  (forall h w, hist = h ++ [w] -> looks (heading k w) (scale_of w) (sh_size s) (fun i j => along (columns s) (value s i) (dr_pos d + offset s (speed k w) + qnat j)) (dr_phase d)) /\
  forall h w ds1 t1, hist = h ++ [w] -> evolution ss h = Ok (ds1, t1) ->
    let x := dr_pos (nth k ds1 d0) + leap k t1 w in
    (dr_pos d = x /\ room s x (speed k w)) \/ (dr_pos d = 0 /\ ~ room s x (speed k w)).
Lemma run ss hist : gentle ss hist -> exists ds t, evolution ss hist = Ok (ds, t) /\ known ss hist ds.
Proof.
  induction hist as [|w h IH] using rev_ind; intros G.
  - exists (fst (calm ss)), 0%Z. split; [reflexivity|]. intros k Hk s d. unfold calm in d. cbn [fst] in d.
    assert (D : d = mkDrift 0 (tab qc (sh_size s) (sh_size s) (fun _ _ => 0))).
    { unfold d, s. rewrite (nth_indep _ d0 ((fun s => mkDrift 0 (tab qc (sh_size s) (sh_size s) (fun _ _ => 0))) s0)) by now rewrite map_length. exact (map_nth _ ss s0 k). }
    rewrite D. cbn [dr_pos dr_phase]. split; [apply Qcle_refl|]. split; [exists (fun _ _ => 0); exact (tab_image (A:=qc) _ _ _)|]. split; [reflexivity|]. split.
    + intros h w E. now destruct h.
    + intros h w ds1 t1 E. now destruct h.
  - destruct (IH (gentle_pre _ _ _ G)) as (ds & t & E & K). destruct G as (Gs & Gt & Gw). destruct (evolution_state _ _ _ _ _ _ _ E) as [Ld Et].
    assert (Gt' := Gt h w [] eq_refl). rewrite <- Et in Gt'. destruct (Gw w ltac:(apply in_or_app; right; now left)) as [Lw Gv].
    assert (step : forall k, (k < length ss)%nat -> exists x, blow pitch rotate (nth k ss s0) (nth k ds d0) (nth k (we_wind w) (0, 0)) (seconds (we_t w - t)) (scale_of w) = Ok x /\
       let s := nth k ss s0 in let pe := advance pitch (sh_size s) (columns s) (sh_extra s) (dr_pos (nth k ds d0)) (speed k w) (seconds (we_t w - t)) in
       dr_pos x = fst pe /\ square x (sh_size s) /\ looks (heading k w) (scale_of w) (sh_size s) (fun i j => along (columns s) (value s i) (snd pe + qnat j)) (dr_phase x) /\
       0 <= fst pe /\ snd pe = fst pe + offset s (speed k w) /\
       ((fst pe = dr_pos (nth k ds d0) + leap k t w /\ room s (fst pe) (speed k w)) \/ (fst pe = 0 /\ ~ room s (dr_pos (nth k ds d0) + leap k t w) (speed k w)))).
    { intros k Hk. destruct (K k Hk) as (P & Sq & _). destruct (Gs (nth k ss s0) (nth_In _ _ Hk)) as (Im & HR & He).
      destruct (advance_ok pitch Hpitch (nth k ss s0) (columns (nth k ss s0)) (dr_pos (nth k ds d0)) (speed k w) (seconds (we_t w - t)) He (Gv k Hk) P (seconds_nonneg _ _ Gt')) as (A1 & A2 & A3 & A4).
      assert (A0 : 0 <= snd (advance pitch (sh_size (nth k ss s0)) (columns (nth k ss s0)) (sh_extra (nth k ss s0)) (dr_pos (nth k ds d0)) (speed k w) (seconds (we_t w - t)))).
      { rewrite A2. pose proof (offset_nonneg pitch Hpitch (nth k ss s0) (speed k w) He (proj1 (Gv k Hk))). qclra. }
      destruct (blow_step pitch rotate Hrot (nth k ss s0) (nth k ds d0) (nth k (we_wind w) (0, 0)) (seconds (we_t w - t)) (scale_of w) _ _ _ (conj Im HR) Sq A0 A3) as (x & Ex & X1 & X2 & X3).
      exists x. split; [exact Ex|]. cbn zeta. split; [exact X1|]. split; [exact X2|]. split; [exact X3|]. split; [exact A1|]. split; [exact A2|].
      destruct A4 as [[B1 B2]|[B1 B2]]; [left|right]; (split; [exact B1|]); [exact B2|]. unfold room. intros N. revert N B2. unfold leap, elapsed. fold (seconds (we_t w - t)). intros. qclra. }
    destruct (blow_all_make pitch rotate s0 d0 (0, 0) ss ds (we_wind w) (seconds (we_t w - t)) (scale_of w) Ld Lw) as [r Er].
    { intros k Hk. destruct (step k Hk) as (x & Ex & _). eauto. }
    exists r, (we_t w). split.
    { rewrite evolution_snoc, E. cbn [bind]. unfold evolve. cbn [fst snd]. fold (scale_of w). rewrite Er. reflexivity. }
    intros k Hk. destruct (blow_all_nth _ _ _ _ _ _ _ _ Er) as (_ & _ & _ & N). destruct (step k Hk) as (x & Ex & X). rewrite (N k s0 d0 (0, 0) d0 Hk) in Ex. injection Ex as <-.
    cbn zeta in X |- *. destruct X as (X1 & X2 & X3 & X4 & X5 & X6). rewrite X5 in X3. rewrite X1. split; [exact X4|]. split; [exact X2|]. split; [intros Z; now destruct h|]. split.
    + intros h' w' Eh. apply app_inj_tail in Eh as [<- <-]. exact X3.
    + intros h' w' ds1 t1 Eh E1. apply app_inj_tail in Eh as [<- <-]. rewrite E in E1. injection E1 as <- <-. destruct X6 as [[Y1 Y2]|[Y1 Y2]]; [left|right]; (split; [exact Y1|]); [rewrite <- Y1|]; exact Y2.
Qed.

(* A gentle atmosphere never fails, and after the last trigger every layer shows its screen at
   its position: the broken line through the pixels of each row, turned by the wind direction and
   multiplied by the strength of the turbulence. *)
Theorem C83_evolution ss hist w : gentle ss (hist ++ [w]) -> exists ds, evolution ss (hist ++ [w]) = Ok (ds, we_t w) /\ length ds = length ss /\
  forall k, (k < length ss)%nat -> let s := nth k ss s0 in let d := nth k ds d0 in
    0 <= dr_pos d /\ room s (dr_pos d) (speed k w) /\
    looks (heading k w) (scale_of w) (sh_size s) (fun i j => along (columns s) (value s i) (dr_pos d + offset s (speed k w) + qnat j)) (dr_phase d).
Proof.
  intros G. destruct (run ss _ G) as (ds & t & E & K). destruct (run ss _ (gentle_pre _ _ _ G)) as (d1 & t1 & E1 & _).
  destruct (evolution_state _ _ _ _ _ _ _ E) as [L T]. exists ds.
  assert (T' : t = we_t w) by (rewrite T; unfold moments; rewrite map_app; apply end_app). rewrite <- T'. split; [exact E|]. split; [exact L|].
  intros k Hk s d. destruct (K k Hk) as (P & _ & _ & Lk & St). split; [exact P|]. split; [|now apply (Lk hist w)].
  destruct (St hist w d1 t1 eq_refl E1) as [[Y1 Y2]|[Y1 Y2]]; unfold d; rewrite Y1; [exact Y2|]. destruct G as (_ & _ & Gw).
  destruct (Gw w ltac:(apply in_or_app; right; now left)) as [_ Gv]. destruct (Gv k Hk) as [_ F]. unfold room. fold s in F. qclra.
Qed.

(* The position of a layer is the distance covered since the beginning or since a later
   trigger, at which the window would have left the screen. *)
Theorem C83_since ss hist ds t k : gentle ss hist -> evolution ss hist = Ok (ds, t) -> (k < length ss)%nat ->
  exists h1 h2, hist = h1 ++ h2 /\ dr_pos (nth k ds d0) = path pitch (end_time 0 (moments k h1)) (moments k h2) /\
  (h1 = [] \/ exists h w ds1 t1, h1 = h ++ [w] /\ evolution ss h = Ok (ds1, t1) /\ ~ room (nth k ss s0) (dr_pos (nth k ds1 d0) + leap k t1 w) (speed k w)).
Proof.
  revert ds t. induction hist as [|w h IH] using rev_ind; intros ds t G E Hk.
  - exists [], []. split; [reflexivity|]. split; [|now left]. destruct (run ss _ G) as (ds' & t' & E' & K). rewrite E in E'. injection E' as <- <-. now apply (K k Hk).
  - destruct (run ss _ G) as (ds' & t' & E' & K). rewrite E in E'. injection E' as <- <-. destruct (run ss _ (gentle_pre _ _ _ G)) as (d1 & t1 & E1 & _).
    destruct (K k Hk) as (_ & _ & _ & _ & St). destruct (St h w d1 t1 eq_refl E1) as [[Y1 Y2]|[Y1 Y2]].
    + destruct (IH d1 t1 (gentle_pre _ _ _ G) E1 Hk) as (h1 & h2 & Eh & Ep & Er). exists h1, (h2 ++ [w]). split; [now rewrite app_assoc, <- Eh|]. split; [|exact Er].
      rewrite Y1, Ep. unfold moments. rewrite map_app. rewrite path_app. cbn [map path]. fold (moments k h2). fold (moments k h1).
      destruct (evolution_state _ _ _ _ _ _ _ E1) as [_ T]. rewrite <- (end_moments k), Eh in T.
      assert (X : end_time (end_time 0 (moments k h1)) (moments k h2) = t1).
      { rewrite T. unfold moments. rewrite map_app. fold (moments k h1) (moments k h2). destruct (moments k h2) as [|x l] eqn:Z using rev_ind.
        - now rewrite app_nil_r.
        - clear IHl. destruct x as [tx vx]. rewrite app_assoc. now rewrite !end_app. }
      rewrite X. unfold leap, speed. cbn. ring.
    + exists (h ++ [w]), []. split; [now rewrite app_nil_r|]. split; [exact Y1|]. right. exists h, w, d1, t1. auto.
Qed.

(* If the window stays inside the screen, layers move by exactly the path of the wind. *)
Theorem C83_frozen ss hist ds t k : gentle ss hist -> evolution ss hist = Ok (ds, t) -> (k < length ss)%nat ->
  (forall h w r, hist = h ++ w :: r -> room (nth k ss s0) (path pitch 0 (moments k (h ++ [w]))) (speed k w)) ->
  dr_pos (nth k ds d0) = path pitch 0 (moments k hist).
Proof.
  revert ds t. induction hist as [|w h IH] using rev_ind; intros ds t G E Hk Hr.
  - destruct (run ss _ G) as (ds' & t' & E' & K). rewrite E in E'. injection E' as <- <-. now apply (K k Hk).
  - destruct (run ss _ G) as (ds' & t' & E' & K). rewrite E in E'. injection E' as <- <-. destruct (run ss _ (gentle_pre _ _ _ G)) as (d1 & t1 & E1 & _).
    destruct (K k Hk) as (_ & _ & _ & _ & St).
    assert (P : dr_pos (nth k d1 d0) = path pitch 0 (moments k h)).
    { apply (IH d1 t1 (gentle_pre _ _ _ G) E1 Hk). intros h1 w1 r Eh. apply (Hr h1 w1 (r ++ [w])). rewrite Eh, <- app_assoc. reflexivity. }
    destruct (evolution_state _ _ _ _ _ _ _ E1) as [_ T]. rewrite <- (end_moments k) in T.
    assert (Q : dr_pos (nth k d1 d0) + leap k t1 w = path pitch 0 (moments k (h ++ [w]))).
    { unfold moments. rewrite map_app, path_app. fold (moments k h). rewrite <- T, P. cbn [map path]. unfold leap, speed. ring. }
    destruct (St h w d1 t1 eq_refl E1) as [[Y1 Y2]|[Y1 Y2]]; [now rewrite Y1, Q|]. rewrite Q in Y2. exfalso. apply Y2. now apply (Hr h w []).
Qed.
(* With a constant wind only the time of the last trigger matters. *)
Theorem C83_constant k hist v : (forall w, In w hist -> speed k w = v) -> path pitch 0 (moments k hist) = v * elapsed 0 (end_time 0 (moments k hist)) / pitch.
Proof.
  assert (Np : pitch <> 0) by (intros ->; discriminate Hpitch). assert (Nn : qz 1000000000 <> 0) by discriminate.
  induction hist as [|w h IH] using rev_ind; intros H.
  - cbn. unfold end_time, elapsed. cbn. replace (qz 0) with 0 by (apply Qc_is_canon; reflexivity). field. split; assumption.
  - unfold moments. rewrite map_app, path_app. fold (moments k h). cbn [map]. rewrite end_app, IH by (intros; apply H, in_or_app; now left). cbn [path].
    replace (fst (nth k (we_wind w) (0, 0))) with v by (symmetry; apply H, in_or_app; right; now left). unfold elapsed. rewrite !qz_sub. replace (qz 0) with 0 by (apply Qc_is_canon; reflexivity). field. split; assumption.
Qed.
(* Without restart, an extra time shows the screen as it will be seen that much later. *)
Theorem C83_ahead s v (t e : Z) : sh_extra s = elapsed 0 e -> v * elapsed 0 t / pitch + offset s v = v * elapsed 0 (t + e) / pitch.
Proof.
  assert (Np : pitch <> 0) by (intros ->; discriminate Hpitch). assert (Nn : qz 1000000000 <> 0) by discriminate.
  intros E. unfold AtmoProofs.offset. rewrite E. unfold elapsed. rewrite !qz_sub, qz_add. replace (qz 0) with 0 by (apply Qc_is_canon; reflexivity). field. split; assumption.
Qed.
(* Without seeing there is no turbulence. *)
Theorem C83_no_seeing ss hist w ds t k : gentle ss (hist ++ [w]) -> evolution ss (hist ++ [w]) = Ok (ds, t) -> (k < length ss)%nat -> we_seeing w <= 0 ->
  image (A:=qc) (sh_size (nth k ss s0)) (sh_size (nth k ss s0)) (fun _ _ => 0) (dr_phase (nth k ds d0)).
Proof.
  intros G E Hk Hs. destruct (C83_evolution ss hist w G) as (ds' & E' & _ & L). rewrite E in E'. injection E' as <- _. destruct (L k Hk) as (_ & _ & Lk).
  assert (Z : scale_of w = 0). { unfold scale_of, seeing_scale. destruct (qlt 0 (we_seeing w)) eqn:T; [exfalso; qclra|reflexivity]. }
  destruct (angle_ex (heading k w)) as (q & rest & Ha). destruct (Lk q rest Ha) as (a & Ia & Ep).
  assert (X : exists g, image (A:=qc) (sh_size (nth k ss s0)) (sh_size (nth k ss s0)) g (if Qc_eq_dec rest 0 then a else rotate rest a)).
  { destruct (Qc_eq_dec rest 0); [eauto|]. exact (Hrot _ _ _ _ Ia). }
  destruct X as [g Ig]. rewrite Ep. pose proof (each_image (A:=qc) (fun x => x * scale_of w) _ _ _ _ Ig) as I2. apply (image_ext (A:=qc) _ _ _ _ _ I2). intros i j _ _. cbv beta. rewrite Z. qceq. ring.
Qed.

(* A full turn of the wind changes nothing. *)
Definition same_wind (w w' : wind) : Prop := fst w' = fst w /\ (snd w' = snd w \/ (snd w' = snd w + qz 360 /\ (0 <= snd w \/ snd w' < 0))).
Definition same_weather (w w' : weather) : Prop := we_t w' = we_t w /\ we_seeing w' = we_seeing w /\ Forall2 same_wind (we_wind w) (we_wind w').
Lemma turned_full dir a : 0 <= dir \/ dir + qz 360 < 0 -> turned rotate (dir + qz 360) a = turned rotate dir a.
Proof.
  intros H. destruct (angle_ex dir) as (k & rest & Ha). assert (Hb : angle_is (dir + qz 360) (k + 4) rest).
  { assert (E : qz 360 = qz 90 * qz 4) by (apply Qc_is_canon; reflexivity). assert (P : 0 < qz 360) by reflexivity. destruct Ha as (A & B & C). split; [rewrite qz_add, E, A; ring|]. split; intros D.
    - destruct H as [H|H]; [now apply B|exfalso; qclra].
    - destruct H as [H|H]; [exfalso; qclra|]. apply C. qclra. }
  destruct (angle_trunc _ _ _ Ha) as [E1 E2]. destruct (angle_trunc _ _ _ Hb) as [F1 F2]. unfold turned. rewrite E1, E2, F1, F2. unfold rot90. replace ((k + 4) mod 4)%Z with (k mod 4)%Z; [reflexivity|].
  rewrite Z.add_mod by discriminate. change (4 mod 4)%Z with 0%Z. rewrite Z.add_0_r, Z.mod_mod by discriminate. reflexivity.
Qed.
Theorem C83_full_turn ss hist hist' : Forall2 same_weather hist hist' -> evolution ss hist' = evolution ss hist.
Proof.
  intros H. unfold AtmoModel.evolution. generalize (calm ss). induction H as [|w w' h h' (H1 & H2 & H3) _ IH]; intros st; [reflexivity|]. cbn [fold_res].
  replace (evolve pitch strength rotate ss st w') with (evolve pitch strength rotate ss st w).
  - destruct (evolve pitch strength rotate ss st w); cbn [bind]; [apply IH|reflexivity].
  - unfold evolve. rewrite H1, H2. f_equal. generalize (fst st) as ds, (seconds (we_t w - snd st)) as dt, (seeing_scale strength (we_seeing w)) as sc. revert H3. generalize (we_wind w) as u, (we_wind w') as u'. clear IH. revert ss.
    induction ss as [|s ss' IHs]; intros u u' H3 ds dt sc; destruct H3 as [|x x' u u' Hx Hu]; destruct ds as [|d ds]; cbn [blow_all]; try reflexivity.
    rewrite (IHs _ _ Hu). replace (blow pitch rotate s d x' dt sc) with (blow pitch rotate s d x dt sc); [reflexivity|]. destruct Hx as [V D]. unfold blow. rewrite V. destruct (window _ _ _) as [a|]; [|reflexivity]. cbn [bind].
    destruct D as [D|[D D']]; rewrite D; [reflexivity|]. rewrite turned_full; [reflexivity|]. rewrite <- D. exact D'.
Qed.

(* Layers seen going up and down evolve as two atmospheres. *)
Theorem C83_two down up hist d u t :
  evolution2 pitch strength rotate down up hist = Ok (d, u, t) <-> evolution down hist = Ok (d, t) /\ evolution up hist = Ok (u, t).
Proof.
  unfold evolution2, AtmoModel.evolution. change (calm down) with (fst (calm down), 0%Z). change (calm up) with (fst (calm up), 0%Z). cbn [fst]. generalize (fst (calm down)) as d1, (fst (calm up)) as u1, 0%Z as t1.
  induction hist as [|w h IH]; intros d1 u1 t1; cbn [fold_res].
  - split; [intros H; injection H as -> -> ->; now split|]. intros [H1 H2]. injection H1 as -> ->. injection H2 as ->. reflexivity.
  - unfold evolve2 at 1, evolve at 1 3. cbn [fst snd]. destruct (blow_all pitch rotate down d1 _ _ _) as [d2|]; cbn [bind]; [|split; [discriminate|intros [H _]; discriminate H]].
    destruct (blow_all pitch rotate up u1 _ _ _) as [u2|]; cbn [bind]; [apply IH|split; [discriminate|intros [_ H]; discriminate H]].
Qed.
End P.

(* a screen of 2 rows and 5 columns seen through 2 x 2 pixels of half a metre *)
Definition strip : arr2 Qc := img [[0; 1; 4; 9; 16]; [10; 20; 30; 40; 50]]%Z.
Definition thin (e : Qc) : sheet := mkSheet 2 strip e.
Definition blowing (t : Z) (seeing v dir : Qc) : weather := mkWeather t seeing [(v, dir)].
Definition twice : Qc -> Qc := fun x => x + x.
Definition no_rot : Qc -> arr2 Qc -> arr2 Qc := fun _ a => a.
Definition see_air (r : res air) : res (list (Q * list (list Q)) * Z) :=
  match r with Ok (ds, t) => Ok (map (fun d => (this (dr_pos d), map (map this) (a_rows (dr_phase d)))) ds, t) | Err e => Err e end.
Definition sky (e : Qc) (ws : list weather) := see_air (evolution (qf 1 2) twice no_rot [thin e] ws).
Definition sec (n : Z) : Z := (n * 1000000000)%Z.
Example C83_example :
  sky 0 [blowing 0 1 (qf 1 4) 0] = Ok ([(0%Q, [[0; 2]; [20; 40]]%Q)], 0%Z) /\
  sky 0 [blowing 0 1 (qf 1 4) 0; blowing (sec 1) 1 (qf 1 4) 0] = Ok ([((1 # 2)%Q, [[1; 5]; [30; 50]]%Q)], sec 1) /\
  sky 0 [blowing 0 1 (qf 1 4) 0; blowing (sec 1) 1 (qf 1 4) 0; blowing (sec 4) 1 (qf 1 4) (qi 90)] = Ok ([(2%Q, [[18; 80]; [8; 60]]%Q)], sec 4) /\
  sky 0 [blowing (sec 4) 1 (qf 1 4) (- qi 270)] = Ok ([(2%Q, [[18; 80]; [8; 60]]%Q)], sec 4) /\
  sky 0 [blowing (sec 4) 1 (qf 1 4) 0; blowing (sec 7) 1 (qf 1 4) 0] = Ok ([(0%Q, [[0; 2]; [20; 40]]%Q)], sec 7) /\
  sky (qi 1) [blowing (sec 3) 1 (qf 1 4) 0] = Ok ([((3 # 2)%Q, [[8; 18]; [60; 80]]%Q)], sec 3) /\
  sky 0 [blowing (sec 4) 0 (qf 1 4) 0] = Ok ([(2%Q, [[0; 0]; [0; 0]]%Q)], sec 4).
Proof. repeat (split; [vm_compute; reflexivity|]). vm_compute. reflexivity. Qed.

Example C83_gentle : gentle (qf 1 2) [thin (qi 1)] [blowing 0 1 (qf 1 4) 0; blowing (sec 1) 1 (qf 1 4) 0].
Proof.
  split; [|split].
  - intros s [<-|[]]. split; [|split; [cbn; lia|vm_compute; discriminate]]. split; [reflexivity|]. split; [reflexivity|]. split; [|reflexivity]. intros x [<-|[<-|[]]]; reflexivity.
  - intros [|w1 [|w2 h]] w r E; injection E; intros; subst; cbn; try lia. now destruct h.
  - intros w [<-|[<-|[]]]; (split; [reflexivity|]); intros [|k] Hk; try (cbn in Hk; lia); split; vm_compute; try discriminate; reflexivity.
Qed.

(* Claim: the wind may blow backwards. *)
Theorem C83_backwards_refuted : exists w, fst (nth 0 (we_wind w) (0, 0)) = - qf 1 4 /\ sky 0 [w] = Err ValueError.
Proof. exists (blowing (sec 1) 1 (- qf 1 4) 0). split; [apply Qc_is_canon; reflexivity|]. vm_compute. reflexivity. Qed.
(* Claim: any extra time is accepted or rejected when the object is made (here the first
   triggers pass with little wind and a later one fails). *)
Theorem C83_extra_refuted : exists e w w' v, sky e [w] = Ok v /\ sky e [w; w'] = Err ValueError /\ 0 <= fst (nth 0 (we_wind w') (0, 0)).
Proof. exists (qi 4), (blowing 0 1 (qf 1 8) 0), (blowing (sec 1) 1 1 0). eexists. split; [vm_compute; reflexivity|]. split; [vm_compute; reflexivity|]. vm_compute. discriminate. Qed.
(* Claim: screens are periodic: the layer after one screen of wind is at the same position. *)
Theorem C83_periodic_refuted : exists v w1 w2, fst (nth 0 (we_wind w2) (0, 0)) = v /\ v * elapsed 0 (we_t w2) / qf 1 2 = qnat 5 + v * elapsed 0 (we_t w1) / qf 1 2 /\ fst (nth 0 (we_wind w1) (0, 0)) = v /\
  match sky 0 [w1], sky 0 [w2] with Ok (a, _), Ok (b, _) => a <> b | _, _ => False end.
Proof. exists (qf 1 2), (blowing (sec 1) 1 (qf 1 2) 0), (blowing (sec 6) 1 (qf 1 2) 0). split; [reflexivity|]. split; [apply Qc_is_canon; reflexivity|]. split; [reflexivity|]. vm_compute. discriminate. Qed.
(* Claim: the same wind shows the same screen however often the atmosphere is triggered. *)
Theorem C83_sampling_refuted : exists v w1 w2, (forall w, In w [w1; w2] -> fst (nth 0 (we_wind w) (0, 0)) = v) /\ sky 0 [w1; w2] <> sky 0 [w2].
Proof. exists (qf 1 2), (blowing (sec 3) 1 (qf 1 2) 0), (blowing (sec 4) 1 (qf 1 2) 0). split; [intros w [<-|[<-|[]]]; reflexivity|]. vm_compute. discriminate. Qed.
Print Assumptions C83_evolution.
Print Assumptions C83_since.
Print Assumptions C83_frozen.
Print Assumptions C83_constant.
Print Assumptions C83_ahead.
Print Assumptions C83_no_seeing.
Print Assumptions C83_full_turn.
Print Assumptions C83_two.
Print Assumptions C83_backwards_refuted.
Print Assumptions C83_extra_refuted.
Print Assumptions C83_periodic_refuted.
Print Assumptions C83_sampling_refuted.
