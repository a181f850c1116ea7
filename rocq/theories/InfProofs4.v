From Coq Require Import List ZArith Bool Arith QArith Qcanon Lqa Lia.
From Verif Require Import PyBase PyLemmas Arith ArithLemmas FilterSpec SumLemmas OpticalModel ExtModel QcTac InterpModel InterpProofs AtmoModel AtmoSpec AtmoProofs SlopecSpec InfModel InfSpec InfProofs InfProofs2 InfProofs3.
Import ListNotations.
Local Open Scope nat_scope.

(* ------------------------------------------- the same lines from two random generators *)
Definition alike (s s' : inf) : Prop := i_full s' = i_full s /\ i_col s' = i_col s /\ i_row s' = i_row s.
Section N.
Variable g : geom.
Variables noise noise' : nat -> list Qc.
(* the second state draws from position e the vectors that the first draws from d *)
Definition agree (d e n : nat) : Prop := forall i, i < n -> noise' (e + i) = noise (d + i).
Definition follow (s s' t t' : inf) (n : nat) : Prop := exists m, m <= n /\ i_drawn t = i_drawn s + m /\ i_drawn t' = i_drawn s' + m /\ alike t t'.

Lemma add_line_drawn s row after flush : i_drawn s <= i_drawn (add_line g noise s row after flush).
Proof. rewrite add_line_eq. cbn. unfold after_draw. destruct (pending s row); lia. Qed.
Lemma add_lines_drawn k s row after : i_drawn s <= i_drawn (add_lines g noise k s row after).
Proof. unfold add_lines. induction k as [|k IH]; cbn [Nat.iter nat_rect]; [lia|]. etransitivity; [exact IH|apply add_line_drawn]. Qed.

Lemma add_line_follow s s' row after flush : alike s s' -> agree (i_drawn s) (i_drawn s') (i_drawn (add_line g noise s row after flush) - i_drawn s) ->
  alike (add_line g noise s row after flush) (add_line g noise' s' row after flush) /\
  i_drawn (add_line g noise' s' row after flush) = i_drawn s' + (i_drawn (add_line g noise s row after flush) - i_drawn s).
Proof.
  intros (A & B & C) H. rewrite !add_line_eq in *. cbn [i_full i_col i_row i_drawn] in *.
  assert (U : upcoming noise' s' row = upcoming noise s row /\ after_draw s' row = i_drawn s' + (after_draw s row - i_drawn s)).
  { unfold upcoming, after_draw, pending in *. rewrite B, C. destruct row; [destruct (i_row s)|destruct (i_col s)]; (split; [|lia]); try reflexivity; specialize (H 0 ltac:(lia)); now rewrite !Nat.add_0_r in H. }
  destruct U as [U D]. unfold alike. cbn [i_full i_col i_row i_drawn]. rewrite U, D, A, B, C. auto.
Qed.
Lemma agree_le d e n m : agree d e n -> m <= n -> agree d e m. Proof. intros H L i Hi. apply H. lia. Qed.
Lemma agree_drop d e n m : agree d e (m + n) -> agree (d + m) (e + m) n.
Proof. intros H i Hi. rewrite <- !Nat.add_assoc. apply H. lia. Qed.

(* composition of two stages *)
Lemma two_stages s s' t t' u u' : i_drawn s <= i_drawn t -> i_drawn t <= i_drawn u ->
  (agree (i_drawn s) (i_drawn s') (i_drawn t - i_drawn s) -> alike t t' /\ i_drawn t' = i_drawn s' + (i_drawn t - i_drawn s)) ->
  (alike t t' -> agree (i_drawn t) (i_drawn t') (i_drawn u - i_drawn t) -> alike u u' /\ i_drawn u' = i_drawn t' + (i_drawn u - i_drawn t)) ->
  agree (i_drawn s) (i_drawn s') (i_drawn u - i_drawn s) -> alike u u' /\ i_drawn u' = i_drawn s' + (i_drawn u - i_drawn s).
Proof.
  intros L1 L2 H1 H2 A. destruct H1 as [Al E]; [apply (agree_le _ _ _ _ A); lia|].
  assert (A2 : agree (i_drawn t) (i_drawn t') (i_drawn u - i_drawn t)).
  { rewrite E. replace (i_drawn t) with (i_drawn s + (i_drawn t - i_drawn s)) at 1 by lia. apply agree_drop. apply (agree_le _ _ _ _ A). lia. }
  destruct (H2 Al A2) as [Al2 E2]. split; [exact Al2|]. lia.
Qed.
Lemma add_lines_follow k s s' row after : alike s s' -> agree (i_drawn s) (i_drawn s') (i_drawn (add_lines g noise k s row after) - i_drawn s) ->
  alike (add_lines g noise k s row after) (add_lines g noise' k s' row after) /\
  i_drawn (add_lines g noise' k s' row after) = i_drawn s' + (i_drawn (add_lines g noise k s row after) - i_drawn s).
Proof.
  intros Al. induction k as [|k IH].
  - intros _. unfold add_lines. cbn. split; [exact Al|lia].
  - unfold add_lines in *. cbn [Nat.iter nat_rect] in *. apply (two_stages s s' (Nat.iter k (fun x => add_line g noise x row after true) s) (Nat.iter k (fun x => add_line g noise' x row after true) s')).
    + apply (add_lines_drawn k).
    + apply add_line_drawn.
    + exact IH.
    + apply add_line_follow.
Qed.
End N.

Section W.
Variables cosd sind root : Qc -> Qc.
Variable pitch : Qc.
Variables (g : geom) (size : nat) (extra : Qc) (noise noise' : nat -> list Qc).
Notation l := (mkLeaf g noise size extra).
Notation l' := (mkLeaf g noise' size extra).
Notation wf := (waft cosd sind root pitch).

Lemma waft_drawn s k v dir dt : i_drawn s <= i_drawn (fst (fst (wf l s k v dir dt))).
Proof.
  unfold waft. cbn [l_geom l_noise l_size l_extra]. destruct (modf _) as [fr rows]. destruct (modf _) as [fc cols]. cbn [fst snd i_drawn].
  repeat match goal with |- context [if qlt ?a ?b then add_line ?g ?n ?s ?x ?y ?z else ?t] => match t with s => lazymatch goal with |- _ <= i_drawn (if qlt a b then add_line g n s x y z else s) => transitivity (i_drawn s); [|destruct (qlt a b); [apply add_line_drawn|lia]] end end end.
  repeat match goal with |- context [if qlt ?a ?b then add_lines ?g ?n ?k ?s ?x ?y else ?t] => match t with s => lazymatch goal with |- _ <= i_drawn (if qlt a b then add_lines g n k s x y else s) => transitivity (i_drawn s); [|destruct (qlt a b); [apply add_lines_drawn|lia]] end end end.
  lia.
Qed.
Lemma waft_follow s s' k v dir dt : alike s s' -> let r := wf l s k v dir dt in let r' := wf l' s' k v dir dt in
  agree noise noise' (i_drawn s) (i_drawn s') (i_drawn (fst (fst r)) - i_drawn s) ->
  alike (fst (fst r)) (fst (fst r')) /\ i_drawn (fst (fst r')) = i_drawn s' + (i_drawn (fst (fst r)) - i_drawn s) /\ snd (fst r') = snd (fst r) /\ snd r' = snd r.
Proof.
  intros Al r r'. subst r r'. unfold waft. cbn [l_geom l_noise l_size l_extra]. destruct (modf _) as [fr rows]. destruct (modf _) as [fc cols]. cbn [fst snd i_drawn].
  set (b1 := qlt veps (qabs (cosd dir))). set (b2 := qlt veps (qabs (sind dir))). set (b3 := qlt veps (qabs fr)). set (b4 := qlt veps (qabs fc)).
  set (s1 := if b1 then add_lines g noise (Z.abs_nat rows) s true (0 <? rows)%Z else s).
  set (s1' := if b1 then add_lines g noise' (Z.abs_nat rows) s' true (0 <? rows)%Z else s').
  set (s2 := if b2 then add_lines g noise (Z.abs_nat cols) s1 false (0 <? cols)%Z else s1).
  set (s2' := if b2 then add_lines g noise' (Z.abs_nat cols) s1' false (0 <? cols)%Z else s1').
  set (s3 := if b3 then add_line g noise s2 true (qlt 0 fr) false else s2).
  set (s3' := if b3 then add_line g noise' s2' true (qlt 0 fr) false else s2').
  set (s4 := if b4 then add_line g noise s3 false (qlt 0 fc) false else s3).
  set (s4' := if b4 then add_line g noise' s3' false (qlt 0 fc) false else s3').
  assert (D1 : i_drawn s <= i_drawn s1) by (unfold s1; destruct b1; [apply add_lines_drawn|lia]).
  assert (D2 : i_drawn s1 <= i_drawn s2) by (unfold s2; destruct b2; [apply add_lines_drawn|lia]).
  assert (D3 : i_drawn s2 <= i_drawn s3) by (unfold s3; destruct b3; [apply add_line_drawn|lia]).
  assert (D4 : i_drawn s3 <= i_drawn s4) by (unfold s4; destruct b4; [apply add_line_drawn|lia]).
  assert (F1 : agree noise noise' (i_drawn s) (i_drawn s') (i_drawn s1 - i_drawn s) -> alike s1 s1' /\ i_drawn s1' = i_drawn s' + (i_drawn s1 - i_drawn s)).
  { unfold s1, s1'. destruct b1; [now apply add_lines_follow|]. intros _. split; [exact Al|lia]. }
  assert (F2 : agree noise noise' (i_drawn s) (i_drawn s') (i_drawn s2 - i_drawn s) -> alike s2 s2' /\ i_drawn s2' = i_drawn s' + (i_drawn s2 - i_drawn s)).
  { apply (two_stages noise noise' s s' s1 s1'); auto. intros Al1. unfold s2, s2'. destruct b2; [now apply add_lines_follow|]. intros _. split; [exact Al1|lia]. }
  assert (F3 : agree noise noise' (i_drawn s) (i_drawn s') (i_drawn s3 - i_drawn s) -> alike s3 s3' /\ i_drawn s3' = i_drawn s' + (i_drawn s3 - i_drawn s)).
  { apply (two_stages noise noise' s s' s2 s2'); auto; try lia. intros Al1. unfold s3, s3'. destruct b3; [now apply add_line_follow|]. intros _. split; [exact Al1|lia]. }
  assert (F4 : agree noise noise' (i_drawn s) (i_drawn s') (i_drawn s4 - i_drawn s) -> alike s4 s4' /\ i_drawn s4' = i_drawn s' + (i_drawn s4 - i_drawn s)).
  { apply (two_stages noise noise' s s' s3 s3'); auto; try lia. intros Al1. unfold s4, s4'. destruct b4; [now apply add_line_follow|]. intros _. split; [exact Al1|lia]. }
  intros A. destruct (F4 A) as [(X1 & X2 & X3) X4]. destruct F2 as [(Y1 & _) _]; [apply (agree_le _ _ _ _ _ _ A); lia|].
  split; [|split; [exact X4|split; [reflexivity|]]].
  - unfold alike. cbn [i_full i_col i_row]. auto.
  - now rewrite X1, Y1.
Qed.
End W.

(* ------------------------------------------------ one layer of two lists sharing screens *)
Section D.
Variables cosd sind root : Qc -> Qc.
Variable pitch : Qc.
Variable strength : Qc -> Qc.
Variables downs ups : list leaf.
Variable cn2 : list Qc.
Variable k : nat.
Hypothesis Hk : k < length downs.
Hypothesis Hu : length ups = length downs.
Hypothesis Hfirst : down_first downs ups = true.
Let l := nth k downs leaf0.
(* the weather of layer k alone, and its layer with other random numbers *)
Definition alone (w : weather) : weather := mkWeather (we_t w) (we_seeing w) [nth k (we_wind w) (0, 0)%Qc].
Definition with_noise (x : leaf) (noise' : nat -> list Qc) : leaf := mkLeaf (l_geom x) noise' (l_size x) (l_extra x).
Notation step2 := (evolve_inf2 cosd sind root pitch strength downs ups cn2).
Notation step1 := (fun noise' => evolve_inf cosd sind root pitch strength [with_noise l noise'] [nth k cn2 0%Qc]).

Lemma ok4 {X Y Z W} (a a' : X) (b b' : Y) (c c' : Z) (d d' : W) : Ok (a, b, c, d) = Ok (a', b', c', d') -> a' = a /\ b' = b /\ c' = c /\ d' = d.
Proof. intros [= -> -> -> ->]. auto. Qed.
Lemma map2_restore_nth a b : length a = length downs -> length b = length downs -> nth k (map2 restore a b) inf0 = restore (nth k a inf0) (nth k b inf0).
Proof. intros A B. apply map2_nth; lia. Qed.

Lemma down_step ss dv uv t0 w ss1 dv1 uv1 t1 : step2 (ss, dv, uv, t0) w = Ok (ss1, dv1, uv1, t1) ->
  exists q, q = waft cosd sind root pitch l (nth k ss inf0) (v_track (nth k dv still)) (fst (nth k (we_wind w) (0, 0)%Qc)) (snd (nth k (we_wind w) (0, 0)%Qc)) (seconds (we_t w - t0)) /\
    nth k dv1 still = mkVeil (snd (fst q)) (Some (scaled (coeff strength (we_seeing w)) (root (nth k cn2 0%Qc)) (snd q))) /\
    alike (fst (fst q)) (nth k ss1 inf0) /\ i_drawn (fst (fst q)) <= i_drawn (nth k ss1 inf0) /\ t1 = we_t w.
Proof.
  unfold evolve_inf2. rewrite Hfirst. intros H. inv_bind H. inv_bind H. rename a into r. rename a0 into u. apply ok4 in H as (-> & -> & -> & ->).
  destruct (waft_all_nth _ _ _ _ _ _ _ _ _ _ _ _ E) as (_ & _ & _ & _ & L1 & _ & X). destruct (X k Hk) as [X1 X2]. cbv zeta in X1, X2. fold l in X1, X2.
  destruct (waft_all_nth _ _ _ _ _ _ _ _ _ _ _ _ E0) as (_ & _ & _ & _ & L2 & _ & Y). destruct (Y k ltac:(lia)) as [Y1 _]. cbv zeta in Y1.
  remember (waft cosd sind root pitch l (nth k ss inf0) (v_track (nth k dv still)) (fst (nth k (we_wind w) (0, 0)%Qc)) (snd (nth k (we_wind w) (0, 0)%Qc)) (seconds (we_t w - t0))) as q eqn:Q.
  exists q. split; [reflexivity|]. split; [exact X2|]. rewrite map2_restore_nth by lia. rewrite X1.
  assert (D : i_drawn (fst (fst q)) <= i_drawn (nth k (fst u) inf0)). { rewrite Y1, X1. destruct (nth k ups leaf0) as [gu nu mu eu]. apply waft_drawn. }
  destruct q as [[q1 q2] q3]. cbn [fst snd] in *. split; [now repeat split|]. split; [exact D|reflexivity].
Qed.

Lemma down_follows hist : forall ss dv uv t0 ss1 dv1 uv1 t1 s', fold_res step2 (ss, dv, uv, t0) hist = Ok (ss1, dv1, uv1, t1) -> alike (nth k ss inf0) s' ->
  exists phi, i_drawn (nth k ss inf0) <= phi 0 /\ (forall i, phi i < phi (S i)) /\ forall noise', (forall i, noise' (i_drawn s' + i) = l_noise l (phi i)) ->
    exists s1, fold_res (step1 noise') ([s'], [nth k dv still], t0) (map alone hist) = Ok ([s1], [nth k dv1 still], t1) /\ alike (nth k ss1 inf0) s1.
Proof.
  induction hist as [|w h IH]; intros ss dv uv t0 ss1 dv1 uv1 t1 s' H Al.
  - injection H as <- <- <- <-. exists (fun i => i_drawn (nth k ss inf0) + i). split; [lia|]. split; [intros; lia|]. intros noise' _. exists s'. split; [reflexivity|exact Al].
  - cbn [fold_res] in H. inv_bind H. destruct a as [[[ss2 dv2] uv2] t2]. destruct (down_step _ _ _ _ _ _ _ _ _ E) as (q & Q & V & A & D & T).
    set (s := nth k ss inf0) in *. set (n := i_drawn (fst (fst q)) - i_drawn s).
    assert (Dq : i_drawn s <= i_drawn (fst (fst q))) by (rewrite Q; destruct l as [gl nl ml el]; apply waft_drawn).
    set (s2' := mkInf (i_full (fst (fst q))) (i_col (fst (fst q))) (i_row (fst (fst q))) (i_drawn s' + n)).
    assert (A2 : alike (nth k ss2 inf0) s2') by (destruct A as (A1 & A2 & A3); unfold alike, s2'; cbn; auto).
    destruct (IH _ _ _ _ _ _ _ _ s2' H A2) as (phi & P0 & P1 & P2).
    exists (fun i => if i <? n then i_drawn s + i else phi (i - n)). split; [|split].
    + destruct (Nat.ltb_spec 0 n); [lia|]. replace (0 - n) with 0 by lia. lia.
    + intros i. destruct (Nat.ltb_spec i n), (Nat.ltb_spec (S i) n); try lia.
      * replace (S i - n) with 0 by lia. lia.
      * replace (S i - n) with (S (i - n)) by lia. apply P1.
    + intros noise' Hn. destruct (P2 noise') as (s1 & F & G).
      { intros i. unfold s2'. cbn [i_drawn]. rewrite <- Nat.add_assoc, Hn. destruct (Nat.ltb_spec (n + i) n); [lia|]. now replace (n + i - n) with i by lia. }
      exists s1. split; [|exact G]. rewrite <- F. cbn [map fold_res]. unfold evolve_inf at 1. cbn [fst snd alone we_t we_seeing we_wind InfModel.waft_all].
      pose proof (waft_follow cosd sind root pitch (l_geom l) (l_size l) (l_extra l) (l_noise l) noise' s s' (v_track (nth k dv still)) (fst (nth k (we_wind w) (0, 0)%Qc)) (snd (nth k (we_wind w) (0, 0)%Qc)) (seconds (we_t w - t0)) Al) as W. cbv zeta in W.
      replace (mkLeaf (l_geom l) (l_noise l) (l_size l) (l_extra l)) with l in W by (now destruct l). rewrite <- Q in W.
      destruct W as ((B1 & B2 & B3) & B4 & B5 & B6). { fold n. intros i Hi. rewrite Hn. now destruct (Nat.ltb_spec i n); [|lia]. }
      unfold with_noise. destruct (waft _ _ _ _ (mkLeaf _ noise' _ _) _ _ _ _ _) as [[z1 z2] z3]. cbn [fst snd] in *. subst z2 z3.
      cbn [bind fst snd]. rewrite V, T. do 3 f_equal. f_equal. f_equal. unfold s2'. destruct z1 as [z1 z2 z3 z4]. cbn in *. fold n in B4. congruence.
Qed.
End D.
