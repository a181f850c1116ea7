From Coq Require Import List ZArith Bool Arith QArith Qcanon Lqa Lia.
From Verif Require Import PyBase PyLemmas Arith ArithLemmas FilterSpec SumLemmas OpticalModel ExtModel QcTac InterpModel InterpProofs AtmoModel AtmoSpec AtmoProofs SlopecSpec InfModel InfSpec InfProofs InfProofs2.
Import ListNotations.
Local Open Scope nat_scope.

Definition leaf0 : leaf := mkLeaf (mkGeom 0 (fun _ => []) (fun _ => []) []) (fun _ => []) 0 0%Qc.
Definition inf0 : inf := mkInf [] None None 0.

Section R.
Variables cosd sind root : Qc -> Qc.
Variable pitch : Qc.
Variable strength : Qc -> Qc.
Notation waft := (waft cosd sind root pitch).
Notation waft_all := (waft_all cosd sind root pitch).
Notation evolution := (evolution_inf cosd sind root pitch strength).

Lemma waft_all_nth ls : forall ss vs ws cn2 dt c r, waft_all ls ss vs ws cn2 dt c = Ok r ->
  length ss = length ls /\ length vs = length ls /\ length ws = length ls /\ length ls <= length cn2 /\ length (fst r) = length ls /\ length (snd r) = length ls /\
  forall k, k < length ls -> let q := waft (nth k ls leaf0) (nth k ss inf0) (v_track (nth k vs still)) (fst (nth k ws (0, 0)%Qc)) (snd (nth k ws (0, 0)%Qc)) dt in
    nth k (fst r) inf0 = fst (fst q) /\ nth k (snd r) still = mkVeil (snd (fst q)) (Some (scaled c (root (nth k cn2 0%Qc)) (snd q))).
Proof.
  induction ls as [|l ls IH]; intros [|s ss] [|v vs] [|w ws] cn2 dt c r H; cbn [InfModel.waft_all] in H; try discriminate.
  - injection H as <-. repeat split; cbn in *; lia.
  - destruct (waft l s (v_track v) (fst w) (snd w) dt) as [[s1 k1] ph] eqn:E. destruct cn2 as [|q cn2]; [discriminate|]. inv_bind H. injection H as <-.
    destruct (IH _ _ _ _ _ _ _ E0) as (A & B & C & D & F & G & I). cbn [length fst snd]. repeat split; try lia;
      destruct k; cbn [nth]; rewrite ?E; try reflexivity; apply I; lia.
Qed.
Lemma waft_all_ok ls : forall ss vs ws cn2 dt c, length ss = length ls -> length vs = length ls -> length ws = length ls -> length ls <= length cn2 -> exists r, waft_all ls ss vs ws cn2 dt c = Ok r.
Proof.
  induction ls as [|l ls IH]; intros [|s ss] [|v vs] [|w ws] cn2 dt c A B C D; cbn in A, B, C; try discriminate; cbn [InfModel.waft_all].
  - eauto.
  - destruct (waft l s (v_track v) (fst w) (snd w) dt) as [[s1 k1] ph] eqn:E. destruct cn2 as [|q cn2]; [cbn in D; lia|]. cbn in D.
    destruct (IH ss vs ws cn2 dt c) as [r Er]; try lia. rewrite Er. cbn. eauto.
Qed.
Lemma waft_all_short ls : forall ss vs ws cn2 dt c, length ss = length ls -> length vs = length ls -> length ws = length ls -> length cn2 < length ls -> waft_all ls ss vs ws cn2 dt c = Err IndexError.
Proof.
  induction ls as [|l ls IH]; intros [|s ss] [|v vs] [|w ws] cn2 dt c A B C D; cbn in A, B, C, D; try discriminate; try lia; cbn [InfModel.waft_all].
  destruct (waft l s (v_track v) (fst w) (snd w) dt) as [[s1 k1] ph] eqn:E. destruct cn2 as [|q cn2]; [reflexivity|]. cbn in D. rewrite IH by lia. reflexivity.
Qed.

Lemma fold_res_snoc {S X} (f : S -> X -> res S) l : forall s x, fold_res f s (l ++ [x]) = bind (fold_res f s l) (fun s1 => f s1 x).
Proof. induction l as [|y l IH]; intros s x; cbn. - destruct (f s x); reflexivity. - destruct (f s y); cbn; auto. Qed.
Lemma evolution_inf_snoc ls cn2 sc hist w : evolution ls cn2 sc (hist ++ [w]) = bind (evolution ls cn2 sc hist) (fun st => evolve_inf cosd sind root pitch strength ls cn2 st w).
Proof. apply fold_res_snoc. Qed.

Lemma evolution_inf_state ls cn2 sc hist ss vs t : length sc = length ls -> evolution ls cn2 sc hist = Ok (ss, vs, t) -> length ss = length ls /\ length vs = length ls /\ t = end_time 0 (moments 0 hist).
Proof.
  intros Hs. revert ss vs t. induction hist as [|w h IH] using rev_ind; intros ss vs t H.
  - injection H as <- <- <-. rewrite !map_length. auto.
  - rewrite evolution_inf_snoc in H. inv_bind H. destruct a as [[s1 v1] t1]. unfold evolve_inf in H. cbn [fst snd] in H. inv_bind H. destruct a as [s2 v2]. injection H as <- <- <-.
    destruct (waft_all_nth _ _ _ _ _ _ _ _ E0) as (_ & _ & _ & _ & A & B & _). cbn [fst snd] in *. split; [exact A|]. split; [exact B|]. unfold moments. rewrite map_app. symmetry. apply end_app.
Qed.

(* effective position of layer k after the triggers *)
Definition place (extra : Qc) (k : nat) (hist : list weather) : Qc :=
  match rev hist with [] => 0%Qc | w :: _ => (path pitch 0 (moments k hist) + fst (nth k (we_wind w) (0, 0)%Qc) * extra / pitch)%Qc end.
Lemma place_snoc e k h w : place e k (h ++ [w]) = (path pitch 0 (moments k (h ++ [w])) + fst (nth k (we_wind w) (0, 0)%Qc) * e / pitch)%Qc.
Proof. unfold place. rewrite rev_app_distr. reflexivity. Qed.

Hypothesis Hroot : forall x, (0 <= x)%Qc -> root (x * x)%Qc = x.
(* layer k always moves in the same direction and never goes back *)
Definition forward (row after : bool) (e : Qc) (k : nat) (hist : list weather) : Prop :=
  forall h w r, hist = h ++ w :: r -> heads cosd sind row after (snd (nth k (we_wind w) (0, 0)%Qc)) /\ (place e k h <= place e k (h ++ [w]))%Qc.
Lemma forward_pre row after e k h w : forward row after e k (h ++ [w]) -> forward row after e k h.
Proof. intros F h1 w1 r E. apply (F h1 w1 (r ++ [w])). rewrite E, <- app_assoc. reflexivity. Qed.

Section L.
Variables row after : bool.
Variable ls : list leaf.
Variable sc : list (list (list Qc)).
Variable k : nat.
Hypothesis Hk : k < length ls.
Hypothesis Hs : length sc = length ls.
Let l := nth k ls leaf0.
Hypothesis Hg : geom_ok (l_geom l).
Hypothesis Hn : forall j, length (l_noise l j) = g_n (l_geom l).
Hypothesis Hm : l_size l <= g_n (l_geom l).
Variable f : nat -> nat -> Qc.
Hypothesis Hf : square_of (g_n (l_geom l)) f (nth k sc []).
Variable P : nat -> nat -> Qc.
Hypothesis HP : strip (l_geom l) (l_noise l) row after f P.

Lemma run_strip cn2 hist : forall ss vs t, forward row after (l_extra l) k hist -> evolution ls cn2 sc hist = Ok (ss, vs, t) ->
  riding row after l P (place (l_extra l) k hist) (nth k ss inf0) (v_track (nth k vs still)) /\ t_pos (v_track (nth k vs still)) = path pitch 0 (moments k hist) /\
  forall h w m q, hist = h ++ [w] -> whole (place (l_extra l) k hist) m q -> exists ph, v_phase (nth k vs still) = Some ph /\
    square_of (l_size l) (fun i j => glimpse veps P m q (across row i j) (depth row after (g_n (l_geom l)) i j) * (coeff strength (we_seeing w) * root (nth k cn2 0%Qc)))%Qc ph.
Proof.
  induction hist as [|w h IH] using rev_ind; intros ss vs t F E.
  - injection E as <- <- <-. assert (E1 : nth k (map fresh sc) inf0 = fresh (nth k sc [])) by (rewrite (nth_indep _ inf0 (fresh [])) by (rewrite map_length; lia); apply map_nth).
    assert (E2 : nth k (map (fun _ => still) sc) still = still) by apply (map_nth (fun _ => still) sc []). rewrite E1, E2. split; [|split].
    + exists 0, 0%Qc. split; [split; [reflexivity|split; [apply Qcle_refl|reflexivity]]|]. split; [|split; [|split; [reflexivity|]]].
      * eapply square_ext; [exact Hf|]. intros i j Hi Hj. symmetry. now apply HP.
      * split; [destruct row; reflexivity|]. left. destruct row; split; reflexivity.
      * cbn [still v_track t_rows t_cols]. destruct row, after; split; reflexivity.
    + reflexivity.
    + intros h w m q X. now destruct h.
  - rewrite evolution_inf_snoc in E. inv_bind E. destruct a as [[s1 v1] t1]. rename E0 into Eh. unfold evolve_inf in E. cbn [fst snd] in E. inv_bind E. destruct a as [s2 v2]. injection E as <- <- <-.
    destruct (IH _ _ _ (forward_pre _ _ _ _ _ _ F) Eh) as (Ri & Tp & _). destruct (waft_all_nth _ _ _ _ _ _ _ _ E0) as (_ & _ & _ & _ & _ & _ & X). cbn [fst snd] in X. destruct (X k Hk) as [X1 X2]. cbv zeta in X1, X2. fold l in X1, X2.
    destruct (evolution_inf_state _ _ _ _ _ _ _ Hs Eh) as (_ & _ & Et).
    destruct (F h w [] eq_refl) as [Hd Hle]. rewrite place_snoc in Hle.
    assert (Py : (t_pos (v_track (nth k v1 still)) + fst (nth k (we_wind w) (0, 0)%Qc) * seconds (we_t w - t1) / pitch)%Qc = path pitch 0 (moments k (h ++ [w]))).
    { rewrite Tp. unfold moments. rewrite map_app, path_app. fold (moments k h). rewrite end_moments, <- Et. cbn [map path]. unfold elapsed, seconds. ring. }
    pose proof (waft_step cosd sind root pitch Hroot row after l Hg Hn Hm P (proj2 HP) _ _ _ (fst (nth k (we_wind w) (0, 0)%Qc)) (snd (nth k (we_wind w) (0, 0)%Qc)) (seconds (we_t w - t1)) Ri Hd) as W. cbv zeta in W. rewrite Py in W. specialize (W Hle).
    destruct W as (W1 & W2 & W3). rewrite X1, X2, place_snoc. cbn [v_track v_phase]. split; [exact W1|]. split; [exact W2|].
    intros h' w' m q Eq Wq. apply app_inj_tail in Eq as [<- <-]. eexists. split; [reflexivity|]. apply scaled_square. now apply W3.
Qed.
End L.
End R.
