(* C54: calibration of interaction matrices. *)
From Coq Require Import List ZArith Bool Lia PeanoNat QArith Qcanon.
From Verif Require Import PyBase PyLemmas Arith ArithLemmas NpModel NpSpec NpProofs NpSegments VecModel VecProofs2 CalibModel CalibSpec CalibProofs
  Properties_Filter.
Import ListNotations.
Local Open Scope nat_scope.

Section T.
Context {A : arith} (nz : A -> bool) (ofn : nat -> A).

Lemma im_run nmodes ns first hist : 0 < nmodes -> 0 < ns ->
  (forall p, In p (fresh_frames hist) -> length (fst p) = ns /\ single nz (snd p) /\ from_first nz first (snd p)) ->
  exists c, fold_res (im_trigger nz nmodes first) (cal_new nmodes) hist = Ok c /\
    match fresh_frames hist with [] => c = cal_new nmodes | fr => accumulated nz nmodes ns first fr c end.
Proof.
  intros Hn Hs. induction hist as [|f hist IH] using rev_ind; intros H; [exists (cal_new nmodes); now split|].
  unfold fresh_frames in *. rewrite filter_app, map_app in *. cbn [filter] in *.
  destruct IH as (c & E & I); [intros p Hp; apply H; apply in_or_app; now left|]. rewrite fold_res_snoc, E. cbn [bind]. unfold im_trigger.
  destruct (fr_gen f =? fr_t f)%Z; cbn [map app] in *; [|rewrite app_nil_r; exists c; now split].
  destruct (H (fr_slopes f, fr_cmds f)) as (L & S1 & F1); [apply in_or_app; right; now left|]. cbn [fst snd] in *.
  set (fr := map (fun f0 : frame A => (fr_slopes f0, fr_cmds f0)) (filter (fun f0 : frame A => (fr_gen f0 =? fr_t f0)%Z) hist)) in *.
  assert (HF : forall p, In p fr -> length (fst p) = ns) by (intros p Hp; apply H; apply in_or_app; now left).
  set (c1 := if nslopes c =? 0 then set_nslopes (length (fr_slopes f)) c else c).
  assert (I1 : accumulated nz nmodes ns first fr c1).
  { destruct fr as [|p fr'] eqn:Efr.
    - subst c. unfold c1, cal_new, nslopes. cbn [cl_cols]. destruct nmodes as [|k]; [lia|]. cbn [repeat hd length Nat.eqb].
      rewrite L. apply accumulated_nil; cbn [cl_cols cl_counts]; [cbn; now rewrite repeat_length|reflexivity].
    - replace c1 with c; [exact I|]. unfold c1, nslopes. destruct I as [Ic _]. rewrite Ic. destruct nmodes as [|k]; [lia|]. cbn [seq map hd].
      unfold acc. rewrite (fold_vadd_length _ ns); [|apply repeat_length|now apply (responses_length nz ns)]. now rewrite (proj2 (Nat.eqb_neq ns 0)) by lia. }
  destruct (record_ok nz nmodes ns first fr c1 (fr_slopes f) (fr_cmds f) I1 HF L S1 F1) as (c' & E' & I').
  exists c'. split; [exact E'|]. destruct (fr ++ [(fr_slopes f, fr_cmds f)]) eqn:Q; [destruct fr; discriminate|exact I'].
Qed.

(* Column m of the calibrated matrix is the mean, over the frames with fresh slopes that
   poke mode m, of slopes / amplitude; zero for the modes never poked. *)
Theorem C54_average : forall nmodes ns first hist, 0 < nmodes -> 0 < ns ->
  (forall p, In p (fresh_frames hist) -> length (fst p) = ns /\ single nz (snd p) /\ from_first nz first (snd p)) ->
  fresh_frames hist <> [] ->
  im_calibrate nz ofn nmodes first hist =
    Ok (map (fun m => mean_response ofn ns (responses nz first m (fresh_frames hist))) (seq 0 nmodes)).
Proof.
  intros nmodes ns first hist Hn Hs H Hne. destruct (im_run nmodes ns first hist Hn Hs H) as (c & E & I).
  unfold im_calibrate. rewrite E. cbn [bind]. f_equal. apply (normalise_ok nz ofn nmodes ns first).
  - destruct (fresh_frames hist); [congruence|exact I].
  - intros p Hp. now apply H.
Qed.

(* Frames with several non-zero commands are refused, unless there are as many of them
   as slopes. *)
Theorem C54_several : forall nmodes ns first fr (c : cal A) s cmds, accumulated nz nmodes ns first fr c ->
  (forall p, In p fr -> length (fst p) = ns) -> length s = ns -> from_first nz first cmds ->
  1 < length (nonzero nz cmds) -> length (nonzero nz cmds) <> ns ->
  (exists i, hd_error (nonzero nz cmds) = Some i /\ (Z.of_nat i - first < Z.of_nat nmodes)%Z) ->
  record nz nmodes first c s cmds = Err ValueError.
Proof.
  intros nmodes ns first fr c s cmds [I1 I2] Hf Hs F1 H1 H2 (i & Hi & Hm). unfold record.
  destruct (nonzero nz cmds) as [|i' r] eqn:E; [discriminate|]. injection Hi as ->. rewrite (proj2 (Z.ltb_lt _ _) Hm).
  assert (Hin : In i (nonzero nz cmds)) by (rewrite E; now left). apply nonzero_In in Hin as [Q1 Q2]. specialize (F1 i Q1 Q2).
  replace (Z.of_nat i - first)%Z with (Z.of_nat (Z.to_nat (Z.of_nat i - first))) by lia. unfold contribute.
  assert (L1 : length (cl_cols c) = nmodes) by (rewrite I1, map_length, seq_length; reflexivity).
  rewrite (take1_nat (cl_cols c) _ []) by lia. cbn [bind].
  set (amps := map (fun k => nth k cmds zer) (i :: r)). assert (LA : length amps = length (i :: r)) by apply map_length.
  unfold bcast. destruct (length s =? length amps) eqn:Eq; [apply Nat.eqb_eq in Eq; congruence|].
  destruct amps as [|a [|a2 amps']]; [cbn in LA; lia|cbn in LA, H1; lia|].
  destruct s as [|x [|y s']]; [reflexivity| |reflexivity]. cbn [bind]. cbn [length] in Hs. subst ns.
  assert (LC : length (nth (Z.to_nat (Z.of_nat i - first)) (cl_cols c) []) = 1).
  { rewrite I1, nth_map_seq by lia. unfold acc. apply fold_vadd_length; [reflexivity|now apply (responses_length nz 1)]. }
  unfold iadd. rewrite LC. cbn [length map Nat.eqb bind]. reflexivity.
Qed.

(* A poke of a mode before the first one: counted from the last mode, or IndexError. *)
Theorem C54_before_first : forall nmodes ns first fr (c : cal A) s cmds i, accumulated nz nmodes ns first fr c ->
  nonzero nz cmds = [i] -> (Z.of_nat i - first < - Z.of_nat nmodes)%Z -> record nz nmodes first c s cmds = Err IndexError.
Proof.
  intros nmodes ns first fr c s cmds i [I1 I2] E H. unfold record. rewrite E. rewrite (proj2 (Z.ltb_lt _ _)) by lia.
  unfold contribute, take1, index_pos, zlen. rewrite I1, map_length, seq_length. now rewrite (proj2 (Z.ltb_lt _ _)) by lia.
Qed.

(* The matrix built from recorded slopes and disturbances: same means; a disturbance
   with several non-zero elements counts for the first of them. *)
Theorem C54_from_slopes : forall data nmodes ns, data <> [] ->
  (forall p, In p data -> length (fst p) = ns /\ length (snd p) = nmodes /\ exists i, i < nmodes /\ nz (nth i (snd p) zer) = true) ->
  build_from_slopes nz ofn data = Ok (map (fun m => mean_response ofn ns (responses nz 0 m data)) (seq 0 nmodes)).
Proof.
  intros data nmodes ns Hne H. unfold build_from_slopes. destruct data as [|[s0 a0] data0]; [congruence|].
  destruct (H (s0, a0) (or_introl eq_refl)) as (L0 & L1 & _). cbn [fst snd] in L0, L1. rewrite L0, L1.
  set (data := (s0, a0) :: data0) in *. clearbody data. clear Hne.
  assert (R : exists c, fold_res (fun c p => match nonzero nz (snd p) with [] => Err IndexError
                | i :: _ => contribute c (Z.of_nat i) (fst p) [nth i (snd p) zer] end) (set_nslopes ns (cal_new nmodes)) data = Ok c
              /\ accumulated nz nmodes ns 0 data c).
  { clear s0 a0 data0 L0 L1. induction data as [|[s a] data IH] using rev_ind.
    - eexists. split; [reflexivity|]. apply accumulated_nil; [cbn; apply repeat_length|reflexivity].
    - destruct IH as (c & E & I); [intros p Hp; apply H; apply in_or_app; now left|]. rewrite fold_res_snoc, E. cbn [bind fst snd].
      destruct (H (s, a)) as (L & La & i & Hi & Hz); [apply in_or_app; right; now left|]. cbn [fst snd] in *.
      destruct (nonzero nz a) as [|k r] eqn:En.
      { exfalso. assert (In i (nonzero nz a)) by (apply nonzero_In; split; [lia|exact Hz]). now rewrite En in H0. }
      assert (Hk : In k (nonzero nz a)) by (rewrite En; now left). apply nonzero_In in Hk as [Hk1 Hk2].
      rewrite (contribute_ok nz nmodes ns 0 data) by (auto; try lia; intros p Hp; apply H; apply in_or_app; now left).
      eexists. split; [reflexivity|]. apply accumulated_step; [exact I|lia|]. intros q Hq. unfold amplitude. rewrite find_filter. fold (nonzero nz a). rewrite En.
      cbn [hd_error]. destruct (Nat.eqb_spec q k) as [->|Hn]; [now rewrite Z.sub_0_r, Z.eqb_refl|]. now rewrite (proj2 (Z.eqb_neq _ _)) by lia. }
  destruct R as (c & E & I). rewrite E. cbn [bind]. f_equal. apply (normalise_ok nz ofn nmodes ns 0); [exact I|]. intros p Hp. now apply H.
Qed.
Theorem C54_from_slopes_zero : forall data s a rest, (forall p, In p data -> length (fst p) = length s /\ length (snd p) = length a /\
    exists i, i < length a /\ nz (nth i (snd p) zer) = true) -> (forall i, i < length a -> nz (nth i a zer) = false) ->
  build_from_slopes nz ofn (data ++ (s, a) :: rest) = Err IndexError.
Proof.
  intros data s a rest H Hz. assert (N : nonzero nz a = []).
  { unfold nonzero. destruct (filter _ _) as [|i r] eqn:E; [reflexivity|]. exfalso. assert (In i (nonzero nz a)) by (unfold nonzero; rewrite E; now left).
    apply nonzero_In in H0 as [Q1 Q2]. rewrite Hz in Q2 by exact Q1. discriminate. }
  unfold build_from_slopes. destruct data as [|[s0 a0] data0].
  - cbn [app fold_res]. cbn [fst snd]. rewrite N. reflexivity.
  - cbn [app]. destruct (H (s0, a0) (or_introl eq_refl)) as (L0 & L1 & _). cbn [fst snd] in L0, L1. rewrite L0, L1.
    change ((s0, a0) :: data0 ++ (s, a) :: rest) with (((s0, a0) :: data0) ++ (s, a) :: rest). set (data := (s0, a0) :: data0) in *. clearbody data.
    set (f := fun c p => match nonzero nz (snd p) with [] => Err IndexError | i :: _ => contribute c (Z.of_nat i) (fst p) [nth i (snd p) zer] end).
    assert (FA : forall l1 l2 c, fold_res f c (l1 ++ l2) = (c1 <- fold_res f c l1 ;; fold_res f c1 l2)).
    { induction l1 as [|x l1 IH]; intros l2 c; cbn [app fold_res]; [reflexivity|]. destruct (f c x); cbn [bind]; [apply IH|reflexivity]. }
    rewrite FA.
    assert (R : exists c, fold_res f (set_nslopes (length s) (cal_new (length a))) data = Ok c /\ accumulated nz (length a) (length s) 0 data c).
    { clear s0 a0 data0 L0 L1. induction data as [|[s1 a1] data IH] using rev_ind.
      - eexists. split; [reflexivity|]. apply accumulated_nil; [cbn; apply repeat_length|reflexivity].
      - destruct IH as (c & E & I); [intros p Hp; apply H; apply in_or_app; now left|]. rewrite fold_res_snoc, E. cbn [bind].
        destruct (H (s1, a1)) as (L & La & i & Hi & Hzi); [apply in_or_app; right; now left|]. cbn [fst snd] in *. unfold f. cbn [fst snd].
        destruct (nonzero nz a1) as [|k r] eqn:En.
        { exfalso. assert (In i (nonzero nz a1)) by (apply nonzero_In; split; [lia|exact Hzi]). now rewrite En in H0. }
        assert (Hk : In k (nonzero nz a1)) by (rewrite En; now left). apply nonzero_In in Hk as [Hk1 Hk2].
        rewrite (contribute_ok nz (length a) (length s) 0 data) by (auto; try lia; intros p Hp; apply H; apply in_or_app; now left).
        eexists. split; [reflexivity|]. apply accumulated_step; [exact I|lia|]. intros q Hq. unfold amplitude. rewrite find_filter. fold (nonzero nz a1). rewrite En.
        cbn [hd_error]. destruct (Nat.eqb_spec q k) as [->|Hn]; [now rewrite Z.sub_0_r, Z.eqb_refl|]. now rewrite (proj2 (Z.eqb_neq _ _)) by lia. }
    destruct R as (c & E & I). rewrite E. cbn [bind fold_res]. unfold f at 1. cbn [fst snd]. rewrite N. reflexivity.
Qed.

(* The same recorded frames give the same matrix either way. *)
Theorem C54_same : forall hist nmodes ns, 0 < nmodes -> 0 < ns -> fresh_frames hist <> [] ->
  (forall p, In p (fresh_frames hist) -> length (fst p) = ns /\ length (snd p) = nmodes /\ single nz (snd p) /\
     exists i, i < nmodes /\ nz (nth i (snd p) zer) = true) ->
  im_calibrate nz ofn nmodes 0 hist = build_from_slopes nz ofn (fresh_frames hist).
Proof.
  intros hist nmodes ns Hn Hs Hne H. rewrite (C54_average nmodes ns 0 hist Hn Hs); auto.
  - symmetry. apply C54_from_slopes; [exact Hne|]. intros p Hp. destruct (H p Hp) as (L & La & _ & Hi). auto.
  - intros p Hp. destruct (H p Hp) as (L & La & S1 & Hi). split; [exact L|]. split; [exact S1|]. intros i _ _. lia.
Qed.

(* ---- several sensors *)
Lemma nth_length (l : list (vec A)) i : nth i (map (@length _) l) 0 = length (nth i l []).
Proof. change 0 with (@length A []). apply map_nth. Qed.
Lemma zip_ok (f : cal A -> vec A -> res (cal A)) (P : nat -> cal A -> Prop) cs ss : length cs = length ss ->
  (forall i, i < length cs -> exists c', f (nth i cs (mkCal [] [])) (nth i ss []) = Ok c' /\ P i c') ->
  exists cs', zip_res f cs ss = Ok cs' /\ length cs' = length cs /\ forall i, i < length cs -> P i (nth i cs' (mkCal [] [])).
Proof.
  intros HL H. unfold zip_res. rewrite <- HL, skipn_all.
  assert (G : exists l, map_res (fun p => f (fst p) (snd p)) (combine cs ss) = Ok l /\ length l = length cs /\ forall i, i < length cs -> P i (nth i l (mkCal [] []))).
  { revert P ss HL H. induction cs as [|c cs IH]; intros P [|s ss] HL H; cbn [length] in *; try discriminate.
    - exists []. split; [reflexivity|]. split; [reflexivity|]. intros i Hi. lia.
    - destruct (H 0 ltac:(lia)) as (c' & E & Pc). cbn [nth] in E. destruct (IH (fun i => P (S i)) ss ltac:(lia)) as (l & El & Ll & Pl).
      { intros i Hi. exact (H (S i) ltac:(lia)). }
      exists (c' :: l). cbn [combine map_res fst snd]. rewrite E. cbn [bind]. rewrite El. cbn [bind]. split; [reflexivity|]. split; [cbn; lia|].
      intros [|i] Hi; [exact Pc|]. cbn [nth]. apply Pl. lia. }
  destruct G as (l & E & L & Pl). rewrite E. cbn [bind]. exists l. rewrite app_nil_r. auto.
Qed.

(* frames of sensor i: every command vector of a trigger with the slopes of that sensor *)
Definition sensor_frames (i : nat) (hist : list (list (vec A) * list (vec A))) : list (vec A * vec A) :=
  flat_map (fun f => map (fun cc => (nth i (fst f) [], cc)) (snd f)) hist.

Theorem C54_several_sensors : forall nmodes sizes hist, 0 < nmodes -> sizes <> [] -> hist <> [] -> (forall n, In n sizes -> 0 < n) ->
  (forall f, In f hist -> map (@length _) (fst f) = sizes /\ forall cc, In cc (snd f) -> single nz cc) ->
  exists ims full, multi_calibrate nz ofn (length sizes) nmodes hist = Ok (ims, full) /\ length ims = length sizes /\
    (forall i, i < length sizes -> nth i ims [] =
       map (fun m => mean_response ofn (nth i sizes 0) (responses nz 0 m (sensor_frames i hist))) (seq 0 nmodes)) /\
    full = map (fun m => concat (map (fun im => nth m im []) ims)) (seq 0 nmodes).
Proof.
  intros nmodes sizes hist Hn Hz Hne Hpos H.
  assert (R : exists cs, fold_res (fun cs f => multi_trigger nz nmodes cs (fst f) (snd f)) (repeat (cal_new nmodes) (length sizes)) hist = Ok cs /\
     length cs = length sizes /\ match hist with [] => cs = repeat (cal_new nmodes) (length sizes) | _ =>
       forall i, i < length sizes -> accumulated nz nmodes (nth i sizes 0) 0 (sensor_frames i hist) (nth i cs (mkCal [] [])) end).
  { clear Hne. induction hist as [|[ss cc] hist IH] using rev_ind.
    - eexists. split; [reflexivity|]. split; [apply repeat_length|reflexivity].
    - destruct IH as (cs & E & L & I); [intros f Hf; apply H; apply in_or_app; now left|]. rewrite fold_res_snoc, E. cbn [bind fst snd].
      destruct (H (ss, cc)) as (HS & HC); [apply in_or_app; right; now left|]. cbn [fst snd] in HS, HC.
      assert (LS : length ss = length sizes) by (now rewrite <- HS, map_length).
      assert (NS : forall i, length (nth i ss []) = nth i sizes 0).
      { intros i. rewrite <- HS. change 0 with (@length A []). now rewrite map_nth. }
      unfold multi_trigger. destruct cs as [|c0 cs0] eqn:Ecs; [destruct sizes; [congruence|discriminate]|]. rewrite <- Ecs in *.
      assert (S1 : exists cs1, (if nslopes c0 =? 0 then zip_res (fun c s => Ok (set_nslopes (length s) c)) cs ss else Ok cs) = Ok cs1 /\ length cs1 = length sizes /\
        forall i, i < length sizes -> accumulated nz nmodes (nth i sizes 0) 0 (sensor_frames i hist) (nth i cs1 (mkCal [] []))).
      { destruct hist as [|f0 hist'].
        - assert (c0 = cal_new nmodes). { rewrite Ecs in I. destruct sizes; [congruence|]. cbn in I. congruence. }
          subst c0. unfold nslopes, cal_new at 1. cbn [cl_cols]. destruct nmodes as [|k]; [lia|]. cbn [repeat hd length Nat.eqb].
          destruct (zip_ok (fun c s => Ok (set_nslopes (length s) c))
            (fun i c => accumulated nz (S k) (nth i sizes 0) 0 (sensor_frames i []) c) cs ss) as (cs1 & E1 & L1 & P1); [lia| |].
          + intros i Hi. eexists. split; [reflexivity|]. rewrite NS. cbn [sensor_frames flat_map]. rewrite I in *. rewrite repeat_length in Hi. rewrite (nth_indep _ _ (cal_new (S k))) by (rewrite repeat_length; lia). rewrite nth_repeat.
            apply accumulated_nil; [cbn; now rewrite repeat_length|reflexivity].
          + exists cs1. split; [exact E1|]. split; [lia|]. intros i Hi. apply P1. lia.
        - exists cs. replace (nslopes c0 =? 0) with false; [split; [reflexivity|]; now split|]. symmetry. apply Nat.eqb_neq.
          specialize (I 0 ltac:(destruct sizes; [congruence|cbn; lia])). rewrite Ecs in I. cbn [nth] in I. destruct I as [Ic _]. unfold nslopes. rewrite Ic.
          destruct nmodes as [|k]; [lia|]. cbn [seq map hd]. unfold acc. rewrite (fold_vadd_length _ (nth 0 sizes 0)); [|apply repeat_length|].
          + destruct sizes as [|n0 sizes']; [congruence|]. specialize (Hpos n0 (or_introl eq_refl)). cbn [nth]. lia.
          + apply (responses_length nz (nth 0 sizes 0)). intros p Hp. unfold sensor_frames in Hp. apply in_flat_map in Hp as (f & Hf & Hp).
            apply in_map_iff in Hp as (q & <- & _). cbn [fst]. destruct (H f) as (HS2 & _); [apply in_or_app; now left|]. rewrite <- HS2. symmetry. apply nth_length. }
      destruct S1 as (cs1 & E1 & L1 & P1). rewrite E1. cbn [bind].
      assert (G : exists cs2, fold_res (fun cs c => zip_res (fun c' s => record nz nmodes 0 c' s c) cs ss) cs1 cc = Ok cs2 /\ length cs2 = length sizes /\
        forall i, i < length sizes -> accumulated nz nmodes (nth i sizes 0) 0 (sensor_frames i hist ++ map (fun q => (nth i ss [], q)) cc) (nth i cs2 (mkCal [] []))).
      { clear - P1 L1 HC LS NS H. induction cc as [|q cc IH] using rev_ind.
        - exists cs1. split; [reflexivity|]. split; [exact L1|]. intros i Hi. cbn [map]. rewrite app_nil_r. now apply P1.
        - destruct IH as (cs2 & E2 & L2 & P2).
          { intros f Hf. apply in_app_or in Hf as [Hf|[<-|[]]]; [apply H; apply in_or_app; now left|]. cbn [fst snd].
            destruct (H (ss, cc ++ [q])) as (HS & _); [apply in_or_app; right; now left|]. split; [exact HS|]. intros c Hc. apply HC. apply in_or_app. now left. }
          { intros c Hc. apply HC. apply in_or_app. now left. }
          rewrite fold_res_snoc, E2. cbn [bind].
          destruct (zip_ok (fun c' s => record nz nmodes 0 c' s q)
            (fun i c => accumulated nz nmodes (nth i sizes 0) 0 (sensor_frames i hist ++ map (fun q => (nth i ss [], q)) (cc ++ [q])) c) cs2 ss) as (cs3 & E3 & L3 & P3); [lia| |].
          + intros i Hi. rewrite map_app, app_assoc. cbn [map]. apply record_ok.
            * apply P2. lia.
            * intros p Hp. apply in_app_or in Hp as [Hp|Hp].
              -- unfold sensor_frames in Hp. apply in_flat_map in Hp as (f & Hf & Hp). apply in_map_iff in Hp as (x & <- & _). cbn [fst].
                 destruct (H f) as (HS2 & _); [apply in_or_app; now left|]. rewrite <- HS2. symmetry. apply nth_length.
              -- apply in_map_iff in Hp as (x & <- & _). cbn [fst]. apply NS.
            * apply NS.
            * apply HC. apply in_or_app. right. now left.
            * intros k _ _. lia.
          + exists cs3. split; [exact E3|]. split; [lia|]. intros i Hi. apply P3. lia. }
      destruct G as (cs2 & E2 & L2 & P2). exists cs2. split; [exact E2|]. split; [exact L2|].
      destruct (hist ++ [(ss, cc)]) eqn:Q; [destruct hist; discriminate|]. rewrite <- Q. intros i Hi. unfold sensor_frames. rewrite flat_map_app. cbn [flat_map fst snd].
      rewrite app_nil_r. now apply P2. }
  destruct R as (cs & E & L & I). unfold multi_calibrate. rewrite E. cbn [bind]. eexists. eexists. split; [reflexivity|].
  split; [now rewrite map_length|]. split; [|reflexivity]. intros i Hi.
  rewrite (nth_indep _ _ (normalise ofn (mkCal [] []))) by (rewrite map_length; lia). rewrite map_nth.
  apply (normalise_ok nz ofn nmodes (nth i sizes 0) 0).
  - destruct hist; [congruence|]. now apply I.
  - intros p Hp. unfold sensor_frames in Hp. apply in_flat_map in Hp as (f & Hf & Hp). apply in_map_iff in Hp as (x & <- & _). cbn [fst].
    destruct (H f Hf) as (HS2 & _). rewrite <- HS2. symmetry. apply nth_length.
Qed.

(* Without data there is no matrix; without sensors there is no frame. *)
Theorem C54_no_data : build_from_slopes nz ofn [] = Err IndexError.
Proof. reflexivity. Qed.
Theorem C54_no_sensor nmodes f hist : multi_calibrate nz ofn 0 nmodes (f :: hist) = Err IndexError.
Proof. reflexivity. Qed.
(* One slope stands for as many as the matrix has; any other number stops the calibration. *)
Theorem C54_one_slope nmodes first (c : cal A) y cmds i m : length (cl_cols c) = nmodes -> length (cl_counts c) = nmodes -> length (nth m (cl_cols c) []) <> 1 ->
  nonzero nz cmds = [i] -> (Z.of_nat i - first = Z.of_nat m)%Z -> m < nmodes ->
  exists c', record nz nmodes first c [y] cmds = Ok c' /\ nth m (cl_cols c') [] = map (fun x => add x (dvd y (nth i cmds zer))) (nth m (cl_cols c) []).
Proof.
  intros L1 L2 Hl Hc Hi Hm. unfold record. rewrite Hc, Hi. rewrite (proj2 (Z.ltb_lt _ _)) by lia. cbn [map]. unfold contribute.
  rewrite (take1_nat (cl_cols c) m []) by lia. cbn [bind]. rewrite bcast_scalar. cbn [bind map]. unfold iadd. cbn [length].
  destruct (Nat.eqb_spec (length (nth m (cl_cols c) [])) 1); [contradiction|]. cbn [bind]. rewrite put1_nat by lia. cbn [bind].
  rewrite (take1_nat (cl_counts c) m 0) by lia. cbn [bind]. rewrite put1_nat by lia. cbn [bind]. eexists. split; [reflexivity|]. cbn [cl_cols].
  apply nth_error_nth. apply set_nth_same. lia.
Qed.
Theorem C54_wrong_size nmodes first (c : cal A) s cmds i m : length (cl_cols c) = nmodes -> length s <> length (nth m (cl_cols c) []) -> length s <> 1 ->
  nonzero nz cmds = [i] -> (Z.of_nat i - first = Z.of_nat m)%Z -> m < nmodes -> record nz nmodes first c s cmds = Err ValueError.
Proof.
  intros L1 Hl H1 Hc Hi Hm. unfold record. rewrite Hc, Hi. rewrite (proj2 (Z.ltb_lt _ _)) by lia. cbn [map]. unfold contribute.
  rewrite (take1_nat (cl_cols c) m []) by lia. cbn [bind]. rewrite bcast_scalar. cbn [bind]. unfold iadd. rewrite map_length.
  destruct (Nat.eqb_spec (length (nth m (cl_cols c) [])) (length s)); [congruence|]. destruct s as [|x [|x2 s]]; [reflexivity|now cbn in H1|reflexivity].
Qed.
End T.
Print Assumptions C54_average.
Print Assumptions C54_several.
Print Assumptions C54_before_first.
Print Assumptions C54_from_slopes.
Print Assumptions C54_from_slopes_zero.
Print Assumptions C54_same.
Print Assumptions C54_several_sensors.

(* exact rationals *)
Definition qnz (x : qc) : bool := negb (Qeq_bool (this x) 0).
Definition qofn (n : nat) : qc := Q2Qc (inject_Z (Z.of_nat n)).
Definition shown (r : res (mat qc)) : option (list (list Q)) := match r with Ok m => Some (map (map this) m) | Err _ => None end.

Example C54_example :
  let f t s g c := mkFrame (A:=qc) t s g c in
  shown (im_calibrate qnz qofn 3 0 [f 0 [qi 2; qi 4] 0 [qi 2; qi 0; qi 0]; f 1 [qi 9; qi 9] 0 [qi 0; qi 1; qi 0];
                                    f 2 [qi (-2); qi (-8)] 2 [qi (-2); qi 0; qi 0]; f 3 [qi 5; qi 6] 3 [qi 0; qi 0; qi 1]]%Z)
    = Some (map (map this) [[qi 1; qi 3]; [qi 0; qi 0]; [qi 5; qi 6]]) /\
  shown (build_from_slopes qnz qofn [([qi 2; qi 4], [qi 2; qi 5; qi 0]); ([qi (-2); qi (-8)], [qi (-2); qi 0; qi 0]); ([qi 5; qi 6], [qi 0; qi 0; qi 1])])
    = Some (map (map this) [[qi 1; qi 3]; [qi 0; qi 0]; [qi 5; qi 6]]).
Proof. vm_compute. split; reflexivity. Qed.

(* a poke before the first mode is charged to the last mode *)
Theorem C54_before_first_refuted : exists hist : list (frame qc),
  shown (im_calibrate qnz qofn 2 1 hist) = Some (map (map this) [[qi 0]; [qi 7]]) /\
  forall f, In f hist -> fr_cmds f = [qi 1; qi 0; qi 0].
Proof.
  exists [mkFrame (A:=qc) 0%Z [qi 7] 0%Z [qi 1; qi 0; qi 0]]. split; [vm_compute; reflexivity|]. intros f [<-|[]]. reflexivity.
Qed.
Print Assumptions C54_before_first_refuted.

(* as many non-zero commands as slopes: divided element by element and charged to the first mode *)
Theorem C54_several_refuted : exists hist : list (frame qc),
  shown (im_calibrate qnz qofn 2 0 hist) = Some (map (map this) [[qi 6; qi 3]; [qi 0; qi 0]]) /\
  hist = [mkFrame (A:=qc) 0%Z [qi 6; qi 6] 0%Z [qi 1; qi 2]].
Proof. eexists. split; [|reflexivity]. vm_compute. reflexivity. Qed.
Print Assumptions C54_several_refuted.

(* the calibrator for several sensors does not skip stale slopes: slopes of the first poke
   seen again after the command has changed *)
Theorem C54_stale_refuted : exists (s : vec qc) (c1 c2 : vec qc),
  shown (im_calibrate qnz qofn 1 0 [mkFrame 0%Z s 0%Z c1; mkFrame 1%Z s 0%Z c2]) = Some (map (map this) [[qi 2]]) /\
  match multi_calibrate qnz qofn 1 1 [([s], [c1]); ([s], [c2])] with
  | Ok (ims, full) => map (map (map this)) ims = map (map (map this)) [[[qi 0]]] /\ map (map this) full = map (map this) [[qi 0]]
  | Err _ => False
  end.
Proof. exists [qi 2], [qi 1], [qi (-1)]. vm_compute. repeat split; reflexivity. Qed.
Print Assumptions C54_stale_refuted.
Print Assumptions C54_no_data.
Print Assumptions C54_no_sensor.
Print Assumptions C54_one_slope.
Print Assumptions C54_wrong_size.
