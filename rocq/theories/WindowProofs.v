(* Proofs about integration windows. *)
From Coq Require Import List Bool PeanoNat ZArith Lia Field_theory Ring_theory Ring Field.
From Verif Require Import PyBase Arith ArithLemmas FilterModel FilterSpec SumLemmas FilterProofs IirProofs FilterFacts
  FilterFacts2 MultirateModel MultirateProofs WindowModel WindowSpec.
Import ListNotations.
Local Open Scope Z_scope.

Definition begunb (start t : Z) : bool := (start <=? 0) || (start <=? t).
Definition endb (loop dt start t : Z) : bool := (t + loop - dt - start) mod dt =? 0.

Lemma begunb_iff start t : begunb start t = true <-> begun start t.
Proof. unfold begunb, begun. rewrite orb_true_iff, !Z.leb_le. tauto. Qed.

Lemma endb_iff loop dt start t : 0 < dt -> endb loop dt start t = true <-> window_end loop dt start t.
Proof.
  intros Hd. unfold endb, window_end. rewrite Z.eqb_eq. split.
  - intros H. apply Z.div_exact in H; [|lia]. exists ((t + loop - dt - start) / dt + 1). lia.
  - intros [q Hq]. replace (t + loop - dt - start) with ((q - 1) * dt) by lia. apply Z.mod_mul. lia.
Qed.

Section Field.
Variable A : arith.
Hypothesis HF : is_field A.
Let HF' : field_theory (@zer A) one add mul sub opp dvd inv eq := HF.
Add Field fA8 : HF'.
Local Open Scope ar_scope.

(* scalar accumulator *)
Lemma acc_window (act fin : nat -> bool) (w st : nat -> A) n :
  st 0%nat = 0 ->
  (forall k, (k < n)%nat -> st (S k) = if act k then (if fin k then 0 else st k + w k) else st k) ->
  forall m k, (m <= k)%nat -> (k <= n)%nat ->
  (m = 0%nat \/ exists p, m = S p /\ act p = true /\ fin p = true) ->
  (forall j, (m <= j < k)%nat -> act j && fin j = false) ->
  st k = sumn (k - m) (fun j => if act (m + j)%nat then w (m + j)%nat else 0).
Proof.
  intros H0 HS m k Hm Hk Hs. induction k as [|k IH]; intros Hn.
  - replace m with 0%nat by lia. auto.
  - destruct (Nat.eq_dec m (S k)) as [->|Hne].
    + rewrite Nat.sub_diag. cbn [sumn]. destruct Hs as [|(p & [= <-] & Ha & Hf)]; [lia|].
      rewrite HS, Ha, Hf by lia. reflexivity.
    + replace (S k - m)%nat with (S (k - m)) by lia. cbn [sumn].
      replace (m + (k - m))%nat with k by lia.
      rewrite HS by lia. rewrite IH; [|lia|lia|intros; apply Hn; lia].
      specialize (Hn k ltac:(lia)). destruct (act k); cbn in Hn; [rewrite Hn; reflexivity|ring].
Qed.

(* ------------------------------------------------------------ WindowedIntegration *)

Definition wprev (s0 : wst A) (l : list (wst A)) (k : nat) : wst A :=
  match k with 0%nat => s0 | S p => nth p l s0 end.

Lemma wrun_steps (c : wcfg A) us : forall s l, wrun c s us = Ok l -> length l = length us /\
  forall k, (k < length us)%nat ->
    wtrigger c (wprev s l k) (time_of us k) (nth k (map snd us) []) = Ok (nth k l s).
Proof.
  induction us as [|[t u] r IH]; intros s l E; cbn [wrun] in E.
  - injection E as <-. split; auto. intros k Hk. simpl in Hk. lia.
  - destruct (wtrigger c s t u) as [s1|] eqn:E1; [|discriminate]. cbn [bind] in E.
    destruct (wrun c s1 r) as [l1|] eqn:E2; [|discriminate]. cbn [bind] in E. injection E as <-.
    destruct (IH s1 l1 E2) as [L H]. split; [simpl; lia|].
    intros [|k] Hk; [exact E1|]. simpl in Hk.
    specialize (H k ltac:(lia)). cbn [wprev nth map snd]. change (time_of ((t, u) :: r) (S k)) with (time_of r k).
    replace (nth k l1 s) with (nth k l1 s1) by (apply nth_indep; lia).
    destruct k as [|k]; [exact H|].
    cbn [wprev] in H. cbn [nth]. replace (nth k l1 s) with (nth k l1 s1) by (apply nth_indep; lia). exact H.
Qed.

Lemma wtrigger_chan (c : wcfg A) s t u s' : length (w_out s) = w_n c -> length (w_int s) = w_n c -> wtrigger c s t u = Ok s' ->
  length (w_out s') = w_n c /\ length (w_int s') = w_n c /\
  w_gt s' = (if w_upd c then (if begunb (w_start c) t && endb (w_loop c) (w_dt c) (w_start c) t then t else w_gt s) else t) /\
  forall i, (i < w_n c)%nat ->
    let w := chan_val (w_n c) u i * w_fl c / w_fd c in
    nth i (w_int s') 0 = (if begunb (w_start c) t then
        if endb (w_loop c) (w_dt c) (w_start c) t then 0 else nth i (w_int s) 0 + w else nth i (w_int s) 0) /\
    nth i (w_out s') 0 = (if begunb (w_start c) t then
        if endb (w_loop c) (w_dt c) (w_start c) t then nth i (w_int s) 0 + w else 0 else nth i (w_out s) 0).
Proof.
  intros L1 L2. unfold wtrigger. fold (begunb (w_start c) t). fold (endb (w_loop c) (w_dt c) (w_start c) t).
  destruct (begunb (w_start c) t).
  2: { cbn [bind]. intros [= <-]. destruct (w_upd c); cbn; auto. }
  destruct (fit (w_n c) u) as [u'|] eqn:Eu; [|discriminate]. cbn [bind].
  pose proof (fit_length _ _ _ Eu) as Lu.
  set (int := vadd (w_int s) (map (fun x => x * w_fl c / w_fd c) u')).
  assert (Li : length int = w_n c) by (apply vadd_length; [auto|rewrite map_length; auto]).
  assert (Hi : forall i, (i < w_n c)%nat -> nth i int 0 = nth i (w_int s) 0 + chan_val (w_n c) u i * w_fl c / w_fd c).
  { intros i Hi. unfold int, vadd. rewrite map2_nth with (a := 0) (b := 0 * w_fl c / w_fd c) by (rewrite ?map_length; lia).
    rewrite (map_nth (fun x => x * w_fl c / w_fd c)). rewrite (fit_chan _ _ _ i Hi Eu). reflexivity. }
  assert (Hz : forall (v : vec A) i, nth i (map (fun x => x * 0) v) 0 = 0).
  { intros v i. rewrite (nth_map0 A (fun x => x * 0)) by ring. ring. }
  destruct (endb (w_loop c) (w_dt c) (w_start c) t); cbn [bind]; intros [= <-].
  - destruct (w_upd c); cbn [w_out w_int w_gt]; rewrite map_length; repeat (split; auto); auto.
  - destruct (w_upd c); cbn [w_out w_int w_gt]; rewrite map_length; repeat (split; auto); auto.
Qed.

Lemma winit_ok (c : wcfg A) s : winit c = Ok s -> (0 < w_dt c)%Z /\ w_loop c <> 0%Z /\ (w_dt c mod w_loop c)%Z = 0%Z /\
  s = mkWst (zeros (w_n c)) (zeros (w_n c)) (-1)%Z.
Proof.
  unfold winit. destruct (Z.leb_spec (w_dt c) 0%Z); [discriminate|].
  destruct (Z.eqb_spec (w_loop c) 0%Z); [discriminate|].
  destruct (Z.eqb_spec (w_dt c mod w_loop c) 0%Z); [|discriminate]. intros [= <-]. repeat split; auto.
Qed.

Section Run.
Variable c : wcfg A.
Variable s0 : wst A.
Variable us : list (Z * vec A).
Variable l : list (wst A).
Hypothesis E0 : winit c = Ok s0.
Hypothesis E : wrun c s0 us = Ok l.

Lemma wlens k : (k <= length us)%nat -> length (w_out (wprev s0 l k)) = w_n c /\ length (w_int (wprev s0 l k)) = w_n c.
Proof.
  destruct (winit_ok _ _ E0) as (_ & _ & _ & ->). destruct (wrun_steps c us _ _ E) as [L H].
  induction k as [|k IH]; intros Hk.
  - cbn. unfold zeros. rewrite repeat_length. auto.
  - destruct (IH ltac:(lia)) as [I1 I2]. specialize (H k ltac:(lia)).
    destruct (wtrigger_chan _ _ _ _ _ I1 I2 H) as (J1 & J2 & _). cbn [wprev]. auto.
Qed.

Lemma wstep_chan k i : (k < length us)%nat -> (i < w_n c)%nat ->
  let t := time_of us k in
  let w := val_of (w_n c) us k i * w_fl c / w_fd c in
  let a := begunb (w_start c) t in let e := endb (w_loop c) (w_dt c) (w_start c) t in
  nth i (w_int (wprev s0 l (S k))) 0 = (if a then if e then 0 else nth i (w_int (wprev s0 l k)) 0 + w
                                        else nth i (w_int (wprev s0 l k)) 0) /\
  nth i (w_out (wprev s0 l (S k))) 0 = (if a then if e then nth i (w_int (wprev s0 l k)) 0 + w else 0
                                        else nth i (w_out (wprev s0 l k)) 0).
Proof.
  intros Hk Hi. destruct (wlens k ltac:(lia)) as [L1 L2].
  destruct (wrun_steps c us _ _ E) as [_ H]. specialize (H k Hk).
  destruct (wtrigger_chan _ _ _ _ _ L1 L2 H) as (_ & _ & _ & H'). apply H'. auto.
Qed.

Lemma wint_sum m k i : (k <= length us)%nat -> (i < w_n c)%nat ->
  (forall j, (m <= j < k)%nat -> ~ (begun (w_start c) (time_of us j) /\ window_end (w_loop c) (w_dt c) (w_start c) (time_of us j))) ->
  (m <= k)%nat ->
  (m = 0%nat \/ exists p, m = S p /\ begun (w_start c) (time_of us p) /\ window_end (w_loop c) (w_dt c) (w_start c) (time_of us p)) ->
  nth i (w_int (wprev s0 l k)) 0 =
  sumn (k - m) (fun j => if begunb (w_start c) (time_of us (m + j)) then val_of (w_n c) us (m + j) i * w_fl c / w_fd c else 0).
Proof.
  intros Hk Hi Hn Hm Hs. destruct (winit_ok _ _ E0) as (Hd & _ & _ & Es).
  apply (acc_window (fun k => begunb (w_start c) (time_of us k)) (fun k => endb (w_loop c) (w_dt c) (w_start c) (time_of us k))
          (fun k => val_of (w_n c) us k i * w_fl c / w_fd c) (fun k => nth i (w_int (wprev s0 l k)) 0) (length us)); auto.
  - cbn [wprev]. rewrite Es. cbn. apply nth_repeat_same.
  - intros j Hj. apply wstep_chan; auto.
  - destruct Hs as [|(p & -> & B & W)]; auto. right. exists p. split; auto.
    rewrite begunb_iff, endb_iff; auto.
  - intros j Hj. specialize (Hn j Hj). rewrite <- begunb_iff, <- endb_iff in Hn by auto.
    destruct (begunb (w_start c) (time_of us j)), (endb (w_loop c) (w_dt c) (w_start c) (time_of us j)); auto.
    exfalso. auto.
Qed.

Theorem window_output m k i : (k < length us)%nat -> (i < w_n c)%nat -> begun (w_start c) (time_of us k) ->
  window (w_loop c) (w_dt c) (w_start c) us m k ->
  (window_end (w_loop c) (w_dt c) (w_start c) (time_of us k) ->
     nth i (w_out (nth k l s0)) 0 =
     sumn (S k - m) (fun j => if begunb (w_start c) (time_of us (m + j)) then val_of (w_n c) us (m + j) i * w_fl c / w_fd c else 0)) /\
  (~ window_end (w_loop c) (w_dt c) (w_start c) (time_of us k) -> nth i (w_out (nth k l s0)) 0 = 0).
Proof.
  intros Hk Hi HB (Hm & Hs & Hn). destruct (winit_ok _ _ E0) as (Hd & _ & _ & Es).
  destruct (wstep_chan k i Hk Hi) as [_ Ho]. cbn [wprev] in Ho. rewrite Ho. apply begunb_iff in HB. rewrite HB.
  split; intros HW.
  - apply endb_iff in HW; auto. rewrite HW. replace (S k - m)%nat with (S (k - m)) by lia. cbn [sumn].
    replace (m + (k - m))%nat with k by lia. rewrite HB. f_equal. apply wint_sum; auto. lia.
  - rewrite <- endb_iff in HW by auto. destruct (endb (w_loop c) (w_dt c) (w_start c) (time_of us k)); auto. congruence.
Qed.

(* nothing is lost and nothing is counted twice: outputs so far plus the pending sum
   equal the inputs so far *)
Theorem window_conserves k i : (k <= length us)%nat -> (i < w_n c)%nat ->
  sumn k (fun j => if begunb (w_start c) (time_of us j) then nth i (w_out (nth j l s0)) 0 else 0)
    + nth i (w_int (wprev s0 l k)) 0 =
  sumn k (fun j => if begunb (w_start c) (time_of us j) then val_of (w_n c) us j i * w_fl c / w_fd c else 0).
Proof.
  intros Hk Hi. induction k as [|k IH].
  - cbn [sumn wprev]. destruct (winit_ok c s0 E0) as (_ & _ & _ & ->). cbn [w_int]. unfold zeros. rewrite nth_repeat_same. ring.
  - cbn [sumn]. rewrite <- IH by lia. destruct (wstep_chan k i ltac:(lia) Hi) as [H1 H2]. cbv zeta in H1, H2.
    rewrite H1. replace (nth k l s0) with (wprev s0 l (S k)) by reflexivity. rewrite H2.
    destruct (begunb (w_start c) (time_of us k)); [destruct (endb _ _ _ _)|]; ring.
Qed.

(* the time stamp: with update-on-integration only at emissions, otherwise at each step *)
Theorem window_stamp k : (k < length us)%nat ->
  let before := match k with 0%nat => s0 | S p => nth p l s0 end in
  w_gt (nth k l s0) =
  if w_upd c then
    if begunb (w_start c) (time_of us k) && endb (w_loop c) (w_dt c) (w_start c) (time_of us k) then time_of us k else w_gt before
  else time_of us k.
Proof.
  intros Hk before. destruct (wlens k ltac:(lia)) as [L1 L2].
  destruct (wrun_steps c us _ _ E) as [_ H]. specialize (H k Hk).
  destruct (wtrigger_chan _ _ _ _ _ L1 L2 H) as (_ & _ & H' & _). rewrite H'.
  replace (wprev s0 l k) with before by (destruct k; reflexivity). reflexivity.
Qed.

(* before integration begins nothing is put out *)
Theorem window_before k i : (k < length us)%nat -> (i < w_n c)%nat ->
  (forall j, (j <= k)%nat -> ~ begun (w_start c) (time_of us j)) -> nth i (w_out (nth k l s0)) 0 = 0.
Proof.
  intros Hk Hi Hn. destruct (winit_ok _ _ E0) as (Hd & _ & _ & Es).
  change (nth i (w_out (wprev s0 l (S k))) 0 = 0).
  assert (G : forall j, (j <= S k)%nat -> nth i (w_out (wprev s0 l j)) 0 = 0).
  { induction j as [|j IH]; intros Hj.
    - cbn [wprev]. rewrite Es. cbn. apply nth_repeat_same.
    - destruct (wstep_chan j i ltac:(lia) Hi) as [_ ->].
      specialize (Hn j ltac:(lia)). rewrite <- begunb_iff in Hn.
      destruct (begunb (w_start c) (time_of us j)); [congruence|]. apply IH. lia. }
  apply G. lia.
Qed.
End Run.

(* ---------------------------------------------------- regular triggering, aligned start *)

Lemma regular_end loop N z k : (0 < loop)%Z -> (0 < N)%nat ->
  window_end loop (Z.of_nat N * loop)%Z (Z.of_nat z * loop)%Z (Z.of_nat k * loop)%Z <-> exists q, (Z.of_nat k + 1 = Z.of_nat z + q * Z.of_nat N)%Z.
Proof.
  intros Hl HN. unfold window_end. split; intros [q Hq]; exists q; nia.
Qed.

Lemma regular_begun loop z k : (0 < loop)%Z -> begun (Z.of_nat z * loop)%Z (Z.of_nat k * loop)%Z <-> (z <= k)%nat.
Proof. intros Hl. unfold begun. nia. Qed.

Theorem window_regular (c : wcfg A) s0 us l N z :
  winit c = Ok s0 -> wrun c s0 us = Ok l -> (0 < w_loop c)%Z -> (0 < N)%nat ->
  w_dt c = (Z.of_nat N * w_loop c)%Z -> w_start c = (Z.of_nat z * w_loop c)%Z -> every_step (w_loop c) us ->
  (forall k i, (k < length us)%nat -> (k < z)%nat -> (i < w_n c)%nat -> nth i (w_out (nth k l s0)) 0 = 0) /\
  (forall b o i, (o < N)%nat -> (z + b * N + o < length us)%nat -> (i < w_n c)%nat ->
     nth i (w_out (nth (z + b * N + o) l s0)) 0 =
     if Nat.eqb o (N - 1) then sumn N (fun j => val_of (w_n c) us (z + b * N + j) i * w_fl c / w_fd c) else 0).
Proof.
  intros E0 E Hl HN Hd Hst Hev. split.
  - intros k i Hk Hz Hi. apply (window_before c s0 us l E0 E); auto.
    intros j Hj. rewrite Hst, Hev, regular_begun by lia. lia.
  - intros b o i Ho Hk Hi. set (k := (z + b * N + o)%nat) in *. set (m := (z + b * N)%nat).
    assert (Hend : forall j, (j < length us)%nat -> window_end (w_loop c) (w_dt c) (w_start c) (time_of us j) <->
                     exists q, (Z.of_nat j + 1 = Z.of_nat z + q * Z.of_nat N)%Z).
    { intros j Hj. rewrite Hst, Hd, Hev by auto. apply regular_end; auto. }
    assert (Hbeg : forall j, (j < length us)%nat -> begun (w_start c) (time_of us j) <-> (z <= j)%nat).
    { intros j Hj. rewrite Hst, Hev by auto. apply regular_begun; auto. }
    assert (Hin : forall j q, (m <= j)%nat -> (j < m + N)%nat -> (Z.of_nat j + 1 = Z.of_nat z + q * Z.of_nat N)%Z ->
                   j = (m + (N - 1))%nat).
    { intros j q H1 H2 H3. assert (q = Z.of_nat b + 1)%Z by (unfold m in *; nia). unfold m in *; nia. }
    (* integration starts at m, or at 0 when the first window is not preceded by one *)
    assert (K : exists m0, window (w_loop c) (w_dt c) (w_start c) us m0 k /\ (m0 <= m)%nat /\
                 (forall j, (m0 <= j < m)%nat -> ~ begun (w_start c) (time_of us j))).
    { destruct b as [|b].
      - exists 0%nat. split; [|split; [lia|]].
        + split; [lia|]. split; auto. intros j Hj [B W]. apply Hend in W; [|lia]. destruct W as [q W].
          apply Hbeg in B; [|lia]. assert (j = (m + (N - 1))%nat) by (apply (Hin j q); unfold m, k in *; lia). unfold m, k in *; lia.
        + intros j Hj. rewrite Hbeg by (unfold m, k in *; lia). unfold m in *. lia.
      - exists m. split; [|split; [lia|lia]].
        split; [unfold m, k; lia|]. split.
        + right. exists (m - 1)%nat. split; [unfold m; nia|]. split.
          * apply Hbeg; unfold m, k in *; nia.
          * apply Hend; [unfold m, k in *; nia|]. exists (Z.of_nat b + 1)%Z. unfold m. nia.
        + intros j Hj [B W]. apply Hend in W; [|lia]. destruct W as [q W].
          assert (j = (m + (N - 1))%nat) by (apply (Hin j q); unfold k, m in *; lia). unfold m, k in *; lia. }
    destruct K as (m0 & HW & Hm0 & Hn0).
    assert (Bk : begun (w_start c) (time_of us k)) by (apply Hbeg; unfold k; lia).
    destruct (window_output c s0 us l E0 E m0 k i Hk Hi Bk HW) as [H1 H2].
    destruct (Nat.eqb_spec o (N - 1)) as [Eo|Eo].
    + rewrite H1.
      2: { apply Hend; auto. exists (Z.of_nat b + 1)%Z. unfold k. nia. }
      replace (S k - m0)%nat with ((m - m0) + N)%nat by (unfold k, m in *; lia).
      rewrite sumn_app by auto. rewrite (sumn_zero A HF).
      2: { intros j Hj. specialize (Hn0 (m0 + j)%nat ltac:(lia)). rewrite <- begunb_iff in Hn0.
           destruct (begunb (w_start c) (time_of us (m0 + j))); congruence. }
      rewrite (sumn_ext N _ (fun j => val_of (w_n c) us (m + j) i * w_fl c / w_fd c)); [ring|].
      intros j Hj. replace (m0 + (m - m0 + j))%nat with (m + j)%nat by lia.
      assert (B : begunb (w_start c) (time_of us (m + j)) = true).
      { apply begunb_iff, Hbeg; unfold m, k in *; lia. }
      rewrite B. reflexivity.
    + apply H2. intros W. apply Hend in W; auto. destruct W as [q W].
      assert (k = (m + (N - 1))%nat) by (apply (Hin k q); unfold m, k in *; lia). unfold m, k in *; lia.
Qed.

(* Start time not on the grid of loop steps: nothing is ever put out. *)
Theorem window_misaligned (c : wcfg A) s0 us l k i :
  winit c = Ok s0 -> wrun c s0 us = Ok l -> every_step (w_loop c) us ->
  (w_start c mod w_loop c)%Z <> 0%Z -> (k < length us)%nat -> (i < w_n c)%nat ->
  nth i (w_out (nth k l s0)) 0 = 0.
Proof.
  intros E0 E Hev Hm Hk Hi. destruct (winit_ok _ _ E0) as (Hd & Hl & Hdl & Es).
  change (nth i (w_out (wprev s0 l (S k))) 0 = 0).
  assert (G : forall j, (j <= S k)%nat -> nth i (w_out (wprev s0 l j)) 0 = 0).
  { induction j as [|j IH]; intros Hj.
    - cbn [wprev]. rewrite Es. cbn. apply nth_repeat_same.
    - destruct (wstep_chan c s0 us l E0 E j i ltac:(lia) Hi) as [_ ->].
      destruct (begunb (w_start c) (time_of us j)); [|apply IH; lia].
      destruct (endb (w_loop c) (w_dt c) (w_start c) (time_of us j)) eqn:W; auto. exfalso.
      apply endb_iff in W; auto. destruct W as [q W]. rewrite Hev in W by lia.
      apply Hm. apply Z.div_exact in Hdl; auto.
      replace (w_start c) with ((Z.of_nat j + 1 - q * (w_dt c / w_loop c)) * w_loop c)%Z by nia.
      apply Z.mod_mul. auto. }
  apply G. lia.
Qed.

(* ---------------------------------------------------------------------------- CCD *)
Section Ccd.
Variable R : Type.
Variable c : ccfg A R.

Definition cprev (s0 : cst A R) (l : list (cst A R)) (k : nat) : cst A R :=
  match k with 0%nat => s0 | S p => nth p l s0 end.

Lemma crun_steps us : forall s l, crun c s us = Ok l -> length l = length us /\
  forall k, (k < length us)%nat ->
    ctrigger c (cprev s l k) (time_of us k) (nth k (map snd us) []) = Ok (nth k l s).
Proof.
  induction us as [|[t u] r IH]; intros s l E; cbn [crun] in E.
  - injection E as <-. split; auto. intros k Hk. simpl in Hk. lia.
  - destruct (ctrigger c s t u) as [s1|] eqn:E1; [|discriminate]. cbn [bind] in E.
    destruct (crun c s1 r) as [l1|] eqn:E2; [|discriminate]. cbn [bind] in E. injection E as <-.
    destruct (IH s1 l1 E2) as [L H]. split; [simpl; lia|].
    intros [|k] Hk; [exact E1|]. simpl in Hk.
    specialize (H k ltac:(lia)). cbn [cprev nth map snd]. change (time_of ((t, u) :: r) (S k)) with (time_of r k).
    replace (nth k l1 s) with (nth k l1 s1) by (apply nth_indep; lia).
    destruct k as [|k]; [exact H|].
    cbn [cprev] in H. cbn [nth]. replace (nth k l1 s) with (nth k l1 s1) by (apply nth_indep; lia). exact H.
Qed.

Lemma begunb_neg start t : (0 <? start)%Z && (t <? start) = negb (begunb start t).
Proof.
  unfold begunb. destruct (Z.ltb_spec 0%Z start), (Z.ltb_spec t start), (Z.leb_spec start 0%Z), (Z.leb_spec start t); cbn; auto; lia.
Qed.

(* what one trigger does *)
Lemma ctrigger_chan s t u s' : length (c_int s) = c_n c -> ctrigger c s t u = Ok s' ->
  let a := begunb (c_start c) t in let e := endb (c_loop c) (c_dt c) (c_start c) t in
  length (c_int s') = c_n c /\
  (forall i, (i < c_n c)%nat -> nth i (c_int s') 0 = (if a then if e then 0 else nth i (c_int s) 0 + chan_val (c_n c) u i * c_factor c
                                   else nth i (c_int s) 0)) /\
  (a && e = true -> length (c_outi s') = c_n c /\
     (forall i, (i < c_n c)%nat -> nth i (c_outi s') 0 = nth i (c_int s) 0 + chan_val (c_n c) u i * c_factor c) /\
     c_pix s' = snd (c_proc c (c_rng s) (c_outi s')) /\ c_rng s' = fst (c_proc c (c_rng s) (c_outi s')) /\
     c_pt s' = t /\ c_ot s' = t) /\
  (a && e = false -> c_pix s' = c_pix s /\ c_pt s' = c_pt s /\ c_outi s' = c_outi s /\ c_ot s' = c_ot s /\ c_rng s' = c_rng s).
Proof.
  intros L. unfold ctrigger. rewrite begunb_neg. fold (endb (c_loop c) (c_dt c) (c_start c) t).
  cbv zeta. destruct (begunb (c_start c) t); cbn [negb].
  2: { intros [= <-]. cbn [andb]. split; auto. split; auto. split; [discriminate|auto]. }
  destruct (Nat.eqb_spec (length u) (c_n c)) as [Lu|]; [|discriminate]. cbn [negb].
  set (int := vadd (c_int s) (map (fun x => x * c_factor c) u)).
  assert (Li : length int = c_n c) by (apply vadd_length; [auto|rewrite map_length; auto]).
  assert (Hi : forall i, (i < c_n c)%nat -> nth i int 0 = nth i (c_int s) 0 + chan_val (c_n c) u i * c_factor c).
  { intros i Hi. unfold int, vadd. rewrite map2_nth with (a := 0) (b := 0) by (rewrite ?map_length; lia).
    rewrite (nth_map0 A (fun x => x * c_factor c)) by ring. unfold chan_val. rewrite Lu, Nat.eqb_refl. reflexivity. }
  destruct (endb (c_loop c) (c_dt c) (c_start c) t); cbn [andb].
  - destruct (c_proc c (c_rng s) int) as [r pix] eqn:Ep. intros [= <-]. cbn [c_int c_outi c_pix c_rng c_pt c_ot].
    split; [rewrite map_length; auto|]. split.
    { intros i _. rewrite (nth_map0 A (fun x => x * 0)) by ring. ring. }
    split; [|discriminate]. intros _. rewrite Ep. cbn. auto 10.
  - intros [= <-]. cbn. split; [auto|]. split; [auto|]. split; [discriminate|auto].
Qed.

Lemma cinit_ok pix0 r0 s : cinit c pix0 r0 = Ok s -> (0 < c_dt c)%Z /\ c_loop c <> 0%Z /\ (c_dt c mod c_loop c)%Z = 0%Z /\
  s = mkCst (zeros (c_n c)) pix0 (-1)%Z (zeros (c_n c)) (-1)%Z r0.
Proof.
  unfold cinit. destruct (Z.leb_spec (c_dt c) 0%Z); [discriminate|].
  destruct (Z.eqb_spec (c_loop c) 0%Z); [discriminate|].
  destruct (Z.eqb_spec (c_dt c mod c_loop c) 0%Z); [|discriminate]. intros [= <-]. repeat split; auto.
Qed.

Variables (pix0 : vec A) (r0 : R) (s0 : cst A R) (us : list (Z * vec A)) (l : list (cst A R)).
Hypothesis E0 : cinit c pix0 r0 = Ok s0.
Hypothesis E : crun c s0 us = Ok l.

Lemma clens k : (k <= length us)%nat -> length (c_int (cprev s0 l k)) = c_n c.
Proof.
  destruct (cinit_ok _ _ _ E0) as (_ & _ & _ & ->). destruct (crun_steps us _ _ E) as [L H].
  induction k as [|k IH]; intros Hk.
  - cbn. unfold zeros. rewrite repeat_length. auto.
  - specialize (H k ltac:(lia)). apply (ctrigger_chan _ _ _ _ (IH ltac:(lia)) H).
Qed.

(* a frame comes out exactly at window ends; it is computed from the intensities of the
   window and from nothing else *)
Theorem ccd_frame m k : (k < length us)%nat -> begun (c_start c) (time_of us k) ->
  window_end (c_loop c) (c_dt c) (c_start c) (time_of us k) ->
  window (c_loop c) (c_dt c) (c_start c) us m k ->
  let s := nth k l s0 in
  let before := match k with 0%nat => s0 | S p => nth p l s0 end in
  c_pt s = time_of us k /\ c_ot s = time_of us k /\ length (c_outi s) = c_n c /\
  (forall i, (i < c_n c)%nat -> nth i (c_outi s) 0 =
     sumn (S k - m) (fun j => if begunb (c_start c) (time_of us (m + j)) then val_of (c_n c) us (m + j) i * c_factor c else 0)) /\
  (c_rng s, c_pix s) = c_proc c (c_rng before) (c_outi s).
Proof.
  intros Hk HB HW (Hm & Hs & Hn). destruct (cinit_ok _ _ _ E0) as (Hd & _ & _ & Es).
  destruct (crun_steps us _ _ E) as [_ H]. pose proof (H k Hk) as Hk'.
  destruct (ctrigger_chan _ _ _ _ (clens k ltac:(lia)) Hk') as (_ & _ & H3 & _).
  assert (HB' := HB). assert (HW' := HW). apply begunb_iff in HB. apply endb_iff in HW; auto. rewrite HB, HW in H3.
  destruct (H3 eq_refl) as (Lo & Ho & Hp & Hr & Ht1 & Ht2). cbv zeta.
  split; auto. split; auto. split; auto. split.
  - intros i Hi. rewrite Ho by auto. replace (S k - m)%nat with (S (k - m)) by lia. cbn [sumn].
    replace (m + (k - m))%nat with k by lia. rewrite HB. f_equal.
    apply (acc_window (fun k => begunb (c_start c) (time_of us k)) (fun k => endb (c_loop c) (c_dt c) (c_start c) (time_of us k))
          (fun k => val_of (c_n c) us k i * c_factor c) (fun k => nth i (c_int (cprev s0 l k)) 0) (length us)); auto; try lia.
    + cbn [cprev]. rewrite Es. cbn. apply nth_repeat_same.
    + intros j Hj. destruct (ctrigger_chan _ _ _ _ (clens j ltac:(lia)) (H j Hj)) as (_ & H2 & _). apply H2. auto.
    + destruct Hs as [|(p & -> & B & W)]; auto. right. exists p. split; auto.
      rewrite begunb_iff, endb_iff; auto.
    + intros j Hj. specialize (Hn j Hj). rewrite <- begunb_iff, <- endb_iff in Hn by auto.
      destruct (begunb (c_start c) (time_of us j)), (endb (c_loop c) (c_dt c) (c_start c) (time_of us j)); auto.
      exfalso. auto.
  - unfold cprev in *. rewrite Hp, Hr. destruct (c_proc c _ _); reflexivity.
Qed.

Theorem ccd_hold k : (k < length us)%nat ->
  ~ (begun (c_start c) (time_of us k) /\ window_end (c_loop c) (c_dt c) (c_start c) (time_of us k)) ->
  let s := nth k l s0 in
  let before := match k with 0%nat => s0 | S p => nth p l s0 end in
  c_pix s = c_pix before /\ c_pt s = c_pt before /\ c_outi s = c_outi before /\ c_ot s = c_ot before /\ c_rng s = c_rng before.
Proof.
  intros Hk Hn. destruct (cinit_ok _ _ _ E0) as (Hd & _ & _ & Es).
  destruct (crun_steps us _ _ E) as [_ H].
  destruct (ctrigger_chan _ _ _ _ (clens k ltac:(lia)) (H k Hk)) as (_ & _ & _ & H4).
  rewrite <- begunb_iff, <- endb_iff in Hn by auto. cbv zeta. apply H4.
  destruct (begunb (c_start c) (time_of us k)), (endb (c_loop c) (c_dt c) (c_start c) (time_of us k)); auto. exfalso; auto.
Qed.
End Ccd.

(* regular triggering: frames at the end of each exposure, each exposure counted once *)
Theorem ccd_regular R (c : ccfg A R) pix0 r0 s0 us l N z :
  cinit c pix0 r0 = Ok s0 -> crun c s0 us = Ok l -> (0 < c_loop c)%Z -> (0 < N)%nat ->
  c_dt c = (Z.of_nat N * c_loop c)%Z -> c_start c = (Z.of_nat z * c_loop c)%Z -> every_step (c_loop c) us ->
  forall b o, (o < N)%nat -> (z + b * N + o < length us)%nat ->
  let k := (z + b * N + o)%nat in
  let s := nth k l s0 in
  let before := match k with 0%nat => s0 | S p => nth p l s0 end in
  if Nat.eqb o (N - 1) then
    c_pt s = time_of us k /\ c_ot s = time_of us k /\
    (forall i, (i < c_n c)%nat -> nth i (c_outi s) 0 = sumn N (fun j => val_of (c_n c) us (z + b * N + j) i * c_factor c)) /\
    (c_rng s, c_pix s) = c_proc c (c_rng before) (c_outi s)
  else c_pix s = c_pix before /\ c_pt s = c_pt before /\ c_outi s = c_outi before /\ c_ot s = c_ot before.
Proof.
  intros E0 E Hl HN Hd Hst Hev b o Ho Hk k s before. subst s before.
  set (m := (z + b * N)%nat).
  assert (Hend : forall j, (j < length us)%nat -> window_end (c_loop c) (c_dt c) (c_start c) (time_of us j) <->
                   exists q, (Z.of_nat j + 1 = Z.of_nat z + q * Z.of_nat N)%Z).
  { intros j Hj. rewrite Hst, Hd, Hev by auto. apply regular_end; auto. }
  assert (Hbeg : forall j, (j < length us)%nat -> begun (c_start c) (time_of us j) <-> (z <= j)%nat).
  { intros j Hj. rewrite Hst, Hev by auto. apply regular_begun; auto. }
  assert (Hin : forall j q, (m <= j)%nat -> (j < m + N)%nat -> (Z.of_nat j + 1 = Z.of_nat z + q * Z.of_nat N)%Z ->
                 j = (m + (N - 1))%nat).
  { intros j q H1 H2 H3. assert (q = Z.of_nat b + 1)%Z by (unfold m in *; nia). unfold m in *; nia. }
  destruct (Nat.eqb_spec o (N - 1)) as [Eo|Eo].
  - assert (K : exists m0, window (c_loop c) (c_dt c) (c_start c) us m0 k /\ (m0 <= m)%nat /\
                 (forall j, (m0 <= j < m)%nat -> ~ begun (c_start c) (time_of us j))).
    { destruct b as [|b].
      - exists 0%nat. split; [|split; [lia|]].
        + split; [lia|]. split; auto. intros j Hj [B W]. apply Hend in W; [|lia]. destruct W as [q W].
          apply Hbeg in B; [|lia]. assert (j = (m + (N - 1))%nat) by (apply (Hin j q); unfold m, k in *; lia). unfold m, k in *; lia.
        + intros j Hj. rewrite Hbeg by (unfold m, k in *; lia). unfold m in *. lia.
      - exists m. split; [|split; [lia|lia]].
        split; [unfold m, k; lia|]. split.
        + right. exists (m - 1)%nat. split; [unfold m; nia|]. split.
          * apply Hbeg; unfold m, k in *; nia.
          * apply Hend; [unfold m, k in *; nia|]. exists (Z.of_nat b + 1)%Z. unfold m. nia.
        + intros j Hj [B W]. apply Hend in W; [|lia]. destruct W as [q W].
          assert (j = (m + (N - 1))%nat) by (apply (Hin j q); unfold k, m in *; lia). unfold m, k in *; lia. }
    destruct K as (m0 & HW & Hm0 & Hn0).
    assert (Bk : begun (c_start c) (time_of us k)) by (apply Hbeg; unfold k in *; lia).
    assert (Wk : window_end (c_loop c) (c_dt c) (c_start c) (time_of us k)).
    { apply Hend; auto. exists (Z.of_nat b + 1)%Z. unfold k. nia. }
    destruct (ccd_frame R c pix0 r0 s0 us l E0 E m0 k Hk Bk Wk HW) as (F1 & F2 & F3 & F4 & F5).
    split; auto. split; auto. split; auto.
    intros i Hi. rewrite F4 by auto.
    replace (S k - m0)%nat with ((m - m0) + N)%nat by (unfold k, m in *; lia).
    rewrite sumn_app by auto. rewrite (sumn_zero A HF).
    2: { intros j Hj. specialize (Hn0 (m0 + j)%nat ltac:(lia)). rewrite <- begunb_iff in Hn0.
         destruct (begunb (c_start c) (time_of us (m0 + j))); congruence. }
    rewrite (sumn_ext N _ (fun j => val_of (c_n c) us (m + j) i * c_factor c)); [ring|].
    intros j Hj. replace (m0 + (m - m0 + j))%nat with (m + j)%nat by lia.
    assert (B : begunb (c_start c) (time_of us (m + j)) = true).
    { apply begunb_iff, Hbeg; unfold m, k in *; lia. }
    rewrite B. reflexivity.
  - destruct (ccd_hold R c pix0 r0 s0 us l E0 E k Hk) as (F1 & F2 & F3 & F4 & _).
    { intros [B W]. apply Hend in W; auto. destruct W as [q W].
      assert (k = (m + (N - 1))%nat) by (apply (Hin k q); unfold m, k in *; lia). unfold m, k in *; lia. }
    auto.
Qed.
End Field.
