(* Proofs about the multirate complementary filter. *)
From Coq Require Import List Bool PeanoNat ZArith Lia Field_theory Ring_theory Ring Field.
From Verif Require Import PyBase Arith ArithLemmas FilterModel FilterSpec SumLemmas FilterProofs IirProofs
  FilterFacts FilterFacts2 MultirateModel.
Import ListNotations.
Local Open Scope ar_scope.

(* ------------------------------------------------------------------ vocabulary *)

(* normalised DC weight of the fast sensor (0) and of slow sensor j (S j) *)
Definition dc_weight {A : arith} (c : mcfg A) (j : nat) : A := nth j (mw c) 0 / vsum (mw c).
Definition ratio {A : arith} (c : mcfg A) (j : nat) : nat := nth j (mN c) 0%nat.

(* the frame with 0-based index [k] is one on which a sensor with ratio [N] is due *)
Definition due (N k : nat) : Prop := ((k + 1) mod N = 0)%nat.

Definition yf_at {A : arith} (us : list (minput A)) (k i : nat) : A :=
  nth i (nth k (map mi_yf us) []) 0.
Definition ys_at {A : arith} (us : list (minput A)) (k j i : nat) : A :=
  nth i (nth j (nth k (map mi_ys us) []) []) 0.

(* fused input of channel [i] at frame [k]: fast difference plus leak, plus the slow
   sensors that are due at this frame, weighted by their period *)
Definition fused {A : arith} (c : mcfg A) (us : list (minput A)) (k i : nat) : A :=
  (1 + mg c * dc_weight c 0) * yf_at us k i - ago (fun k => yf_at us k i) k 1 +
  sumn (length (mN c)) (fun j =>
    if Nat.eqb ((k + 1) mod ratio c j) 0
    then mg c * dc_weight c (S j) * of_nat (ratio c j) * ys_at us k j i else 0).

Definition fused_inputs {A : arith} (c : mcfg A) (n : nat) (us : list (minput A)) : list (vec A * option (vec A)) :=
  map (fun k => (map (fused c us k) (seq 0 n), nth k (map mi_g us) None)) (seq 0 (length us)).

(* sizes of one frame of inputs *)
Definition frame_ok {A : arith} (c : mcfg A) (n : nat) (i : minput A) : Prop :=
  length (mi_ys i) = length (mN c) /\ length (mi_yf i) = n /\ (forall y, In y (mi_ys i) -> length y = n) /\
  match mi_g i with Some g => fits n g | None => True end.

(* ---------------------------------------------------------------- synchronisation *)

Lemma sync_ok frame tf ns ts : length ts = length ns -> (forall n, In n ns -> (0 < n)%nat) ->
  (sync_check frame tf ns ts = Ok tt <->
   forall j, (j < length ns)%nat -> (frame mod nth j ns 0 = 0)%nat <-> nth j ts 0%Z = tf) /\
  (sync_check frame tf ns ts = Ok tt \/ sync_check frame tf ns ts = Err RuntimeError).
Proof.
  revert ts. induction ns as [|n ns IH]; intros [|t ts] L Hp; try discriminate.
  - split; auto. split; auto. intros _ j Hj. simpl in Hj. lia.
  - cbn [sync_check]. assert (0 < n)%nat by (apply Hp; simpl; auto).
    destruct (Nat.eqb_spec n 0); [lia|].
    destruct (IH ts) as [IH1 IH2]; [simpl in L; lia|intros; apply Hp; simpl; auto|].
    destruct (Nat.eqb_spec (frame mod n) 0) as [e|e], (Z.eqb_spec t tf) as [e2|e2].
    + split; auto. rewrite IH1. split.
      * intros H' [|j] Hj; cbn [nth]; [split; auto|apply H'; simpl in Hj; lia].
      * intros H' j Hj. apply (H' (S j)). simpl. lia.
    + split; auto. split; [discriminate|]. intros H'. exfalso. apply e2. apply (H' 0%nat); simpl; auto. lia.
    + split; auto. split; [discriminate|]. intros H'. exfalso. apply e. apply (H' 0%nat); simpl; auto. lia.
    + split; auto. rewrite IH1. split.
      * intros H' [|j] Hj; cbn [nth]; [split; intros; contradiction|apply H'; simpl in Hj; lia].
      * intros H' j Hj. apply (H' (S j)). simpl. lia.
Qed.

Section Sync.
Context {A : arith}.
Variable c : mcfg A.
Variable n : nat.
Variable d : delay A.
Hypothesis HN : forall N, In N (mN c) -> (0 < N)%nat.
Hypothesis Hsync : msync c = true.

(* the slow sensors refreshed at frame [k] are exactly those due *)
Definition in_sync (k : nat) (i : minput A) : Prop :=
  match i with
  | Sep tf _ ys _ => forall j, (j < length (mN c))%nat -> (due (ratio c j) k <-> nth j (map fst ys) 0%Z = tf)
  | Vec _ _ _ => True
  end.

Lemma mstep_sync s i : frame_ok c n i ->
  (in_sync (m_cpu (fx s)) i -> exists s', mstep c n d s i = Ok s' /\ m_cpu (fx s') = S (m_cpu (fx s))) /\
  (~ in_sync (m_cpu (fx s)) i -> mstep c n d s i = Err RuntimeError).
Proof.
  intros (L1 & L2 & L3 & Lg). unfold mstep, mprepare.
  assert (Eg : exists g, match mi_g i with Some g => fit n g | None => Ok (ones n) end = Ok g).
  { destruct (mi_g i); [apply fit_iff; auto|eauto]. }
  destruct Eg as [g ->]. cbn [bind].
  assert (Es : let r := match i with
       | Sep tf _ ys _ => if msync c then sync_check (m_cpu (fx s) + 1) tf (mN c) (map fst ys) else Ok tt
       | Vec _ _ _ => Ok tt end in (r = Ok tt <-> in_sync (m_cpu (fx s)) i) /\ (r = Ok tt \/ r = Err RuntimeError)).
  { destruct i as [tf yf ys g'|yf ys g']; cbn [in_sync mi_ys] in *.
    - rewrite Hsync. apply sync_ok; auto. rewrite map_length in *. auto.
    - cbv zeta. split; [split; auto|auto]. }
  cbv zeta in Es.
  destruct Es as [Es1 Es2]. split; intros H.
  - rewrite (proj2 Es1 H). cbn [bind]. unfold mtrigger. rewrite L1, Nat.eqb_refl. cbn [negb].
    rewrite L2, Nat.eqb_refl.
    assert (Ef : forallb (fun y => Nat.eqb (length y) n) (mi_ys i) = true).
    { apply forallb_forall. intros y Hy. apply Nat.eqb_eq; auto. }
    rewrite Ef. cbn [andb negb bind]. eexists. split; [reflexivity|]. cbn [fpost fx m_cpu]. lia.
  - destruct Es2 as [E|E]; [apply Es1 in E; contradiction|]. rewrite E. reflexivity.
Qed.

Lemma mrun_sync us : forall s, (forall i, In i us -> frame_ok c n i) ->
  ((forall k i, (k < length us)%nat -> nth_error us k = Some i -> in_sync (m_cpu (fx s) + k) i) ->
     exists s' ys, mrun c n d s us = Ok (s', ys)) /\
  ((exists k i, nth_error us k = Some i /\ ~ in_sync (m_cpu (fx s) + k) i) -> mrun c n d s us = Err RuntimeError).
Proof.
  induction us as [|i r IH]; intros s Hf.
  - split; [cbn; eauto|]. intros ([|k] & i & E & _); discriminate.
  - destruct (mstep_sync s i (Hf i (or_introl eq_refl))) as [S1 S2]. cbn [mrun]. split.
    + intros H. destruct S1 as (s1 & E1 & C1).
      { specialize (H 0%nat i ltac:(simpl; lia) eq_refl). rewrite Nat.add_0_r in H. auto. }
      rewrite E1. cbn [bind]. destruct (IH s1 (fun i H => Hf i (or_intror H))) as [I1 _].
      destruct I1 as (s2 & ys & E2).
      { intros k j Hk Ej. rewrite C1. replace (S (m_cpu (fx s)) + k)%nat with (m_cpu (fx s) + S k)%nat by lia.
        apply H; auto. simpl. lia. }
      rewrite E2. cbn [bind fst snd]. eauto.
    + intros (k & j & E & Hn).
      assert (D : in_sync (m_cpu (fx s)) i \/ ~ in_sync (m_cpu (fx s)) i).
      { destruct i as [tf yf ys g'|]; [|left; exact I].
        destruct (sync_ok (m_cpu (fx s) + 1) tf (mN c) (map fst ys)) as [Q1 [Q2|Q2]]; auto.
        - destruct (Hf _ (or_introl eq_refl)) as [Hl _]. cbn [mi_ys] in Hl. rewrite map_length in *. auto.
        - left. exact (proj1 Q1 Q2).
        - right. intros Hi. pose proof (proj2 Q1 Hi). congruence. }
      destruct D as [D|D]; [|rewrite S2; auto].
      destruct (S1 D) as (s1 & E1 & C1). rewrite E1. cbn [bind].
      destruct k as [|k]; [injection E as <-; rewrite Nat.add_0_r in Hn; contradiction|].
      destruct (IH s1 (fun i H => Hf i (or_intror H))) as [_ I2]. rewrite I2; auto.
      exists k, j. split; auto. rewrite C1. replace (S (m_cpu (fx s)) + k)%nat with (m_cpu (fx s) + S k)%nat by lia. auto.
Qed.
End Sync.

(* -------------------------------------------------------------- fused input, engine *)
Section Field.
Variable A : arith.
Hypothesis HF : is_field A.
Let HF' : field_theory (@zer A) one add mul sub opp dvd inv eq := HF.
Add Field fA7 : HF'.

Variable c : mcfg A.
Variables n ni no : nat.
Hypothesis Snum : shape (mnum c) n (S ni).
Hypothesis Sden : shape (mden c) n (S no).
Hypothesis Hw : length (mw c) = (length (mN c) + 1)%nat.

Let ci : iir A := mkIir (mnum c) (mden c) true.

Lemma add_slows_length frame cns : forall (ys : list (vec A)) (acc : vec A), length acc = n -> (forall y, In y ys -> length y = n) ->
  length (add_slows frame acc cns ys) = n.
Proof.
  induction cns as [|cn cr IH]; intros [|y ys] acc La Hy; auto. cbn [add_slows]. apply IH.
  - unfold add_slow. apply vadd_length; auto. rewrite map_length. apply Hy. simpl; auto.
  - intros. apply Hy. simpl; auto.
Qed.

Lemma add_slows_nth frame cns : forall (ys : list (vec A)) (acc : vec A) i, length acc = n -> length ys = length cns ->
  (forall y, In y ys -> length y = n) -> (i < n)%nat ->
  nth i (add_slows frame acc cns ys) 0 =
  nth i acc 0 + sumn (length cns) (fun j =>
    if Nat.eqb (frame mod snd (nth j cns (0, 0%nat))) 0 then fst (nth j cns (0, 0%nat)) * nth i (nth j ys []) 0 else 0).
Proof.
  induction cns as [|cn cr IH]; intros [|y ys] acc i La Ly Hy Hi; try discriminate.
  - cbn. ring.
  - cbn [add_slows length]. rewrite IH; auto.
    + rewrite sumn_first by auto. cbn [nth]. unfold add_slow, vadd.
      rewrite map2_nth with (a := 0) (b := 0); [|lia|rewrite map_length, Hy; simpl; auto].
      rewrite (nth_map0 A (fun v => fst cn * (v * _))) by ring.
      destruct (Nat.eqb (frame mod snd cn) 0); ring.
    + unfold add_slow. apply vadd_length; auto. rewrite map_length. apply Hy. simpl; auto.
    + intros. apply Hy. simpl; auto.
Qed.

Lemma mixed_length frame yf prev ys : length yf = n -> length prev = n -> (forall y, In y ys -> length y = n) ->
  length (mixed c frame yf prev ys) = n.
Proof.
  intros. unfold mixed. apply add_slows_length; auto. apply vadd_length; rewrite map_length; auto.
Qed.

Lemma wnorm_nth j : (j < length (mw c))%nat -> nth j (wnorm c) 0 = dc_weight c j.
Proof.
  intros Hj. unfold wnorm, dc_weight. rewrite (nth_indep _ 0 (0 / vsum (mw c))) by (rewrite map_length; auto).
  apply (map_nth (fun w => w / vsum (mw c))).
Qed.

Lemma mixed_nth frame yf prev ys i : length yf = n -> length prev = n -> (forall y, In y ys -> length y = n) ->
  length ys = length (mN c) -> (i < n)%nat ->
  nth i (mixed c frame yf prev ys) 0 =
  (1 + mg c * dc_weight c 0) * nth i yf 0 - nth i prev 0 +
  sumn (length (mN c)) (fun j => if Nat.eqb (frame mod ratio c j) 0
     then mg c * dc_weight c (S j) * of_nat (ratio c j) * nth i (nth j ys []) 0 else 0).
Proof.
  intros L1 L2 L3 L4 Hi. unfold mixed.
  assert (Lw : length (wnorm c) = S (length (mN c))) by (unfold wnorm; rewrite map_length; lia).
  assert (Lt : length (tl (wnorm c)) = length (mN c)) by (destruct (wnorm c); simpl in *; lia).
  assert (Lc : length (c_ys c) = length (mN c)) by (unfold c_ys; rewrite map2_length, Lt; lia).
  assert (Lcb : length (combine (c_ys c) (mN c)) = length (mN c)) by (rewrite combine_length; lia).
  rewrite add_slows_nth; auto; [|apply vadd_length; rewrite map_length; auto|lia].
  rewrite Lcb. f_equal.
  - unfold vadd. rewrite map2_nth with (a := 0) (b := 0) by (rewrite map_length; lia).
    rewrite (nth_map0 A (fun v => c_yf0 c * v)), (nth_map0 A (fun v => opp 1 * v)) by ring.
    unfold c_yf0. rewrite wnorm_nth by lia. ring.
  - apply sumn_ext. intros j Hj. rewrite combine_nth by auto. cbn [fst snd]. unfold ratio.
    destruct (Nat.eqb (frame mod nth j (mN c) 0%nat) 0); auto. f_equal.
    unfold c_ys. rewrite map2_nth with (a := 0) (b := 0%nat) by lia. f_equal. f_equal.
    rewrite <- wnorm_nth by lia. destruct (wnorm c); cbn [tl nth]; auto. destruct j; auto.
Qed.

(* the engine without mask is the IIR engine with integration *)
Lemma unmask (r : vec A) : vmul (removelast r) (removelast (map (fun _ => 1) r)) = removelast r.
Proof.
  rewrite removelast_map. generalize (removelast r). clear r. intros r. unfold vmul.
  induction r; cbn [map map2]; auto. rewrite IHr. f_equal. ring.
Qed.

Definition mrel (s : fstate A (mst A)) (t : fstate A (mat A * mat A)) (k : nat) (prev : vec A) : Prop :=
  fbuf s = fbuf t /\ (m_ist (fx s), m_ost (fx s)) = fx t /\ m_prev (fx s) = prev /\ m_frame (fx s) = k.

Lemma mstep_iir d s t k prev i s1 : mrel s t k prev -> length prev = n ->
  mstep c n d s i = Ok s1 ->
  exists t1, fstep n d (iir_law ci) t (mixed c (S k) (mi_yf i) prev (mi_ys i), mi_g i) = Ok t1 /\
    mrel s1 t1 (S k) (mi_yf i) /\ fouts s1 = fouts t1 /\
    length (mi_yf i) = n /\ length (mi_ys i) = length (mN c) /\ (forall y, In y (mi_ys i) -> length y = n).
Proof.
  intros (R1 & R2 & R3 & R4) Lp E. unfold mstep, mprepare in E.
  destruct (match mi_g i with Some g => fit n g | None => Ok (ones n) end) as [g|] eqn:Eg; [|discriminate].
  cbn [bind] in E.
  match type of E with context [bind (bind ?r _) _] => destruct r; [|discriminate] end. cbn [bind] in E.
  unfold mtrigger in E. cbv zeta in E. cbn [fx m_frame m_prev m_ist m_ost m_cpu fgain fbuf fdelta fout fnd] in E.
  destruct (Nat.eqb_spec (length (mi_ys i)) (length (mN c))) as [L1|]; [|discriminate]. cbn [negb] in E.
  destruct (Nat.eqb_spec (length (mi_yf i)) n) as [L2|]; [|discriminate]. cbn [andb] in E.
  destruct (forallb (fun y => Nat.eqb (length y) n) (mi_ys i)) eqn:L3; [|discriminate]. cbn [negb bind] in E.
  assert (L3' : forall y, In y (mi_ys i) -> length y = n).
  { intros y Hy. rewrite forallb_forall in L3. apply Nat.eqb_eq, L3; auto. }
  cbn [fx m_frame m_prev m_ist m_ost m_cpu fgain fbuf fdelta fout fnd] in E. rewrite R3, R4 in E. injection E as <-.
  assert (Lm : length (mixed c (S k) (mi_yf i) prev (mi_ys i)) = n) by (apply mixed_length; auto).
  unfold fstep, fprepare. cbn [fst snd]. unfold fit at 1. rewrite Lm, Nat.eqb_refl. cbn [bind].
  rewrite Eg. cbn [bind]. unfold ftrigger. cbn [fx fdelta fgain fbuf fout fnd].
  rewrite <- R2, <- R1. unfold iir_law. cbn [fst snd ci inum iden].
  assert (Em : map2 vmul (map (@removelast _) (mden c)) (map (@removelast _) (den_mask ci)) = map (@removelast _) (mden c)).
  { unfold den_mask, ci. cbn [iden iinteg]. rewrite !map_map, map2_map. apply map_ext. intros r. apply unmask. }
  fold ci. rewrite Em.
  eexists. split; [reflexivity|]. split; [|split; [|auto]].
  - unfold mrel, fpost. cbn [fbuf fx m_ist m_ost m_prev m_frame]. auto.
  - unfold fouts, fread, fpost. cbn [fout fnd fbuf]. destruct d as [[|m]|m f]; reflexivity.
Qed.

(* inputs seen by the equivalent IIR filter, by recursion on the frames *)
Fixpoint mix_list (k : nat) (prev : vec A) (us : list (minput A)) : list (finput A) :=
  match us with
  | [] => []
  | i :: r => (mixed c (S k) (mi_yf i) prev (mi_ys i), mi_g i) :: mix_list (S k) (mi_yf i) r
  end.

Lemma mrun_iir d us : forall s t k prev s' ys, mrel s t k prev -> length prev = n ->
  mrun c n d s us = Ok (s', ys) ->
  (exists t', frun n d (iir_law ci) t (mix_list k prev us) = Ok (t', ys)) /\
  (forall i, In i us -> length (mi_yf i) = n /\ length (mi_ys i) = length (mN c) /\ (forall y, In y (mi_ys i) -> length y = n)).
Proof.
  induction us as [|i r IH]; intros s t k prev s' ys HR Lp E; cbn [mrun mix_list frun] in *.
  - injection E as <- <-. split; [eauto|intros i []].
  - destruct (mstep c n d s i) as [s1|] eqn:E1; [|discriminate]. cbn [bind] in E.
    destruct (mstep_iir d s t k prev i s1 HR Lp E1) as (t1 & F1 & R1 & O1 & L1 & L2 & L3).
    rewrite F1. cbn [bind].
    destruct (mrun c n d s1 r) as [[s2 ys2]|] eqn:E2; [|discriminate]. cbn [bind fst snd] in E.
    injection E as <- <-.
    destruct (IH s1 t1 (S k) (mi_yf i) s2 ys2 R1 L1 E2) as [(t2 & F2) HL].
    rewrite F2. cbn [bind fst snd]. split; [rewrite O1; eauto|].
    intros j [<-|Hj]; auto.
Qed.

Lemma mix_list_length us : forall k prev, length (mix_list k prev us) = length us.
Proof. induction us; intros; cbn; auto. Qed.

Lemma mix_list_nth us : forall k prev m, (m < length us)%nat ->
  nth m (mix_list k prev us) ([], None) =
  (mixed c (S (k + m)) (nth m (map mi_yf us) []) (match m with 0%nat => prev | S p => nth p (map mi_yf us) [] end)
         (nth m (map mi_ys us) []), nth m (map mi_g us) None).
Proof.
  induction us as [|i r IH]; intros k prev m Hm; [simpl in Hm; lia|].
  destruct m as [|m]; cbn [mix_list nth map].
  - rewrite Nat.add_0_r. reflexivity.
  - rewrite IH by (simpl in Hm; lia). replace (S k + m)%nat with (k + S m)%nat by lia.
    destruct m; reflexivity.
Qed.

Lemma multirate_run d us s ys : mrun c n d (minit c n d) us = Ok (s, ys) ->
  exists t, iir_run ci d (fused_inputs c n us) = Ok (t, ys).
Proof.
  intros E.
  assert (R0 : mrel (minit c n d) (finit n d (iir_x0 ci)) 0 (zeros n)) by (unfold mrel, minit, finit; cbn; auto).
  assert (Lz : length (@zeros A n) = n) by apply repeat_length.
  destruct (mrun_iir d us _ _ _ _ _ _ R0 Lz E) as [(t & F) HL].
  rewrite (iir_run_frun ci n ni Snum). exists t. rewrite <- F. f_equal.
  unfold fused_inputs. rewrite (map_seq_nth' (mix_list 0 (zeros n) us) ([], None) (length us)) by apply mix_list_length.
  apply map_ext_in. intros k Hk%in_seq. rewrite mix_list_nth by lia. f_equal.
  assert (Hin : forall m, (m < length us)%nat -> exists i, In i us /\ nth m (map mi_yf us) [] = mi_yf i /\ nth m (map mi_ys us) [] = mi_ys i).
  { intros m Hm. destruct us as [|i0 r]; [simpl in Hm; lia|]. set (us := i0 :: r) in *.
    exists (nth m us i0). split; [apply nth_In; auto|]. split.
    - rewrite (nth_indep _ [] (mi_yf i0)) by (rewrite map_length; auto). apply map_nth.
    - rewrite (nth_indep _ [] (mi_ys i0)) by (rewrite map_length; auto). apply map_nth. }
  destruct (Hin k ltac:(lia)) as (ik & Ik & E1 & E2). destruct (HL ik Ik) as (L1 & L2 & L3).
  set (prev := match k with 0%nat => zeros n | S p => nth p (map mi_yf us) [] end).
  assert (Lp : length prev = n).
  { unfold prev. destruct k as [|p]; [apply repeat_length|].
    destruct (Hin p ltac:(lia)) as (ip & Ip & -> & _). apply HL; auto. }
  rewrite E1, E2.
  rewrite (map_seq_nth' (mixed c (S (0 + k)) (mi_yf ik) prev (mi_ys ik)) 0 n) by (apply mixed_length; auto).
  apply map_ext_in. intros i Hi%in_seq. rewrite mixed_nth by (auto; lia).
  unfold fused, yf_at, ys_at. rewrite E1, E2. cbn [Nat.add].
  replace (k + 1)%nat with (S k) by lia. f_equal. f_equal.
  unfold ago, prev. destruct k as [|p]; cbn [Nat.leb].
  - unfold zeros. symmetry; apply nth_repeat_same.
  - replace (S p - 1)%nat with p by lia. reflexivity.
Qed.

(* ------------------------------------------------- DC behaviour of the zero-stuffing *)

Lemma of_nat_add a b : of_nat (a + b) = of_nat a + of_nat b :> A.
Proof. induction b; [rewrite Nat.add_0_r; cbn; ring|]. rewrite Nat.add_succ_r. cbn [of_nat]. rewrite IHb. ring. Qed.

Lemma stuffed_period N s0 : (0 < N)%nat ->
  sumn N (fun k => if Nat.eqb ((s0 + k + 1) mod N) 0 then of_nat N else 0) = of_nat N :> A.
Proof.
  clear Hw. intros HN.
  (* exactly one of N consecutive frames is a multiple of N *)
  set (k0 := (N - 1 - s0 mod N)%nat).
  assert (Hs : (s0 mod N < N)%nat) by (apply Nat.mod_upper_bound; lia).
  assert (K : forall k, (k < N)%nat -> ((s0 + k + 1) mod N = 0)%nat <-> k = k0).
  { intros k Hk. unfold k0.
    rewrite (Nat.div_mod s0 N) at 1 by lia.
    replace (N * (s0 / N) + s0 mod N + k + 1)%nat with ((s0 mod N + k + 1) + (s0 / N) * N)%nat by lia.
    rewrite Nat.mod_add by lia.
    destruct (Nat.lt_ge_cases (s0 mod N + k + 1) N) as [H|H].
    - rewrite Nat.mod_small by auto. lia.
    - replace (s0 mod N + k + 1)%nat with ((s0 mod N + k + 1 - N) + 1 * N)%nat at 1 by lia.
      rewrite Nat.mod_add by lia. rewrite Nat.mod_small by lia. lia. }
  rewrite (sumn_single A HF N k0); auto.
  - destruct (Nat.eqb_spec ((s0 + k0 + 1) mod N) 0) as [|e]; auto.
    exfalso. apply e. apply K; auto. unfold k0. lia.
  - unfold k0. lia.
  - intros j Hj Hn. destruct (Nat.eqb_spec ((s0 + j + 1) mod N) 0) as [e|]; auto.
    apply K in e; auto. contradiction.
Qed.

Lemma stuffed_sum N s0 q : (0 < N)%nat ->
  sumn (q * N) (fun k => if Nat.eqb ((s0 + k + 1) mod N) 0 then of_nat N else 0) = of_nat (q * N) :> A.
Proof.
  clear Hw. intros HN. induction q as [|q IH]; auto.
  replace (S q * N)%nat with (q * N + N)%nat by lia.
  rewrite sumn_app, IH, of_nat_add by auto. f_equal.
  etransitivity; [|exact (stuffed_period N (s0 + q * N) HN)]. apply sumn_ext. intros k Hk.
  replace (s0 + (q * N + k) + 1)%nat with (s0 + q * N + k + 1)%nat by lia. reflexivity.
Qed.

Lemma sumn_const m (x : A) : sumn m (fun _ => x) = of_nat m * x.
Proof. induction m; cbn [sumn of_nat]; [ring|]. rewrite IHm. ring. Qed.

(* Over any common multiple of the slow periods, with constant measurements, the fused
   input adds up to the tracking gain times the weighted mean of all sensors. *)
Lemma fused_dc us i s0 L yf ys : (0 < s0)%nat -> (s0 + L <= length us)%nat ->
  (forall j, (j < length (mN c))%nat -> (0 < ratio c j)%nat /\ exists q, L = (q * ratio c j)%nat) ->
  (forall k, (s0 - 1 <= k < s0 + L)%nat -> yf_at us k i = yf) ->
  (forall k j, (s0 <= k < s0 + L)%nat -> (j < length (mN c))%nat -> ys_at us k j i = ys j) ->
  sumn L (fun k => fused c us (s0 + k) i) =
  of_nat L * (mg c * (dc_weight c 0 * yf + sumn (length (mN c)) (fun j => dc_weight c (S j) * ys j))).
Proof.
  clear Hw. intros Hs HL HNq Hyf Hys. unfold fused.
  rewrite (sumn_ext L _ (fun k => mg c * dc_weight c 0 * yf +
    sumn (length (mN c)) (fun j => mg c * dc_weight c (S j) * ys j *
       (if Nat.eqb ((s0 + k + 1) mod ratio c j) 0 then of_nat (ratio c j) else 0)))).
  2: { intros k Hk. unfold ago. destruct (Nat.leb_spec 1 (s0 + k)); [|lia].
       rewrite !Hyf by lia. f_equal; [ring|]. apply sumn_ext. intros j Hj. rewrite Hys by lia.
       destruct (Nat.eqb ((s0 + k + 1) mod ratio c j) 0); ring. }
  rewrite sumn_add, sumn_const, sumn_swap by auto.
  rewrite (sumn_ext (length (mN c)) _ (fun j => (of_nat L * mg c) * (dc_weight c (S j) * ys j))).
  2: { intros j Hj. rewrite sumn_scale by auto. destruct (HNq j Hj) as [Hp [q Hq]]. rewrite Hq at 1.
       rewrite stuffed_sum, <- Hq by auto. ring. }
  rewrite sumn_scale by auto. ring.
Qed.
End Field.
