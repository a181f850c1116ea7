(* C84: phase screens *)
From Coq Require Import List ZArith Bool Arith QArith Qcanon Qround Lqa Lia.
From Verif Require Import PyBase PyLemmas Arith FilterSpec OpticalModel ExtModel NpModel FitsModel RebinModel RebinSpec RebinProofs CutModel CutSpec CutProofs VecModel SlopecModel SlopecSpec SumLemmas QcTac
  FieldModel FieldSpec FieldProofs InterpModel InterpSpec InterpProofs PropModel AtmoModel AtmoSpec AtmoProofs ScreenModel ScreenSpec ScreenProofs Properties_Filter Properties_Field Properties_Atmo.
Import ListNotations.
Local Open Scope Qc_scope.

Section P.
Variable calc : recipe -> arr2 Qc.

(* Starting from an empty directory, and after any earlier requests, screens that cannot be
   confused are those that would be computed. *)
Theorem C84_files rs1 rs2 : distinct_names (rs1 ++ rs2) -> fst (get_screens calc (snd (get_screens calc [] rs1)) rs2) = map calc rs2.
Proof.
  intros H. destruct (get_many calc (rs1 ++ rs2) rs1 [] H) as [_ M]; [intros; apply in_or_app; now left|intros n a E; discriminate E|].
  apply (get_many calc (rs1 ++ rs2) rs2 _ H); [|exact M]. intros. apply in_or_app. now right.
Qed.
(* This is so for whole L0 and pitches with at most three decimals. *)
Theorem C84_whole rs : (forall r, In r rs -> exists l p, rc_L0 r = qz l /\ rc_pitch r = qz p / qz 1000) -> distinct_names rs.
Proof.
  intros H. assert (K : forall r, In r rs -> rc_L0 r = qz (fn_L0 (name_of false false r)) / qz 10000 /\ rc_pitch r = qz (fn_pitch (name_of false false r)) / qz 1000 /\ fn_L0 (name_of false true r) = fn_L0 (name_of false false r)).
  { intros r Hr. destruct (H r Hr) as (l & p & E1 & E2). unfold name_of. cbn [fn_L0 fn_pitch]. rewrite E1, E2.
    assert (X : qz l * qz 10000 = qz (l * 10000)) by (apply Qc_iff; rewrite this_mul, !this_qz, inject_Z_mult; reflexivity).
    replace (qz p / qz 1000 * qz 1000) with (qz p) by (field; discriminate). rewrite X, !qround_qz. split; [|split; reflexivity]. rewrite <- X. field. discriminate. }
  intros p q Hp Hq. destruct (K p Hp) as (A1 & A2 & A3). destruct (K q Hq) as (B1 & B2 & B3).
  assert (G : forall b, name_of false b p = name_of false false q -> fn_L0 (name_of false false p) = fn_L0 (name_of false false q) -> p = q).
  { intros b E F. assert (F2 := f_equal fn_pitch E). assert (F3 := f_equal fn_seed E). assert (F4 := f_equal fn_dim E). assert (F5 := f_equal fn_single E). cbn in F3, F4, F5.
    rewrite F in A1. rewrite <- B1 in A1. change (fn_pitch (name_of false b p)) with (fn_pitch (name_of false false p)) in F2. rewrite F2, <- B2 in A2.
    destruct p, q. cbn in A1, A2, F3, F4, F5. now subst. }
  split; intros E; [apply (G false E); now rewrite E|]. apply (G true E). now rewrite <- A3, E.
Qed.

Variable root : Qc -> Qc.
Variable nm : Qc.

(* Layers have the even number of pixels just covering the pupil and the field of view. *)
Theorem C84_size pupil pitch pos fov dist : 0 < pitch -> 0 <= fov -> (forall x, In x pos -> x = 0) -> root 0 = 0 ->
  exists z, layer_px root pupil pitch pos fov None dist = Some (2 * z)%Z /\
    qnat pupil * pitch + qabs dist * fov <= qz (2 * z) * pitch /\ qz (2 * z) * pitch < qnat pupil * pitch + qabs dist * fov + qz 2 * pitch.
Proof.
  intros Hp Hf Hz Hr. assert (Np : pitch <> 0) by (intros ->; discriminate Hp). unfold layer_px.
  assert (S0 : qsum (map (fun x => x * (1 + 1)) pos) = 0).
  { unfold qsum. assert (G : forall l a, (forall x, In x l -> x = 0) -> fold_left Qcplus (map (fun x => x * (1 + 1)) l) a = a).
    { induction l as [|x l IH]; intros a Hl; [reflexivity|]. cbn [map fold_left]. rewrite IH by (intros; apply Hl; now right). rewrite (Hl x (or_introl eq_refl)). ring. }
    now apply G. }
  rewrite S0. replace (qlt 0 0) with false by reflexivity. rewrite Hr. set (u := (qn pupil + (1 + 1) * 0 / pitch + qabs dist / pitch * fov) / (1 + 1)). exists (qceil u). rewrite Z.mul_comm. split; [reflexivity|].
  assert (U : u * (1 + 1) * pitch = qnat pupil * pitch + qabs dist * fov) by (unfold u; change qn with qnat; field; split; [exact Np|discriminate]).
  assert (B : u <= qz (qceil u) /\ qz (qceil u) < u + 1).
  { unfold Qcle, Qclt. rewrite this_add, this_qz. unfold qceil. split; [apply Qle_ceiling|]. pose proof (Qceiling_lt (this u)) as C. change (this 1) with 1%Q. unfold Z.sub in C. rewrite inject_Z_plus in C. change (inject_Z (-(1))) with (- (1))%Q in C. lra. }
  destruct B as [B1 B2]. assert (D : qz (2 * qceil u) = qz (qceil u) * (1 + 1)) by (apply Qc_iff; rewrite this_mul, !this_qz, inject_Z_mult; change (this (1 + 1)) with 2%Q; change (inject_Z 2) with 2%Q; ring).
  rewrite D, <- U. apply (fun H => Qcmult_le_compat_r _ _ (1 + 1) H ltac:(discriminate)) in B1. apply (fun H => Qcmult_lt_compat_r _ _ (1 + 1) ltac:(reflexivity) H) in B2.
  split; [apply Qcmult_le_compat_r; [exact B1|apply Qclt_le_weak; exact Hp]|]. change (qz 2) with (1 + 1). apply (Qcmult_lt_compat_r _ _ pitch Hp) in B2. replace ((u + 1) * (1 + 1) * pitch) with (u * (1 + 1) * pitch + (1 + 1) * pitch) in B2 by ring. exact B2.
Qed.

(* Two layers never share a part of a computed square, and parts are inside it. *)
Theorem C84_apart mx size i j r r' : (0 < mx)%nat -> (mx <= size)%nat -> let per := (size / mx)%nat in (r < mx)%nat -> (r' < mx)%nat ->
  (mx * (i mod per) + r < size)%nat /\ (i <> j -> (i / per <> j / per)%nat \/ (mx * (i mod per) + r <> mx * (j mod per) + r')%nat).
Proof.
  intros Hm Hs per Hr Hr'. assert (Hp : (0 < per)%nat) by (apply Nat.div_str_pos; lia). pose proof (Nat.mul_div_le size mx ltac:(lia)) as M. fold per in M.
  pose proof (Nat.mod_upper_bound i per ltac:(lia)). pose proof (Nat.mod_upper_bound j per ltac:(lia)). split; [nia|]. intros N.
  destruct (Nat.eq_dec (i / per) (j / per)) as [E|E]; [right|now left]. pose proof (Nat.div_mod i per ltac:(lia)). pose proof (Nat.div_mod j per ltac:(lia)).
  intros Q. apply N. assert (i mod per = j mod per)%nat by nia. congruence.
Qed.

(* Screens computed are squares at least as large as asked for. *)
Variable side : Z -> nat.
Definition pix (r : recipe) (y x : nat) : Qc := entry 0 (calc r) y x.
Hypothesis Hcalc : forall r, image (A:=qc) (side (rc_dim r)) (side (rc_dim r)) (pix r) (calc r).
Hypothesis Hside : forall n, (n <= side (Z.of_nat n))%nat.

(* the screen of a layer made from these pixels *)
Definition screen_from (mx c : nat) (i : nat) (cn : Qc) (raw : nat -> nat -> Qc) (a : arr2 Qc) : Prop :=
  let f := if Nat.odd i then mirror c raw else raw in
  exists g, image (A:=qc) mx c g a /\ centred_copy mx c (root cn * nm) f g /\ flux (A:=qc) mx c (fun y x => g y x * g y x) = (root cn * nm) * (root cn * nm) * spread mx c raw.
Lemma normal_from mx c i cn raw a : (0 < mx)%nat -> (0 < c)%nat -> image (A:=qc) mx c raw a -> screen_from mx c i cn raw (normal root nm i cn a).
Proof.
  intros Hm Hc I. pose proof (normal_image root nm i cn mx c raw a Hm Hc I) as J. unfold screen_from. eexists. split; [exact J|].
  assert (M : mean2 mx c raw = mean2 mx c (if Nat.odd i then mirror c raw else raw)) by (destruct (Nat.odd i); [now rewrite mean_mirror|reflexivity]).
  split; [apply copy_centred; assumption|]. rewrite spread_copy by exact M. destruct (Nat.odd i); [now rewrite spread_mirror|reflexivity].
Qed.
Lemma normal_all_ok l : forall i cn2, (i + length l <= length cn2)%nat -> exists sc, normal_all root nm i cn2 l = Ok sc /\ length sc = length l /\
  forall k d e, (k < length l)%nat -> nth k sc e = normal root nm (i + k) (nth (i + k) cn2 0) (nth k l d).
Proof.
  induction l as [|a l IH]; intros i cn2 H; [exists []; repeat split; intros; cbn in *; lia|]. cbn [normal_all]. cbn in H. destruct (nth_error cn2 i) as [c|] eqn:E; [|apply nth_error_None in E; lia].
  destruct (IH (S i) cn2 ltac:(lia)) as (sc & E1 & L & V). rewrite E1. cbn [bind]. eexists. split; [reflexivity|]. split; [cbn; lia|]. intros [|k] d e Hk; cbn [nth].
  - rewrite Nat.add_0_r. f_equal. symmetry. now apply nth_error_nth.
  - rewrite (V k d e) by (cbn in Hk; lia). now rewrite Nat.add_succ_r.
Qed.
Definition sizes_are (pupil : nat) pitch pos fov fm dists sizes := Forall2 (fun h s => layer_px root pupil pitch pos fov fm h = Some (Z.of_nat s)) dists sizes.
Definition close_to_1 (x : Qc) : Prop := qabs (x - 1) <= qz 11 / qz 1000000.
Lemma sizes_ok pupil pitch pos fov fm dists sizes : sizes_are pupil pitch pos fov fm dists sizes ->
  map_res (fun h => match layer_px root pupil pitch pos fov fm h with Some z => if (z <? 0)%Z then Err ValueError else Ok (Z.to_nat z) | None => Err ValueError end) dists = Ok sizes.
Proof.
  induction 1 as [|h s dd ss E F IH]; [reflexivity|]. cbn [map_res]. rewrite E. replace (Z.of_nat s <? 0)%Z with false by (symmetry; apply Z.ltb_ge; lia). cbn [bind]. rewrite Nat2Z.id, IH. reflexivity.
Qed.
Lemma max_spec l : forall a, (a <= fold_left Nat.max l a)%nat /\ (forall x, In x l -> x <= fold_left Nat.max l a)%nat /\ (fold_left Nat.max l a = a \/ In (fold_left Nat.max l a) l).
Proof.
  induction l as [|x l IH]; intros a; cbn [fold_left]; [split; [lia|]; split; [intros x []|now left]|]. destruct (IH (Nat.max a x)) as (A & B & C).
  split; [lia|]. split; [intros y [<-|Hy]; [lia|now apply B]|]. destruct C as [C|C]; [|right; now right]. rewrite C. destruct (Nat.max_spec a x) as [[_ ->]|[_ ->]]; [right; now left|now left].
Qed.

Definition needed (l0 : Qc) size pitch single (seed : Z) (k : nat) : recipe := mkRecipe l0 (Z.of_nat size) pitch (seed + Z.of_nat k) single.
Lemma init_with d pupil pitch L0 dists cn2 fov size seed fm pos single sizes mx raws d' F :
  sizes_are pupil pitch pos fov fm dists sizes -> In mx sizes -> (forall s, In s sizes -> (s <= mx)%nat) -> (mx <= size)%nat -> (0 < mx)%nat -> (0 < seed)%Z ->
  close_to_1 (qsum cn2) -> (length dists <= length cn2)%nat ->
  raw_screens calc d seed L0 size mx (length dists) pitch single = Ok (raws, d') -> length raws = length dists ->
  (forall i e, (i < length dists)%nat -> image (A:=qc) mx (side (Z.of_nat size)) (F i) (nth i raws e)) ->
  exists sc, atmo_init calc root nm d pupil pitch L0 dists cn2 fov size seed fm pos single = Ok (sizes, sc, d') /\ length sc = length dists /\
  forall i e, (i < length dists)%nat -> screen_from mx (side (Z.of_nat size)) i (nth i cn2 0) (F i) (nth i sc e).
Proof.
  intros Hs Hin Hmx Hsz H0 Hseed Hc Hl Hraw Lr HF. unfold atmo_init. rewrite (sizes_ok _ _ _ _ _ _ _ Hs). cbn [bind].
  assert (M : fold_left Nat.max sizes 0%nat = mx). { destruct (max_spec sizes 0%nat) as (_ & A & [B|B]); [pose proof (A _ Hin); lia|]. pose proof (A _ Hin). pose proof (Hmx _ B). lia. }
  destruct sizes as [|s0' ss]; [contradiction Hin|]. rewrite M. replace (size <? mx)%nat with false by (symmetry; apply Nat.ltb_ge; exact Hsz).
  replace (seed <=? 0)%Z with false by (symmetry; apply Z.leb_gt; exact Hseed).
  assert (T : total_is_1 cn2 = true). { unfold total_is_1. apply negb_true_iff. apply qlt_false. exact Hc. }
  rewrite T, Hraw. cbn [bind fst snd]. destruct (normal_all_ok raws 0 cn2 ltac:(lia)) as (sc & E & L & V). rewrite E. cbn [bind]. exists sc. split; [reflexivity|]. split; [lia|].
  intros i e Hi. rewrite (V i e e) by lia. cbn [Nat.add]. apply normal_from; [exact H0| |now apply HF]. pose proof (Hside size). lia.
Qed.

Lemma rows_head mx R C (f : nat -> nat -> Qc) (a : arr2 Qc) : image (A:=qc) R C f a -> (mx <= R)%nat -> sel_rows qc a (head (Z.of_nat mx)) = Ok (tab qc mx C f).
Proof.
  intros I Hm. assert (E : sel_rows qc a (head (Z.of_nat mx)) = sel_rows qc a (slice2 (Z.of_nat 0) (Z.of_nat 0 + Z.of_nat mx))).
  { unfold sel_rows. pose proof I as (Ir & _). unfold a_r in Ir. rewrite take_slice2 by (rewrite Ir; exact Hm). rewrite take_head by lia. now rewrite Nat2Z.id. }
  rewrite E. exact (image_rows R C f a 0 mx I Hm).
Qed.
(* One L0: consecutive layers take consecutive parts of the squares, with consecutive seeds. *)
Theorem C84_layers rs d pupil pitch L0 l0 dists cn2 fov size seed fm pos single sizes mx : let per := (size / mx)%nat in
  distinct_names rs -> made_of calc rs d -> (forall k, (k < length dists)%nat -> In (needed l0 size pitch single seed (k / per)) rs) ->
  sizes_are pupil pitch pos fov fm dists sizes -> In mx sizes -> (forall s, In s sizes -> (s <= mx)%nat) -> (mx <= size)%nat -> (0 < mx)%nat -> (0 < seed)%Z ->
  close_to_1 (qsum cn2) -> (length dists <= length cn2)%nat -> L0 <> [] -> (forall l, In l L0 -> l = l0) ->
  exists sc d', atmo_init calc root nm d pupil pitch L0 dists cn2 fov size seed fm pos single = Ok (sizes, sc, d') /\ length sc = length dists /\
  forall i e, (i < length dists)%nat ->
    screen_from mx (side (Z.of_nat size)) i (nth i cn2 0) (fun y x => pix (needed l0 size pitch single seed (i / per)) (mx * (i mod per) + y) x) (nth i sc e).
Proof.
  intros per Hd Hm Hin Hs Hi Hx Hsz H0 Hseed Hc Hl Hne Hall. assert (Hp : (0 < per)%nat) by (apply Nat.div_str_pos; lia). pose proof (Nat.mul_div_le size mx ltac:(lia)) as Hpm. fold per in Hpm.
  set (n := length dists) in *. set (m := ceil_div n per).
  assert (Hn : (0 < n)%nat) by (unfold n; destruct Hs; [contradiction Hi|cbn; lia]).
  assert (Hmn : (n <= m * per)%nat /\ forall k, (k < m)%nat -> (k * per < n)%nat).
  { unfold m, ceil_div. pose proof (Nat.div_mod (n + per - 1) per ltac:(lia)) as D. pose proof (Nat.mod_upper_bound (n + per - 1) per ltac:(lia)). split; [nia|]. intros k Hk. nia. }
  set (rl := map (needed l0 size pitch single seed) (seq 0 m)).
  assert (Hrl : forall r, In r rl -> In r rs). { intros r Hr. apply in_map_iff in Hr as (k & <- & Hk). apply in_seq in Hk. destruct Hmn as [_ Hk']. specialize (Hk' k ltac:(lia)). specialize (Hin (k * per)%nat Hk'). rewrite Nat.div_mul in Hin by lia. exact Hin. }
  destruct (get_many calc rs rl d Hd Hrl Hm) as [G1 _].
  assert (Mg : manager calc d (firstn 1 L0) (Z.of_nat size) pitch single (map (fun k => seed + Z.of_nat k)%Z (seq 0 m)) = Ok (get_screens calc d rl)).
  { unfold manager. destruct L0 as [|a L0']; [contradiction Hne; reflexivity|]. rewrite (Hall a (or_introl eq_refl)). cbn [firstn]. cbn [length]. rewrite map_length, seq_length.
    destruct (Nat.eqb_spec 1 m) as [E|E].
    - unfold rl. rewrite <- E. reflexivity.
    - assert (m <> 0)%nat by (destruct Hmn; nia). unfold rl. destruct m as [|m']; [lia|]. cbn [seq map]. f_equal. f_equal. f_equal. rewrite map_map. reflexivity. }
  assert (As : all_same L0 = true). { unfold all_same. destruct L0 as [|a L0']; [contradiction Hne; reflexivity|]. apply forallb_forall. intros y Hy. rewrite (Hall a (or_introl eq_refl)), (Hall y (or_intror Hy)). destruct (Qc_eq_dec l0 l0); [reflexivity|contradiction]. }
  pose proof (share_ok mx per (map calc rl) (fun k => pix (needed l0 size pitch single seed k)) (side (Z.of_nat size)) (side (Z.of_nat size)) Hp ltac:(pose proof (Hside size); lia) n 0%nat 0%nat 0%nat) as Sh.
  assert (Sh' := Sh ltac:(intros k a E; unfold rl in E; rewrite map_map in E; assert (Hk : (k < m)%nat) by (rewrite <- (seq_length m 0), <- (map_length (fun x => calc (needed l0 size pitch single seed x))); apply nth_error_Some; congruence);
     rewrite nth_error_map, (nth_error_nth' _ 0%nat) in E by (rewrite seq_length; exact Hk); cbn in E; rewrite seq_nth in E by exact Hk; injection E as <-; exact (Hcalc (needed l0 size pitch single seed k)))
    ltac:(unfold rl; rewrite !map_length, seq_length; lia) ltac:(symmetry; apply Nat.div_small; lia) ltac:(intros H; exfalso; apply H; apply Nat.mod_0_l; lia)).
  clear Sh. set (raws := map _ (seq 0 n)) in Sh'.
  destruct (init_with d pupil pitch L0 dists cn2 fov size seed fm pos single sizes mx raws (snd (get_screens calc d rl)) (fun i y x => pix (needed l0 size pitch single seed (i / per)) (mx * (i mod per) + y) x)) as (sc & E & L & V); auto.
  - unfold raw_screens. rewrite As. destruct (Nat.eqb_spec mx 0); [lia|]. fold per. fold n. fold m. rewrite Mg. cbn [bind]. rewrite G1, Sh'. reflexivity.
  - unfold raws. rewrite map_length, seq_length. reflexivity.
  - intros i e Hi'. unfold raws. match goal with |- context [map ?f (seq 0 n)] => rewrite (nth_indep _ e (f 0%nat)) by (rewrite map_length, seq_length; exact Hi'); rewrite (map_nth f), seq_nth by exact Hi' end. exact (tab_image (A:=qc) _ _ _).
  - exists sc, (snd (get_screens calc d rl)). auto.
Qed.
(* Several L0: each layer has its own square and its own seed. *)
Theorem C84_each rs d pupil pitch L0 dists cn2 fov size seed fm pos single sizes mx :
  distinct_names rs -> made_of calc rs d -> (forall k, (k < length dists)%nat -> In (needed (nth k L0 0) size pitch single seed k) rs) ->
  sizes_are pupil pitch pos fov fm dists sizes -> In mx sizes -> (forall s, In s sizes -> (s <= mx)%nat) -> (mx <= size)%nat -> (0 < mx)%nat -> (0 < seed)%Z ->
  close_to_1 (qsum cn2) -> (length dists <= length cn2)%nat -> length L0 = length dists -> (exists a b, In a L0 /\ In b L0 /\ a <> b) ->
  exists sc d', atmo_init calc root nm d pupil pitch L0 dists cn2 fov size seed fm pos single = Ok (sizes, sc, d') /\ length sc = length dists /\
  forall i e, (i < length dists)%nat -> screen_from mx (side (Z.of_nat size)) i (nth i cn2 0) (pix (needed (nth i L0 0) size pitch single seed i)) (nth i sc e).
Proof.
  intros Hd Hm Hin Hs Hi Hx Hsz H0 Hseed Hc Hl HL (a & b & Ha & Hb & Nab). set (n := length dists) in *.
  set (rl := map (fun k => needed (nth k L0 0) size pitch single seed k) (seq 0 n)).
  assert (Hrl : forall r, In r rl -> In r rs). { intros r Hr. apply in_map_iff in Hr as (k & <- & Hk). apply in_seq in Hk. apply Hin. lia. }
  destruct (get_many calc rs rl d Hd Hrl Hm) as [G1 _].
  assert (As : all_same L0 = false). { destruct (all_same L0) eqn:E; [|reflexivity]. exfalso. unfold all_same in E. destruct L0 as [|x l]; [contradiction Ha|]. rewrite forallb_forall in E.
    assert (K : forall y, In y (x :: l) -> y = x). { intros y [->|Hy]; [reflexivity|]. specialize (E y Hy). destruct (Qc_eq_dec y x); [assumption|discriminate]. }
    apply Nab. now rewrite (K a Ha), (K b Hb). }
  assert (Mg : manager calc d L0 (Z.of_nat size) pitch single (map (fun k => seed + Z.of_nat k)%Z (seq 0 n)) = Ok (get_screens calc d rl)).
  { unfold manager. rewrite map_length, seq_length, HL, Nat.eqb_refl. f_equal. f_equal. unfold rl. clear - HL. 
    assert (G : forall (l : list Qc) j, map (fun p : Z * Qc => mkRecipe (snd p) (Z.of_nat size) pitch (fst p) single) (List.combine (map (fun k => seed + Z.of_nat k)%Z (seq j (length l))) l) = map (fun k => needed (nth (k - j) l 0) size pitch single seed k) (seq j (length l))).
    { induction l as [|x l IH]; intros j; [reflexivity|]. cbn [length seq map List.combine]. f_equal; [now rewrite Nat.sub_diag|]. rewrite IH. apply map_ext_in. intros k Hk. apply in_seq in Hk. replace (k - j)%nat with (S (k - S j)) by lia. reflexivity. }
    specialize (G L0 0%nat). rewrite HL in G. etransitivity; [exact G|]. apply map_ext. intros k. now rewrite Nat.sub_0_r. }
  set (raws := map (fun k => tab qc mx (side (Z.of_nat size)) (pix (needed (nth k L0 0) size pitch single seed k))) (seq 0 n)).
  assert (Sl : map_res (fun a => sel_rows qc a (head (Z.of_nat mx))) (map calc rl) = Ok raws).
  { unfold rl, raws. generalize (seq 0 n). induction l as [|k l IH]; [reflexivity|]. cbn [map map_res].
    pose proof (Hcalc (needed (nth k L0 0) size pitch single seed k)) as I. change (rc_dim _) with (Z.of_nat size) in I.
    rewrite (rows_head mx (side (Z.of_nat size)) (side (Z.of_nat size)) (pix (needed (nth k L0 0) size pitch single seed k)) (calc _) I) by (pose proof (Hside size); lia). cbn [bind]. rewrite IH. reflexivity. }
  destruct (init_with d pupil pitch L0 dists cn2 fov size seed fm pos single sizes mx raws (snd (get_screens calc d rl)) (fun i => pix (needed (nth i L0 0) size pitch single seed i))) as (sc & E & L & V); auto.
  - unfold raw_screens. rewrite As, HL. fold n. rewrite Nat.eqb_refl, Mg. cbn [bind]. rewrite G1, Sl. reflexivity.
  - unfold raws. rewrite map_length, seq_length. reflexivity.
  - intros i e Hi'. unfold raws. match goal with |- context [map ?f (seq 0 n)] => rewrite (nth_indep _ e (f 0%nat)) by (rewrite map_length, seq_length; exact Hi'); rewrite (map_nth f), seq_nth by exact Hi' end. exact (tab_image (A:=qc) _ _ _).
  - exists sc, (snd (get_screens calc d rl)). auto.
Qed.

(* Atmospheres that cannot be made as asked are refused. *)
Theorem C84_refuses d pupil pitch L0 dists cn2 fov size seed fm pos single sizes sc d' :
  atmo_init calc root nm d pupil pitch L0 dists cn2 fov size seed fm pos single = Ok (sizes, sc, d') ->
  sizes_are pupil pitch pos fov fm dists sizes /\ dists <> [] /\ (forall s, In s sizes -> (s <= size)%nat) /\ (0 < seed)%Z /\ close_to_1 (qsum cn2) /\
  ((exists l0, forall l, In l L0 -> l = l0) \/ length L0 = length dists).
Proof.
  intros H. unfold atmo_init in H. inv_bind H. rename a into ss, E into Es.
  assert (Hs : sizes_are pupil pitch pos fov fm dists ss).
  { clear H. revert ss Es. induction dists as [|h t IH]; intros ss Es; cbn [map_res] in Es; [injection Es as <-; constructor|].
    destruct (layer_px root pupil pitch pos fov fm h) as [z|] eqn:El; [|discriminate Es]. destruct (Z.ltb_spec z 0) as [Hz|Hz]; [discriminate Es|]. cbn [bind] in Es. inv_bind Es. injection Es as <-.
    constructor; [now rewrite Z2Nat.id|]. now apply IH. }
  destruct ss as [|s1 st]; [discriminate H|]. set (mx := fold_left Nat.max (s1 :: st) 0%nat) in H. destruct (Nat.ltb_spec size mx) as [Hz|Hz]; [discriminate H|]. destruct (Z.leb_spec seed 0) as [Hq|Hq]; [discriminate H|].
  destruct (total_is_1 cn2) eqn:T; [|discriminate H]. inv_bind H. inv_bind H. injection H as <- <- <-. split; [exact Hs|]. split; [intros ->; inversion Hs|].
  split; [intros s Hin; destruct (max_spec (s1 :: st) 0%nat) as (_ & B & _); specialize (B s Hin); fold mx in B; lia|]. split; [exact Hq|].
  split; [unfold close_to_1; unfold total_is_1 in T; apply negb_true_iff in T; now apply qlt_false in T|].
  unfold raw_screens in E. destruct (all_same L0) eqn:As.
  - left. destruct L0 as [|x l]; [discriminate As|]. exists x. intros y [->|Hy]; [reflexivity|]. unfold all_same in As. rewrite forallb_forall in As. specialize (As y Hy). destruct (Qc_eq_dec y x); [assumption|discriminate].
  - destruct (Nat.eqb_spec (length dists) (length L0)) as [En|En]; [right; congruence|discriminate E].
Qed.

(* Screens made for an atmosphere are as C83 asks. *)
Theorem C84_ready mx c i cn raw a s : screen_from mx c i cn raw a -> (s <= mx)%nat -> (0 < mx)%nat -> sheet_ok (mkSheet s a 0).
Proof.
  intros (g & I & _) Hs H0. unfold sheet_ok. cbn [sh_screen sh_size sh_extra]. pose proof I as (Ir & Ic & _). change (@a_r (car qc)) with (@a_r Qc) in Ir. rewrite Ir. split; [|split; [exact Hs|discriminate]].
  assert (Ec : columns (mkSheet s a 0) = c) by exact Ic. rewrite Ec. exact (image_own (A:=qc) mx c g a I).
Qed.
End P.

(* Claim: screens with another L0 are not given. *)
Theorem C84_outer_refuted : exists calc p q, rc_L0 p = qz 25 /\ rc_L0 q = qz 254 / qz 10 /\ calc p <> calc q /\
  fst (get_screens calc (snd (get_screens calc [] [p])) [q]) = [calc p].
Proof.
  exists (fun r => mkA2 1%nat [[rc_L0 r]]), (mkRecipe (qz 25) 8 (qf 1 20) 1 false), (mkRecipe (qz 254 / qz 10) 8 (qf 1 20) 1 false).
  split; [reflexivity|]. split; [reflexivity|]. split; [intros E; injection E as E; discriminate E|]. vm_compute. reflexivity.
Qed.
(* Claim: screens with another pixel pitch are not given. *)
Theorem C84_pitch_refuted : exists calc p q, rc_pitch p = qz 501 / qz 10000 /\ rc_pitch q = qz 502 / qz 10000 /\ calc p <> calc q /\
  fst (get_screens calc (snd (get_screens calc [] [p])) [q]) = [calc p].
Proof.
  exists (fun r => mkA2 1%nat [[rc_pitch r]]), (mkRecipe (qz 25) 8 (qz 501 / qz 10000) 1 false), (mkRecipe (qz 25) 8 (qz 502 / qz 10000) 1 false).
  split; [reflexivity|]. split; [reflexivity|]. split; [intros E; injection E as E; discriminate E|]. vm_compute. reflexivity.
Qed.
(* Claim: layers cover a pupil away from the centre (8 m, on both sides). *)
Theorem C84_position_refuted : exists root z, root (qz 16) = qz 4 /\ layer_px root 16 1 [qz 8; 0] 0 None 0 = Some z /\ qz z * 1 < qnat 16 * 1 + qz 2 * qz 8.
Proof. exists (fun x => if Qc_eq_dec x (qz 16) then qz 4 else x), 24%Z. split; [reflexivity|]. split; reflexivity. Qed.
(* Claim: a pupil can be at a position with negative coordinates. *)
Theorem C84_negative_refuted : exists calc pos, pos = [qz (-1); 0] /\ forall root nm, atmo_init calc root nm [] 4 1 [qz 25] [0] [1] 0 8 1 None pos false = Err ValueError.
Proof. exists (fun r => mkA2 1%nat [[rc_pitch r]]), [qz (-1); 0]. split; [reflexivity|]. intros root nm. reflexivity. Qed.
(* Claim: Cn2 profiles add up to one within one millionth. *)
Theorem C84_total_refuted : exists c, c = 1 + qz 1 / qz 100000 /\ total_is_1 [c] = true.
Proof. eexists. split; [reflexivity|]. vm_compute. reflexivity. Qed.
(* Claim: layers are not smaller than the pupil. *)
Theorem C84_small_refuted : exists root z, layer_px root 16 1 [0; 0] 0 (Some (qz 5)) 0 = Some z /\ (z < 16)%Z.
Proof. exists (fun x => x), 4%Z. split; reflexivity. Qed.

(* squares of 4 by 4 whose values depend on the seed *)
Definition a_calc (r : recipe) : arr2 Qc := tab qc (Z.to_nat (rc_dim r)) (Z.to_nat (rc_dim r)) (fun i j => qz (rc_seed r * 100) + qnat (i * i * 4 + j)).
Definition show (r : res (list nat * list (arr2 Qc) * directory)) : res (list nat * list (list (list Q)) * nat) :=
  match r with Ok (s, l, d) => Ok (s, map (fun a => map (map this) (a_rows a)) l, length d) | Err e => Err e end.
Example C84_example :
  show (atmo_init a_calc (fun x => if Qc_eq_dec x (qf 1 4) then qf 1 2 else x) 1 [] 2 1 [qz 25; qz 25; qz 25] [0; 0; 0] [qf 1 4; qf 1 4; qf 1 2] 0 4 1 None [0; 0] false) =
  Ok ([2; 2; 2]%nat, map (map (map this)) [[[qf (-7) 4; qf (-5) 4; qf (-3) 4; qf (-1) 4]; [qf 1 4; qf 3 4; qf 5 4; qf 7 4]]; 
     [[qf (-17) 4; qf (-19) 4; qf (-21) 4; qf (-23) 4]; [qf 23 4; qf 21 4; qf 19 4; qf 17 4]];
     [[qf (-7) 4; qf (-5) 4; qf (-3) 4; qf (-1) 4]; [qf 1 4; qf 3 4; qf 5 4; qf 7 4]]], 2%nat).
Proof. vm_compute. reflexivity. Qed.
Example C84_refused_example : atmo_init a_calc (fun x => x) 1 [] 8 1 [qz 25] [0] [1] 0 4 1 None [0; 0] false = Err ValueError /\
  atmo_init a_calc (fun x => x) 1 [] 2 1 [qz 25] [0] [1] 0 4 0 None [0; 0] false = Err ValueError /\ atmo_init a_calc (fun x => x) 1 [] 2 1 [qz 25; qz 26] [0] [1] 0 4 1 None [0; 0] false = Err ValueError.
Proof. repeat split. Qed.

Print Assumptions C84_files.
Print Assumptions C84_whole.
Print Assumptions C84_size.
Print Assumptions C84_apart.
Print Assumptions C84_layers.
Print Assumptions C84_each.
Print Assumptions C84_refuses.
Print Assumptions C84_ready.
Print Assumptions C84_outer_refuted.
Print Assumptions C84_pitch_refuted.
Print Assumptions C84_position_refuted.
Print Assumptions C84_negative_refuted.
Print Assumptions C84_total_refuted.
Print Assumptions C84_small_refuted.
