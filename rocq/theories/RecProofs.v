From Coq Require Import List ZArith Bool Lia PeanoNat Field.
From Verif Require Import PyBase PyLemmas Arith ArithLemmas FilterSpec SumLemmas NpModel NpSpec NpProofs NpSegments VecModel VecProofs2
  RecModel RecSpec.
Import ListNotations.
Local Open Scope ar_scope.

Section P.
Context {A : arith}.

Lemma mv_nth (M : mat A) v n m k : shape M n m -> length v = m -> (k < n)%nat ->
  nth k (mv M v) 0 = sumn m (fun j => entry M k j * nth j v 0).
Proof.
  intros [HL HR] Hv Hk. unfold mv. rewrite (nth_indep _ _ (dot [] v)) by (rewrite map_length; lia).
  rewrite (map_nth (fun r => dot r v)). apply dot_sumn; [|exact Hv]. apply HR. apply nth_In. lia.
Qed.

Lemma matmat_ok (M N : mat A) n m : shape M n m -> length N = m -> matmat M N = Ok (mm M N).
Proof.
  intros [_ HR] HN. unfold matmat. replace (forallb _ M) with true; [reflexivity|]. symmetry. apply forallb_forall.
  intros r Hr. apply Nat.eqb_eq. rewrite HN. now apply HR.
Qed.

Lemma hd_len (N : mat A) n m : shape N n m -> (0 < n)%nat -> length (hd [] N) = m.
Proof. intros [HL HR] Hn. destruct N as [|r N]; [cbn in HL; lia|]. apply HR. now left. Qed.

Lemma mm_shape (M N : mat A) n k m : shape M n k -> shape N k m -> (0 < k)%nat -> shape (mm M N) n m.
Proof.
  intros [HL HR] HN Hk. split; [unfold mm; now rewrite map_length|]. intros r Hr. unfold mm in Hr. apply in_map_iff in Hr as (x & <- & _).
  rewrite map_length, seq_length. exact (hd_len _ _ _ HN Hk).
Qed.

Lemma mm_entry (M N : mat A) n k m i j : shape M n k -> shape N k m -> (0 < k)%nat -> (i < n)%nat -> (j < m)%nat ->
  entry (mm M N) i j = sumn k (fun q => entry M i q * entry N q j).
Proof.
  intros [HL HR] HN Hk Hi Hj. unfold entry at 1, mm. rewrite (hd_len _ _ _ HN Hk).
  set (f := fun r : vec A => map (fun j => dot r (col j N)) (seq 0 m)).
  rewrite (nth_indep _ _ (f [])) by (rewrite map_length; lia). rewrite (map_nth f). unfold f. rewrite nth_map_seq by exact Hj.
  rewrite (dot_sumn A _ _ k).
  - apply sumn_ext. intros q Hq. f_equal. unfold col, entry.
    destruct HN as [HNL _]. set (g := fun r : vec A => nth j r 0). rewrite (nth_indep _ _ (g [])) by (rewrite map_length; lia). now rewrite (map_nth g).
  - apply HR. apply nth_In. lia.
  - unfold col. rewrite map_length. apply HN.
Qed.

Lemma identity_shape n : shape (@identity A n) n n.
Proof.
  split; [unfold identity; now rewrite map_length, seq_length|]. intros r Hr. unfold identity in Hr. apply in_map_iff in Hr as (x & <- & _).
  now rewrite map_length, seq_length.
Qed.
Lemma identity_entry n i j : (i < n)%nat -> (j < n)%nat -> entry (@identity A n) i j = if Nat.eqb i j then 1 else 0.
Proof.
  intros Hi Hj. unfold entry, identity.
  rewrite nth_map_seq by exact Hi. now rewrite nth_map_seq by exact Hj.
Qed.

Lemma minus_rows (M N : mat A) n m : shape M n m -> shape N n m ->
  exists K, map_res (fun p => bcast sub (fst p) (snd p)) (combine M N) = Ok K /\ shape K n m /\
    forall i j, (i < n)%nat -> (j < m)%nat -> entry K i j = entry M i j - entry N i j.
Proof.
  revert N n. induction M as [|r M IH]; intros N n [HL HR] [HL2 HR2].
  - cbn in HL. subst n. exists []. split; [reflexivity|]. split; [now split|]. intros i j Hi. lia.
  - destruct N as [|r2 N]; [cbn in *; lia|]. destruct n as [|n]; [discriminate|]. cbn in HL, HL2.
    destruct (IH N n) as (K & E & SK & EK); [split; [lia|intros; apply HR; now right]|split; [lia|intros; apply HR2; now right]|].
    assert (L1 : length r = m) by (apply HR; now left). assert (L2 : length r2 = m) by (apply HR2; now left).
    exists (map2 sub r r2 :: K). cbn [combine map_res fst snd]. rewrite bcast_same by congruence. cbn [bind]. rewrite E. split; [reflexivity|]. split.
    + destruct SK as [SK1 SK2]. split; [cbn; now rewrite SK1|]. intros x [<- | Hx]; [rewrite map2_length; lia|now apply SK2].
    + intros [|i] j Hi Hj; [|apply (EK i j); lia]. unfold entry. cbn [nth]. apply map2_nth; lia.
Qed.

Lemma vec_ext (u v : vec A) n : length u = n -> length v = n -> (forall k, (k < n)%nat -> nth k u 0 = nth k v 0) -> u = v.
Proof.
  revert v n. induction u as [|x u IH]; intros [|y v] n Hu Hv H; cbn in *; try lia; [reflexivity|].
  f_equal; [exact (H 0%nat ltac:(lia))|]. apply (IH v (length u)); [reflexivity|lia|]. intros k Hk. exact (H (S k) ltac:(lia)).
Qed.

(* ---- one step of the explicit scheme *)
Lemma stacked_ok (i : rec_in A) : time_of i <> None -> stacked i = Ok (slopes_of i).
Proof.
  unfold time_of, stacked, slopes_of. destruct (ri_slopes i) as [[v g]|]; [reflexivity|].
  destruct (ri_list i) as [|[v g] l]; [congruence|]. reflexivity.
Qed.
Lemma slopes_time_ok (i : rec_in A) g : time_of i = Some g -> slopes_time i = Ok g.
Proof. unfold time_of, slopes_time. destruct (ri_slopes i) as [[v g']|]; [|destruct (ri_list i) as [|[v g'] l]]; congruence. Qed.

Lemma prepare_ok (c : rec_cfg A) st i ns nm : rc_polc c = true -> good_in ns nm i -> length (rs_slopes st) = ns -> length (rs_cmds st) = nm ->
  (forall D, rc_D c = Some D -> length D = ns) ->
  modalrec_prepare c st i = Ok (mkRecSt (slopes_of i) (commands_of nm i) (rs_modes st) (rs_pol st)).
Proof.
  intros Hp (G1 & G2 & G3 & G4) Hs Hc HD. unfold modalrec_prepare. rewrite stacked_ok by exact G1. cbn [bind].
  rewrite assign_all_ok by congruence. cbn [bind]. rewrite Hp.
  unfold commands_of in *. destruct (ri_cmd i) as [[v|]|]; [| |congruence].
  - rewrite assign_all_ok by congruence. cbn [bind]. destruct (rc_D c) as [D|]; [|reflexivity].
    rewrite (HD D eq_refl), G2, Nat.eqb_refl. reflexivity.
  - cbn [bind]. rewrite Hc. destruct (rc_D c) as [D|]; [|reflexivity]. rewrite (HD D eq_refl), G2, Nat.eqb_refl. reflexivity.
Qed.

Lemma shape_rows (M : mat A) n m v : shape M n m -> length v = m -> matvec M v = Ok (mv M v).
Proof. intros [_ H] Hv. apply matvec_ok. intros r Hr. rewrite Hv. now apply H. Qed.

Lemma vadd_len (u v : vec A) n : length u = n -> length v = n -> length (vadd u v) = n.
Proof. intros. unfold vadd. rewrite map2_length; lia. Qed.

Lemma explicit_step (c : rec_cfg A) st t i P R D nl ns nm : rc_polc c = true -> rc_R c = Some R -> rc_P c = Some P -> rc_D c = Some D ->
  shape P nm nl -> shape R nl ns -> shape D ns nm -> good_in ns nm i -> length (rs_slopes st) = ns -> length (rs_cmds st) = nm ->
  let s := slopes_of i in let cm := commands_of nm i in
  let pol := mv R (vadd s (mv D cm)) in
  modalrec_step c st (t, i) =
    Ok (if match time_of i with Some g => (g =? t)%Z | None => false end
        then mkRecSt s cm (vsub (mv P pol) cm, Some t) (pol, Some t)
        else mkRecSt s cm (rs_modes st) (rs_pol st)).
Proof.
  intros Hp HR HP HD SP SR SD G Hs Hc s cm pol. unfold modalrec_step. cbn [fst snd].
  rewrite (prepare_ok c st i ns nm) by (auto; intros D' E; rewrite HD in E; injection E as <-; apply SD). cbn [bind].
  destruct G as (G1 & G2 & G3 & G4). destruct (time_of i) as [g|] eqn:T; [|congruence].
  unfold modalrec_trigger. rewrite HR, Hp, (slopes_time_ok i g T). cbn [bind]. destruct (g =? t)%Z; [|reflexivity].
  rewrite HD, HP. cbn [rs_cmds rs_slopes]. rewrite (shape_rows D ns nm) by (auto). cbn [bind].
  assert (LD : length (mv D cm) = ns) by (rewrite mv_length; apply SD).
  fold s cm. fold s in G2. rewrite bcast_same by congruence. cbn [bind]. change (map2 add s (mv D cm)) with (vadd s (mv D cm)).
  rewrite (shape_rows R nl ns) by (auto; now apply vadd_len). cbn [bind]. fold pol.
  rewrite (shape_rows P nm nl) by (auto; unfold pol; rewrite mv_length; apply SR). cbn [bind].
  unfold isub. replace (length (mv P pol)) with (length cm); [rewrite Nat.eqb_refl; reflexivity|].
  rewrite mv_length. unfold cm. rewrite G4. symmetry. apply SP.
Qed.

(* ---- one step of the implicit scheme *)
Lemma implicit_step_ok (c : imp_cfg A) st t i ns nm : rc_polc (ic_base c) = true -> rc_D (ic_base c) = None ->
  shape (ic_C c) nm ns -> shape (ic_H c) nm nm -> good_in ns nm i -> length (rs_slopes st) = ns -> length (rs_cmds st) = nm ->
  implicit_step c st (t, i) =
    Ok (mkRecSt (slopes_of i) (commands_of nm i)
         (vsub (mv (ic_C c) (slopes_of i)) (mv (ic_H c) (commands_of nm i)), Some t) (rs_pol st)).
Proof.
  intros Hp HD SC SH G Hs Hc. unfold implicit_step, implicit_prepare. cbn [fst snd].
  rewrite (prepare_ok (ic_base c) st i ns nm) by (auto; congruence). cbn [bind rs_cmds rs_slopes rs_modes rs_pol].
  assert (E : match ri_cmd i with Some (Some v) => assign_all (commands_of nm i) v | _ => Ok (commands_of nm i) end = Ok (commands_of nm i)).
  { unfold commands_of. destruct (ri_cmd i) as [[v|]|]; [|reflexivity|reflexivity]. now apply assign_all_ok. }
  rewrite E. cbn [bind]. unfold implicit_trigger. cbn [rs_slopes rs_cmds rs_pol]. destruct G as (G1 & G2 & G3 & G4).
  rewrite (shape_rows (ic_C c) nm ns) by auto. cbn [bind]. rewrite (shape_rows (ic_H c) nm nm) by auto. cbn [bind].
  rewrite bcast_same; [reflexivity|]. rewrite !mv_length. destruct SC, SH. congruence.
Qed.

(* ---- multirate *)
Lemma offsets_hd a sizes : exists l, offsets a sizes = a :: l.
Proof. destruct sizes; eexists; reflexivity. Qed.

Definition block (a k : nat) (M : mat A) : mat A := map (fun r => firstn k (skipn a r)) M.

Lemma mr_go_ok (R : mat A) t n total : shape R n total -> forall ins outs a,
  length outs = length ins -> (forall o, In o outs -> length (fst o) = n) ->
  (a + length (concat (map fst ins)) <= total)%nat ->
  exists outs', mr_go R t (offsets a (map (fun p => length (fst p)) ins)) outs ins = Ok outs' /\ length outs' = length ins /\
    forall k, (k < length ins)%nat ->
      nth k outs' ([], None) =
        ((if (snd (nth k ins ([], 0%Z)) =? t)%Z
          then mv (block (a + length (concat (map fst (firstn k ins)))) (length (fst (nth k ins ([], 0%Z)))) R) (fst (nth k ins ([], 0%Z)))
          else zeros n), Some t).
Proof.
  intros [HL HR]. induction ins as [|[s g] ins IH]; intros outs a Ho Hn Ht.
  - destruct outs; [|discriminate]. exists []. cbn. repeat split; auto. intros k Hk. lia.
  - destruct outs as [|[o og] outs]; [discriminate|]. cbn [map fst concat] in Ht. rewrite app_length in Ht.
    destruct (IH outs (a + length s)%nat) as (outs' & E & L & K); [cbn in Ho; lia|intros; apply Hn; now right|lia|].
    assert (Lo : length o = n) by (apply (Hn (o, og)); now left).
    cbn [map fst offsets mr_go]. destruct (offsets_hd (a + length s)%nat (map (fun p => length (fst p)) ins)) as (ol & Eo). rewrite Eo in *.
    replace (a + length s - a)%nat with (length s) by lia. fold (block a (length s) R).
    set (o' := if (g =? t)%Z then mv (block a (length s) R) s else zeros n).
    assert (Q : (if (g =? t)%Z then v <- matvec (block a (length s) R) s ;; assign_all o v else Ok (zeros (length o))) = Ok o').
    { unfold o'. destruct (g =? t)%Z; [|now rewrite Lo]. rewrite matvec_ok.
      - cbn [bind]. apply assign_all_ok. rewrite mv_length. unfold block. rewrite map_length. congruence.
      - intros r Hr. unfold block in Hr. apply in_map_iff in Hr as (x & <- & Hx). rewrite firstn_length, skipn_length, (HR x Hx). lia. }
    rewrite Q. cbn [bind]. rewrite E. cbn [bind]. exists ((o', Some t) :: outs'). split; [reflexivity|]. split; [cbn; now rewrite L|].
    intros [|k] Hk.
    + cbn [nth firstn map concat fst snd length]. rewrite Nat.add_0_r. reflexivity.
    + cbn [nth firstn map concat fst snd]. rewrite K by (cbn in Hk; lia). rewrite app_length, Nat.add_assoc. reflexivity.
Qed.
End P.

Section F.
Context {A : arith} (HF : is_field A).
Let HF' : field_theory (@zer A) one add mul sub opp dvd inv eq := HF.
Add Field fA10 : HF'.

Lemma mv_mm (M N : mat A) v n k m : shape M n k -> shape N k m -> (0 < k)%nat -> length v = m -> mv (mm M N) v = mv M (mv N v).
Proof.
  intros SM SN Hk Hv. pose proof (mm_shape M N n k m SM SN Hk) as SMN. apply (vec_ext _ _ n).
  - rewrite mv_length. apply SMN.
  - rewrite mv_length. apply SM.
  - intros i Hi. rewrite (mv_nth _ _ n m), (mv_nth _ _ n k) by (auto; rewrite mv_length; apply SN).
    rewrite (sumn_ext m _ (fun j => sumn k (fun q => entry M i q * entry N q j * nth j v 0))).
    2:{ intros j Hj. rewrite (mm_entry M N n k m) by auto. now rewrite (sumn_scale_r A HF). }
    rewrite (sumn_swap A HF). apply sumn_ext. intros q Hq. rewrite (mv_nth _ _ k m) by auto. rewrite <- (sumn_scale A HF).
    apply sumn_ext. intros j Hj. ring.
Qed.

Lemma mv_identity n (v : vec A) : length v = n -> mv (identity n) v = v.
Proof.
  intros Hv. apply (vec_ext _ _ n); [rewrite mv_length; apply identity_shape|exact Hv|]. intros k Hk.
  rewrite (mv_nth _ _ n n) by (auto; apply identity_shape). rewrite (sumn_single A HF n k) by (auto; intros j Hj Hn; rewrite identity_entry by auto;
    rewrite (proj2 (Nat.eqb_neq k j)) by congruence; ring). rewrite identity_entry, Nat.eqb_refl by auto. ring.
Qed.

(* the two schemes compute the same vector *)
Lemma polc_agree (P R D C H : mat A) nl ns nm s c : (0 < nl)%nat -> (0 < ns)%nat ->
  shape P nm nl -> shape R nl ns -> shape D ns nm -> length s = ns -> length c = nm ->
  C = mm P R -> shape H nm nm -> (forall i j, (i < nm)%nat -> (j < nm)%nat -> entry H i j = entry (identity nm) i j - entry (mm C D) i j) ->
  vsub (mv C s) (mv H c) = vsub (mv P (mv R (vadd s (mv D c)))) c.
Proof.
  intros Hl Hs SP SR SD Ls Lc -> SH EH.
  pose proof (mm_shape P R nm nl ns SP SR Hl) as SC. pose proof (mm_shape _ D nm ns nm SC SD Hs) as SCD.
  assert (LD : length (mv D c) = ns) by (rewrite mv_length; apply SD).
  rewrite <- (mv_mm P R _ nm nl ns) by (auto; now apply vadd_len).
  rewrite (mv_add A HF (mm P R) s (mv D c) nm ns) by auto. rewrite <- (mv_mm _ D c nm ns nm) by auto.
  apply (vec_ext _ _ nm).
  - unfold vsub. rewrite map2_length, !mv_length. destruct SC as [-> _], SH as [-> _]. lia.
  - unfold vsub, vadd. rewrite !map2_length, !mv_length. destruct SC as [-> _], SCD as [-> _]. lia.
  - intros k Hk. unfold vsub, vadd.
    assert (L1 : length (mv (mm P R) s) = nm) by (rewrite mv_length; apply SC).
    assert (L2 : length (mv H c) = nm) by (rewrite mv_length; apply SH).
    assert (L3 : length (mv (mm (mm P R) D) c) = nm) by (rewrite mv_length; apply SCD).
    rewrite !(map2_nth _ _ _ _ 0 0) by (rewrite ?map2_length; lia).
    rewrite (mv_nth H c nm nm) by auto.
    rewrite (sumn_ext nm _ (fun j => entry (identity nm) k j * nth j c 0 - entry (mm (mm P R) D) k j * nth j c 0)).
    2:{ intros j Hj. rewrite EH by auto. ring. }
    rewrite (sumn_sub A HF). rewrite <- (mv_nth (identity nm) c nm nm) by (auto; apply identity_shape). rewrite mv_identity by exact Lc.
    rewrite <- (mv_nth (mm (mm P R) D) c nm nm) by auto. ring.
Qed.
End F.
