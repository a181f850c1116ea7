(* Headers and files. *)
From Coq Require Import String List ZArith Bool Arith Lia.
From Verif Require Import PyBase PyLemmas Arith ArithLemmas NpModel NpSpec NpProofs NpSegments ConnProofs ParamsProofs2 SlopesModel FitsModel FitsSpec.
Import ListNotations.

Section P.
Context {A : arith}.
Variable finite : A -> bool.
Variable ofz : Z -> A.
Implicit Types kvs : header A.

Definition all_finite kvs : Prop := forall k x, In (k, HNum A (PFlt A x)) kvs -> finite x = true.

Lemma fold_hput kvs : forall h, NoDup (map fst h ++ map fst kvs) -> all_finite kvs ->
  fold_res (fun h kv => hput A finite h (fst kv) (snd kv)) h kvs = Ok (h ++ kvs).
Proof.
  induction kvs as [|[k v] r IH]; intros h ND F; cbn [fold_res map]; [now rewrite app_nil_r|]. cbn [fst snd].
  assert (Nk : ~ In k (map fst h)).
  { intros H. cbn [map fst] in ND. apply NoDup_remove_2 in ND. apply ND. apply in_or_app. now left. }
  assert (E : hput A finite h k v = Ok (h ++ [(k, v)])).
  { unfold hput. rewrite dset_new by exact Nk. destruct v as [[z|x]|s|x]; try reflexivity.
    now rewrite (F k x (or_introl eq_refl)). }
  rewrite E. cbn [bind]. rewrite IH.
  - now rewrite <- app_assoc.
  - rewrite map_app, <- app_assoc. exact ND.
  - intros k' x H. apply (F k'). now right.
Qed.

Lemma hputs_ok kvs : NoDup (map fst kvs) -> all_finite kvs -> hputs A finite kvs = Ok kvs.
Proof. intros ND F. unfold hputs. rewrite fold_hput; auto. Qed.

Lemma hputs_err kvs k x : In (k, HNum A (PFlt A x)) kvs -> finite x = false -> hputs A finite kvs = Err ValueError.
Proof.
  unfold hputs. generalize ([] : header A). induction kvs as [|[k' v] r IH]; intros h H F; [destruct H|]. cbn [fold_res fst snd].
  destruct H as [H|H].
  - injection H as -> ->. cbn [hput]. now rewrite F.
  - destruct (hput A finite h k' v) as [h'|e] eqn:E; cbn [bind]; [now apply IH|].
    unfold hput in E. destruct v as [[z|y]|s|y]; try discriminate. destruct (finite y); congruence.
Qed.

Lemma dmem_false {T} k (d : dict T) : ~ In k (dkeys d) -> dmem k d = false.
Proof. intros H. unfold dmem. destruct (dget k d) eqn:E; [|reflexivity]. exfalso. apply H. apply dget_In in E. now apply (in_map fst) in E. Qed.
Lemma dmem_true {T} k (d : dict T) : In k (dkeys d) -> dmem k d = true.
Proof. intros H. unfold dmem. destruct (dget k d) eqn:E; [reflexivity|]. apply dget_None in E. contradiction. Qed.

Lemma write_ok (fs : files A) name ow (kvs : header A) bs : writable fs name ow -> write A fs name ow (Ok kvs) bs = Ok (dset name (mkFits A kvs bs) fs).
Proof. intros W. unfold write. cbn [bind]. destruct W as [->|N]; [now rewrite andb_false_r|]. now rewrite (dmem_false _ _ N). Qed.
Lemma write_exists (fs : files A) name (kvs : header A) bs : In name (dkeys fs) -> write A fs name false (Ok kvs) bs = Err RuntimeError.
Proof. intros H. unfold write. cbn [bind]. now rewrite (dmem_true _ _ H). Qed.

Lemma only_dset (fs : files A) name f : only_wrote name fs (dset name f fs).
Proof.
  split.
  - assert (H := dget_dset_eq name f fs). apply dget_In in H. now apply (in_map fst) in H.
  - intros o N. apply dget_dset_neq. congruence.
Qed.
Lemma open_dset (fs : files A) name f : open A (dset name f fs) name = Ok f.
Proof. unfold open. now rewrite dget_dset_eq. Qed.

(* arrays *)
Lemma T_shape {X} (d : X) m : rect m -> a_c (a_T d m) = a_r m /\ a_r (a_T d m) = a_c m.
Proof. intros _. unfold a_T, a_r. cbn [a_c a_rows]. now rewrite map_length, seq_length. Qed.

Lemma T_T {X} (d : X) m : rect m -> a_T d (a_T d m) = m.
Proof.
  intros [P H]. destruct m as [c rows]. unfold a_T, a_r in *. cbn [a_c a_rows] in *. f_equal; [now rewrite map_length, seq_length|].
  apply nth_ext with [] []; [now rewrite map_length, seq_length|]. rewrite map_length, seq_length. intros i Hi.
  rewrite nth_map_seq by exact Hi. cbn [Nat.add]. rewrite map_map.
  assert (L : length (nth i rows []) = c) by (apply H; now apply nth_In).
  apply nth_ext with d d; [now rewrite map_length, seq_length|]. rewrite map_length, seq_length. intros j Hj.
  rewrite nth_map_seq by exact Hj. cbn [Nat.add].
  rewrite (nth_indep _ d ((fun r => nth j r d) [])) by (rewrite map_length; exact Hi).
  now rewrite (map_nth (fun r : list X => nth j r d)).
Qed.

Lemma T_nth {X} (d : X) m i j : i < a_r m -> j < a_c m -> nth i (nth j (a_rows (a_T d m)) []) d = nth j (nth i (a_rows m) []) d.
Proof.
  intros Hi Hj. unfold a_T. cbn [a_rows]. rewrite nth_map_seq by exact Hj. cbn [Nat.add].
  rewrite (nth_indep _ d ((fun r => nth j r d) [])) by (rewrite map_length; exact Hi).
  rewrite (map_nth (fun r : list X => nth j r d)). reflexivity.
Qed.

Lemma const2_shape {X} r c (x : X) : a_r (const2 r c x) = r /\ a_c (const2 r c x) = c.
Proof. unfold const2, a_r. cbn [a_rows a_c]. now rewrite repeat_length. Qed.
Lemma same_shape_const {X Y} (m : arr2 X) (y : Y) r c : a_r m = r -> a_c m = c -> same_shape m (const2 r c y) = true.
Proof. intros <- <-. unfold same_shape. destruct (const2_shape (a_r m) (a_c m) y) as [-> ->]. now rewrite !Nat.eqb_refl. Qed.

Lemma cut_all {X} (l : list X) : cut_list l None None None = Ok l.
Proof.
  unfold cut_list, mode_slice. rewrite take_segment; [|intros v E; injection E as <-; lia|intros v E; injection E as <-; lia].
  cbn [obound]. rewrite Z.add_0_l, Nat2Z.id. cbn [Z.to_nat skipn]. now rewrite Nat.sub_0_r, firstn_all.
Qed.
End P.
