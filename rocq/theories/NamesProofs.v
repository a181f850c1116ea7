From Coq Require Import String List Ascii ZArith Bool Arith Lia Decimal DecimalString DecimalZ DecimalPos DecimalFacts.
From Verif Require Import PyBase NamesModel NamesSpec.
Import ListNotations.
Local Open Scope string_scope.

Lemma has_char_free c s : has_char c s = false <-> free_of c s.
Proof.
  unfold free_of. induction s as [|a r IH]; simpl.
  - split; auto. intros _ n a H; destruct n; discriminate.
  - rewrite orb_false_iff, IH, Ascii.eqb_neq. split.
    + intros [H1 H2] [|n] b Hb; simpl in Hb; [injection Hb as <-; congruence|eauto].
    + intros H; split; [intros <-; exact (H 0 c eq_refl eq_refl)|].
      intros n b Hb; exact (H (S n) b Hb).
Qed.

Lemma has_char_app c s t : has_char c (s ++ t) = has_char c s || has_char c t.
Proof. induction s as [|a r IH]; simpl; auto. rewrite IH, orb_assoc; auto. Qed.

Lemma split_char_nil c s : split_char c s <> [].
Proof.
  destruct s as [|a r]; simpl; [discriminate|].
  destruct (Ascii.eqb c a); [discriminate|].
  destruct (split_char c r); discriminate.
Qed.

Lemma split_char_free c s : has_char c s = false -> split_char c s = [s].
Proof.
  induction s as [|a r IH]; simpl; auto.
  intros H; apply orb_false_iff in H; destruct H as [H1 H2].
  rewrite H1, IH; auto.
Qed.

Lemma split_char_two c a b :
  has_char c a = false -> has_char c b = false ->
  split_char c (a ++ String c EmptyString ++ b) = [a; b].
Proof.
  intros Ha Hb. change (String c "" ++ b) with (String c b).
  induction a as [|x r IH]; simpl.
  - rewrite Ascii.eqb_refl, split_char_free; auto.
  - simpl in Ha. apply orb_false_iff in Ha; destruct Ha as [H1 H2].
    rewrite H1, (IH H2); auto.
Qed.

Lemma split_char_one_inv c s a : split_char c s = [a] -> s = a /\ has_char c a = false.
Proof.
  revert a; induction s as [|x r IH]; simpl; intros a H.
  - injection H as <-; auto.
  - destruct (Ascii.eqb c x) eqn:E.
    + injection H as Ha Hr. destruct (split_char_nil c r Hr).
    + destruct (split_char c r) as [|w ws] eqn:Es; [destruct (split_char_nil c r Es)|].
      injection H as Ha Hws; subst.
      destruct (IH w eq_refl) as [-> Hw]; simpl; rewrite E, Hw; auto.
Qed.

Lemma split_char_two_inv c s a b : split_char c s = [a; b] ->
  s = a ++ String c EmptyString ++ b /\ has_char c a = false /\ has_char c b = false.
Proof.
  revert a; induction s as [|x r IH]; simpl; intros a H; [discriminate|].
  destruct (Ascii.eqb c x) eqn:E.
  - injection H as Ha Hr; subst. apply Ascii.eqb_eq in E; subst.
    apply split_char_one_inv in Hr as [-> Hb]; auto.
  - destruct (split_char c r) as [|w ws] eqn:Es; [discriminate|].
    injection H as Ha Hws; subst.
    destruct (IH w eq_refl) as (-> & Hw & Hb); simpl; rewrite E, Hw; auto.
Qed.

Lemma split2_spec c s a b : split2 c s = Ok (a, b) <->
  s = a ++ String c EmptyString ++ b /\ has_char c a = false /\ has_char c b = false.
Proof.
  unfold split2; split.
  - destruct (split_char c s) as [|x [|y [|z zs]]] eqn:E; try discriminate.
    intros H; injection H as -> ->. apply split_char_two_inv; auto.
  - intros (-> & Ha & Hb). rewrite split_char_two; auto.
Qed.

Lemma app_nil_r_str s : s ++ "" = s.
Proof. induction s; simpl; congruence. Qed.

Lemma app_assoc_str (a b c : string) : (a ++ b) ++ c = a ++ b ++ c.
Proof. induction a; simpl; congruence. Qed.

Lemma opt_free_char c o :
  opt_free c o <-> match o with Some x => has_char c x = false | None => True end.
Proof. destruct o; simpl; [rewrite has_char_free|]; tauto. Qed.

Definition och c (o : option string) : Prop :=
  match o with Some x => has_char c x = false | None => True end.

Lemma ref_parts_ok_iff inp obj key dl : ref_parts_ok inp obj key dl <->
  och ":" inp /\ has_char ":" obj = false /\ och ":" key /\ och ":" dl /\
  och "-" inp /\ has_char "-" obj = false /\ och "-" key /\
  has_char "." obj = false /\ och "." key.
Proof. unfold ref_parts_ok, och. rewrite !opt_free_char, !has_char_free. tauto. Qed.

(* The grammar is exactly what split_output accepts. *)
Lemma split_output_iff s o :
  split_output s = Ok o <->
  exists dl,
    s = ref_text (o_input o) (o_obj o) (o_key o) dl /\
    ref_parts_ok (o_input o) (o_obj o) (o_key o) dl /\
    match dl with None => o_delay o = 0%Z | Some t => py_int t = Ok (o_delay o) end.
Proof.
  split.
  - unfold split_output. intros H.
    (* peel the delay *)
    assert (exists body d dl,
      (if has_char ":" s
         then ab <- split2 ":" s ;; d <- py_int (snd ab) ;; Ok (fst ab, d)
         else Ok (s, 0%Z)) = Ok (body, d) /\ s = opt_suffix body ":" dl /\
      has_char ":" body = false /\
      match dl with Some x => has_char ":" x = false | None => True end /\
      match dl with None => d = 0%Z | Some t => py_int t = Ok d end) as (body & d & dl & E1 & Es & Hb & Hdl & Hd).
    { destruct (has_char ":" s) eqn:E.
      - destruct (split2 ":" s) as [[a b]|e] eqn:E2; [|discriminate H].
        simpl in H |- *. destruct (py_int b) as [d|e] eqn:E3; [|discriminate H].
        apply split2_spec in E2 as (-> & Ha & Hb).
        exists a, d, (Some b); simpl; auto.
      - exists s, 0%Z, None; simpl; auto. }
    rewrite E1 in H; simpl in H. clear E1.
    assert (exists inp rest,
      (if has_char "-" body
         then ab <- split2 "-" body ;; Ok (Some (fst ab), snd ab)
         else Ok (None, body)) = Ok (inp, rest) /\ body = opt_prefix inp "-" rest /\
      has_char "-" rest = false /\
      match inp with Some x => has_char "-" x = false | None => True end) as (inp & rest & E2 & Ebody & Hr & Hi).
    { destruct (has_char "-" body) eqn:E.
      - destruct (split2 "-" body) as [[a b]|e] eqn:E2; [|discriminate H].
        simpl in H |- *. apply split2_spec in E2 as (-> & Ha & Hb2).
        exists (Some a), b; simpl; auto.
      - exists None, body; simpl; auto. }
    rewrite E2 in H; simpl in H. clear E2.
    assert (exists obj key,
      (if has_char "." rest
         then ab <- split2 "." rest ;; Ok (fst ab, Some (snd ab))
         else Ok (rest, None)) = Ok (obj, key) /\ rest = opt_suffix obj "." key /\
      has_char "." obj = false /\
      match key with Some x => has_char "." x = false | None => True end) as (obj & key & E3 & Erest & Ho & Hk).
    { destruct (has_char "." rest) eqn:E.
      - destruct (split2 "." rest) as [[a b]|e] eqn:E2; [|discriminate H].
        simpl in H |- *. apply split2_spec in E2 as (-> & Ha & Hb2).
        exists a, (Some b); simpl; auto.
      - exists rest, None; simpl; auto. }
    rewrite E3 in H; simpl in H. injection H as <-; simpl.
    subst rest body s. exists dl.
    assert (has_char ":" obj = false /\ match key with Some x => has_char ":" x = false | None => True end /\
            match inp with Some x => has_char ":" x = false | None => True end) as (Q1 & Q2 & Q3).
    { destruct inp, key; cbn [opt_prefix opt_suffix] in Hb;
        rewrite ?has_char_app in Hb; repeat (apply orb_false_iff in Hb as [? Hb]); auto. }
    assert (has_char "-" obj = false /\ match key with Some x => has_char "-" x = false | None => True end) as (Q4 & Q5).
    { destruct key; cbn [opt_suffix] in Hr; rewrite ?has_char_app in Hr;
        repeat (apply orb_false_iff in Hr as [? Hr]); auto. }
    split; [reflexivity|]. split; [|exact Hd]. apply ref_parts_ok_iff.
    repeat split; auto.
  - intros (dl & -> & HP & Hd). apply ref_parts_ok_iff in HP.
    unfold och in HP. destruct HP as (H1 & H2 & H3 & H4 & H5 & H6 & H7 & H8 & H9).
    destruct o as [obj key d inp]; simpl in *.
    unfold split_output, ref_text.
    assert (Hrest : has_char ":" (opt_suffix obj "." key) = false /\ has_char "-" (opt_suffix obj "." key) = false).
    { destruct key; simpl; rewrite ?has_char_app; simpl; rewrite ?H2, ?H3, ?H6, ?H7; auto. }
    destruct Hrest as [Hr1 Hr2].
    assert (Hbody : has_char ":" (opt_prefix inp "-" (opt_suffix obj "." key)) = false).
    { destruct inp; simpl; auto. rewrite !has_char_app; simpl. rewrite H1, Hr1; auto. }
    assert (E1 : (if has_char ":" (opt_suffix (opt_prefix inp "-" (opt_suffix obj "." key)) ":" dl)
         then ab <- split2 ":" (opt_suffix (opt_prefix inp "-" (opt_suffix obj "." key)) ":" dl) ;;
              d <- py_int (snd ab) ;; Ok (fst ab, d)
         else Ok (opt_suffix (opt_prefix inp "-" (opt_suffix obj "." key)) ":" dl, 0%Z)) =
         Ok (opt_prefix inp "-" (opt_suffix obj "." key), d)).
    { set (body := opt_prefix inp "-" (opt_suffix obj "." key)) in *.
      destruct dl as [t|]; simpl.
      - rewrite has_char_app. simpl. rewrite orb_true_r.
        assert (E2 : split2 ":" (body ++ String ":" t) = Ok (body, t))
          by (apply split2_spec; auto).
        rewrite E2; simpl. rewrite Hd; auto.
      - rewrite Hbody, Hd; auto. }
    rewrite E1; simpl. clear E1.
    assert (E2 : (if has_char "-" (opt_prefix inp "-" (opt_suffix obj "." key))
         then ab <- split2 "-" (opt_prefix inp "-" (opt_suffix obj "." key)) ;; Ok (Some (fst ab), snd ab)
         else Ok (None, opt_prefix inp "-" (opt_suffix obj "." key))) = Ok (inp, opt_suffix obj "." key)).
    { set (rest := opt_suffix obj "." key) in *. destruct inp as [i|]; simpl.
      - rewrite has_char_app; simpl. rewrite orb_true_r.
        assert (E2 : split2 "-" (i ++ String "-" rest) = Ok (i, rest)) by (apply split2_spec; auto).
        rewrite E2; auto.
      - rewrite Hr2; auto. }
    rewrite E2; simpl. clear E2.
    destruct key as [k|]; simpl.
    + rewrite has_char_app; simpl. rewrite orb_true_r.
      assert (E2 : split2 "." (obj ++ String "." k) = Ok (obj, k)) by (apply split2_spec; auto).
      rewrite E2; auto.
    + rewrite H8; auto.
Qed.

(* ---- int(str(z)) = z ---- *)

Fixpoint uint_val (u : Decimal.uint) (acc : Z) : Z :=
  match u with
  | Decimal.Nil => acc
  | Decimal.D0 u => uint_val u (10 * acc)
  | Decimal.D1 u => uint_val u (10 * acc + 1)
  | Decimal.D2 u => uint_val u (10 * acc + 2)
  | Decimal.D3 u => uint_val u (10 * acc + 3)
  | Decimal.D4 u => uint_val u (10 * acc + 4)
  | Decimal.D5 u => uint_val u (10 * acc + 5)
  | Decimal.D6 u => uint_val u (10 * acc + 6)
  | Decimal.D7 u => uint_val u (10 * acc + 7)
  | Decimal.D8 u => uint_val u (10 * acc + 8)
  | Decimal.D9 u => uint_val u (10 * acc + 9)
  end.

Lemma uint_val_acc u p : uint_val u (Zpos p) = Zpos (Pos.of_uint_acc u p).
Proof.
  revert p; induction u; intros p; cbn [uint_val Pos.of_uint_acc]; auto;
  rewrite <- IHu; f_equal; lia.
Qed.

Lemma uint_val_0 u : uint_val u 0 = Z.of_N (Pos.of_uint u).
Proof.
  induction u; cbn [uint_val Pos.of_uint]; auto;
  change (10 * 0)%Z with 0%Z; rewrite ?Z.add_0_l; auto; rewrite uint_val_acc; auto.
Qed.

Lemma int_digits_uint u prev acc :
  (u <> Decimal.Nil \/ prev = true) ->
  int_digits (NilEmpty.string_of_uint u) prev acc = Some (uint_val u acc).
Proof.
  revert prev acc; induction u; intros prev acc H; cbn [NilEmpty.string_of_uint uint_val int_digits];
  [destruct H as [H| ->]; [congruence|reflexivity]|..];
  match goal with
  | |- context [is_digit ?d] => change (is_digit d) with true; cbv iota
  end; rewrite IHu by auto; f_equal; f_equal; unfold digit_val; simpl; lia.
Qed.

Definition no_space (s : string) := forall n a, String.get n s = Some a -> is_space a = false.

Lemma uint_no_space u : no_space (NilEmpty.string_of_uint u).
Proof.
  unfold no_space; induction u; simpl; intros [|n] a H; try discriminate; simpl in H;
  try (injection H as <-; reflexivity); eauto.
Qed.

Lemma lstrip_no_space s : no_space s -> lstrip s = s.
Proof.
  destruct s as [|a r]; simpl; auto. intros H.
  rewrite (H 0 a eq_refl); auto.
Qed.

Lemma rstrip_no_space s : no_space s -> rstrip s = s.
Proof.
  induction s as [|a r IH]; simpl; auto. intros H.
  rewrite IH by (intros n b Hb; exact (H (S n) b Hb)).
  destruct r; auto. rewrite (H 0 a eq_refl); auto.
Qed.

Lemma string_of_uint_cases u : u <> Decimal.Nil ->
  exists a r, NilEmpty.string_of_uint u = String a r /\ Ascii.eqb a "-" = false /\ Ascii.eqb a "+" = false.
Proof. destruct u; intros H; try congruence; simpl; do 2 eexists; repeat split; reflexivity. Qed.

Lemma py_int_uint u : u <> Decimal.Nil ->
  py_int (NilEmpty.string_of_uint u) = Ok (uint_val u 0).
Proof.
  intros H. unfold py_int.
  rewrite lstrip_no_space, rstrip_no_space by apply uint_no_space.
  destruct (string_of_uint_cases u H) as (a & r & E & E1 & E2).
  rewrite E, E1, E2, <- E. cbn [fst snd]. rewrite int_digits_uint by auto.
  f_equal. lia.
Qed.

Lemma py_int_neg_uint u : u <> Decimal.Nil ->
  py_int (String "-" (NilEmpty.string_of_uint u)) = Ok (- uint_val u 0)%Z.
Proof.
  intros H. unfold py_int.
  assert (Hn : no_space (String "-" (NilEmpty.string_of_uint u))).
  { intros [|n] a Ha; simpl in Ha; [injection Ha as <-; reflexivity|].
    eapply uint_no_space; eauto. }
  rewrite lstrip_no_space, rstrip_no_space by auto.
  cbn [Ascii.eqb Bool.eqb fst snd]. rewrite int_digits_uint by auto.
  f_equal; lia.
Qed.

Lemma py_int_str_of_Z z : py_int (str_of_Z z) = Ok z.
Proof.
  unfold str_of_Z.
  pose proof (DecimalZ.of_to z) as Hz.
  destruct (Z.to_int z) as [u|u] eqn:E; cbn [NilZero.string_of_int NilZero.string_of_uint].
  - assert (Hu : u <> Decimal.Nil).
    { intros ->. destruct z; simpl in E; try discriminate; injection E as E;
      (destruct p; simpl in *; try congruence);
      try (apply (DecimalPos.Unsigned.to_uint_nonnil) in E; auto);
      try (exfalso; eapply DecimalPos.Unsigned.to_uint_nonnil; exact E). }
    assert (Es : NilZero.string_of_uint u = NilEmpty.string_of_uint u) by (destruct u; auto; congruence).
    rewrite Es, py_int_uint by auto. f_equal. rewrite uint_val_0. exact Hz.
  - assert (Hu : u <> Decimal.Nil).
    { intros ->. destruct z; simpl in E; try discriminate; injection E as E;
      exfalso; eapply DecimalPos.Unsigned.to_uint_nonnil; exact E. }
    assert (Es : NilZero.string_of_uint u = NilEmpty.string_of_uint u) by (destruct u; auto; congruence).
    rewrite Es, py_int_neg_uint by auto. f_equal. rewrite uint_val_0. exact Hz.
Qed.

Lemma str_of_Z_free z c : is_digit c = false -> c <> "-"%char -> free_of c (str_of_Z z).
Proof.
  intros Hc Hm. assert (Hu : forall u, free_of c (NilZero.string_of_uint u)).
  { assert (He : forall u, free_of c (NilEmpty.string_of_uint u)).
    { unfold free_of; induction u; simpl; intros [|n] a H; try discriminate; simpl in H;
      try (injection H as <-; intros <-; discriminate Hc); eauto. }
    intros u; destruct u; try apply He.
    intros [|[|n]] a H; simpl in H; try discriminate H. injection H as <-; intros <-; discriminate Hc. }
  unfold str_of_Z; destruct (Z.to_int z); simpl; auto.
  intros [|n] a H; simpl in H; [injection H as <-; auto|]. eapply Hu; eauto.
Qed.

Lemma split_output_roundtrip inp obj key d :
  ref_parts_ok inp obj key None ->
  split_output (ref_text inp obj key (Some (str_of_Z d))) = Ok (mkOutput obj key d inp).
Proof.
  intros (H1 & H2 & H3 & H4 & H5 & H6 & H7 & H8 & H9).
  apply split_output_iff. exists (Some (str_of_Z d)); simpl.
  split; [reflexivity|]. split; [|apply py_int_str_of_Z].
  repeat split; auto. apply str_of_Z_free; [reflexivity|discriminate].
Qed.

Lemma split_output_roundtrip0 inp obj key :
  ref_parts_ok inp obj key None ->
  split_output (ref_text inp obj key None) = Ok (mkOutput obj key 0 inp).
Proof.
  intros H. apply split_output_iff. exists None; simpl; auto.
Qed.
