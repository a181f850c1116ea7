(* Proofs about the generators. *)
From Coq Require Import List Bool PeanoNat ZArith Lia Field_theory Ring_theory Ring Field.
From Verif Require LoopProofs.
From Verif Require Import PyBase PyLemmas Arith ArithLemmas FilterModel FilterSpec SumLemmas FilterProofs IirProofs FilterFacts
  FilterFacts2 MultirateModel MultirateProofs GenModel.
Import ListNotations.

(* ------------------------------------------------------------ lists of equal blocks *)

Lemma concat_length_uniform {B} (L : list (list B)) w : (forall x, In x L -> length x = w) -> length (concat L) = length L * w.
Proof.
  induction L as [|x r IH]; intros H; auto. cbn [concat length]. rewrite app_length, IH, (H x); simpl; auto.
  intros; apply H; simpl; auto.
Qed.

Lemma nth_concat {B} (L : list (list B)) w r d : (0 < w) -> (forall x, In x L -> length x = w) ->
  nth r (concat L) d = nth (r mod w) (nth (r / w) L []) d.
Proof.
  intros Hw. revert r. induction L as [|x L IH]; intros r H.
  - cbn. destruct (r / w); destruct (r mod w); destruct r; auto.
  - cbn [concat]. assert (Lx : length x = w) by (apply H; simpl; auto).
    destruct (Nat.lt_ge_cases r w) as [Hr|Hr].
    + rewrite app_nth1 by lia. rewrite Nat.div_small, Nat.mod_small by auto. reflexivity.
    + rewrite app_nth2, Lx, IH by (auto; lia || (intros; apply H; simpl; auto)).
      replace r with ((r - w) + 1 * w) at 3 4 by lia. rewrite Nat.mod_add, Nat.div_add by lia.
      replace ((r - w) / w + 1) with (S ((r - w) / w)) by lia. reflexivity.
Qed.

Lemma np_repeat_length {B} (l : list B) n : length (np_repeat l n) = length l * n.
Proof.
  unfold np_repeat. rewrite (concat_length_uniform _ n), map_length; auto.
  intros x (y & <- & _)%in_map_iff. apply repeat_length.
Qed.

Lemma np_repeat_nth {B} (l : list B) n r d : r < length l * n -> nth r (np_repeat l n) d = nth (r / n) l d.
Proof.
  intros Hr. assert (0 < n) by (destruct n; lia).
  assert (Hq : r / n < length l) by (apply Nat.div_lt_upper_bound; lia).
  unfold np_repeat. rewrite (nth_concat _ n) by (auto; intros x (y & <- & _)%in_map_iff; apply repeat_length).
  rewrite (nth_indep _ [] (repeat d n)) by (rewrite map_length; auto).
  rewrite (map_nth (fun x => repeat x n)).
  rewrite (nth_indep _ d (nth (r / n) l d)) by (rewrite repeat_length; apply Nat.mod_upper_bound; lia).
  apply nth_repeat_same.
Qed.

Lemma np_tile_length {B} (l : list B) n : length (np_tile l n) = n * length l.
Proof.
  unfold np_tile. rewrite (concat_length_uniform _ (length l)), repeat_length; auto.
  intros x Hx. apply repeat_spec in Hx. subst. auto.
Qed.

Lemma np_tile_nth {B} (l : list B) n r d : r < n * length l -> nth r (np_tile l n) d = nth (r mod length l) l d.
Proof.
  intros Hr. assert (0 < length l) by (destruct (length l); lia).
  unfold np_tile. rewrite (nth_concat _ (length l)) by (auto; intros x Hx; apply repeat_spec in Hx; subst; auto).
  assert (Hq : r / length l < n) by (apply Nat.div_lt_upper_bound; lia).
  rewrite (nth_indep _ [] l) by (rewrite repeat_length; auto). rewrite nth_repeat_same. reflexivity.
Qed.

(* ------------------------------------------------------------------- play-back *)

Lemma grun_nth {V} (code : Z -> nat -> res V) ts : forall s l, grun code s ts = Ok l -> length l = length ts /\
  forall k, k < length ts -> exists v, code (nth k ts 0%Z) (g_iter s + k) = Ok v /\
     nth k l s = mkG v (nth k ts 0%Z) (S (g_iter s + k)).
Proof.
  induction ts as [|t r IH]; intros s l E; cbn [grun] in E.
  - injection E as <-. split; auto. simpl. lia.
  - unfold gstep in E. destruct (code t (g_iter s)) as [v|] eqn:Ev; [|discriminate]. cbn [bind] in E.
    set (s1 := mkG v t (S (g_iter s))) in *.
    destruct (grun code s1 r) as [l1|] eqn:E1; [|discriminate]. cbn [bind] in E. injection E as <-.
    destruct (IH s1 l1 E1) as [L H]. split; [simpl; auto|]. intros [|k] Hk.
    + exists v. rewrite Nat.add_0_r. auto.
    + simpl in Hk. destruct (H k ltac:(lia)) as (v' & H1 & H2). exists v'. cbn [g_iter s1] in *.
      replace (g_iter s + S k) with (S (g_iter s) + k) by lia. cbn [nth]. split; auto.
      rewrite <- H2. apply nth_indep. lia.
Qed.

Lemma th_code_spec {V} (hist : list V) k d : hist <> [] -> th_code hist k = Ok (nth (Nat.min k (length hist - 1)) hist d).
Proof.
  intros H. unfold th_code. assert (0 < length hist) by (destruct hist; [congruence|simpl; lia]).
  destruct (Nat.ltb_spec k (length hist)).
  - replace (Nat.min k (length hist - 1)) with k by lia. destruct (nth_error hist k) eqn:E.
    + erewrite nth_error_nth; eauto.
    + apply nth_error_None in E. lia.
  - replace (Nat.min k (length hist - 1)) with (length hist - 1) by lia.
    destruct (rev hist) as [|v r] eqn:E.
    + apply (f_equal (@length V)) in E. rewrite rev_length in E. simpl in E. lia.
    + assert (Hh : hist = rev r ++ [v]) by (rewrite <- (rev_involutive hist), E; reflexivity).
      rewrite Hh, app_length. simpl. rewrite app_nth2 by lia. replace (length (rev r) + 1 - 1 - length (rev r)) with 0 by lia. reflexivity.
Qed.

Lemma grun_total {V} (code : Z -> nat -> res V) ts : forall s, (forall t k, exists v, code t k = Ok v) -> exists l, grun code s ts = Ok l.
Proof.
  induction ts as [|t r IH]; intros s H; cbn [grun]; [eauto|]. unfold gstep.
  destruct (H t (g_iter s)) as [v ->]. cbn [bind]. destruct (IH (mkG v t (S (g_iter s))) H) as [l ->]. cbn. eauto.
Qed.

(* --------------------------------------------------------------------- schedule *)
Section Sched.
Variable T : Type.
Variable leb : T -> T -> bool.
Hypothesis leb_trans : forall x y z, leb x y = true -> leb y z = true -> leb x z = true.

Definition ordered (a : list T) : Prop :=
  forall i j x y, i <= j -> nth_error a i = Some x -> nth_error a j = Some y -> leb x y = true.

(* number of elements not larger than v *)
Definition count_le (a : list T) (v : T) : nat := length (filter (fun x => leb x v) a).

Lemma search_spec a v : forall fuel lo hi, hi - lo <= fuel -> lo <= hi -> hi <= length a ->
  (forall i x, i < lo -> nth_error a i = Some x -> leb x v = true) ->
  (forall i x, hi <= i -> nth_error a i = Some x -> leb x v = false) ->
  ordered a ->
  let r := search leb fuel a v lo hi in
  r <= length a /\ (forall i x, i < r -> nth_error a i = Some x -> leb x v = true) /\
  (forall i x, r <= i -> nth_error a i = Some x -> leb x v = false).
Proof.
  induction fuel as [|f IH]; intros lo hi Hf Hl Hh H1 H2 Ho; cbn [search].
  - assert (lo = hi) by lia. subst. auto.
  - destruct (Nat.ltb_spec lo hi) as [H|H].
    2: { assert (lo = hi) by lia. subst. auto. }
    assert (Hd : (hi - lo) / 2 < hi - lo) by (apply Nat.div_lt; lia).
    set (mid := lo + (hi - lo) / 2) in *.
    destruct (nth_error a mid) as [x|] eqn:E.
    2: { apply nth_error_None in E. unfold mid in E. lia. }
    destruct (leb x v) eqn:Ex.
    + apply IH; auto; try (unfold mid in *; lia).
      intros i y Hi Hy. destruct (Nat.eq_dec i mid) as [->|]; [congruence|].
      apply leb_trans with x; auto. apply (Ho i mid); auto. lia.
    + apply IH; auto; try (unfold mid in *; lia).
      intros i y Hi Hy. destruct (leb y v) eqn:Ey; auto.
      assert (leb x v = true) by (apply leb_trans with y; auto; apply (Ho mid i); auto). congruence.
Qed.

Lemma count_split a v : forall r, r <= length a ->
  (forall i x, i < r -> nth_error a i = Some x -> leb x v = true) ->
  (forall i x, r <= i -> nth_error a i = Some x -> leb x v = false) -> count_le a v = r.
Proof.
  unfold count_le. induction a as [|x a IH]; intros r Hr H1 H2.
  - simpl in *. lia.
  - destruct r as [|r].
    + cbn [filter]. rewrite (H2 0 x); auto with arith. apply (IH 0); auto with arith.
      * intros. lia.
      * intros i y _ Hy. apply (H2 (S i)); auto with arith.
    + cbn [filter]. rewrite (H1 0 x); auto with arith. cbn [length]. f_equal. apply IH; [simpl in Hr; lia| |].
      * intros i y Hi Hy. apply (H1 (S i)); auto with arith.
      * intros i y Hi Hy. apply (H2 (S i)); auto with arith.
Qed.

Lemma searchsorted_count a v : ordered a -> searchsorted_right leb a v = count_le a v.
Proof.
  intros Ho. unfold searchsorted_right.
  destruct (search_spec a v (length a) 0 (length a)) as (H1 & H2 & H3); auto; try lia.
  - intros i x Hi Hx. assert (i < length a) by (apply nth_error_Some; congruence). lia.
  - symmetry. apply count_split; auto.
Qed.
End Sched.

Lemma count_le_length T (leb : T -> T -> bool) a v : count_le T leb a v <= length a.
Proof. unfold count_le. induction a; cbn; auto. destruct (leb a v); cbn; lia. Qed.

Lemma map_res_nth_error {X Y} (f : X -> res Y) l : forall l', map_res f l = Ok l' -> length l' = length l /\
  forall i x, nth_error l i = Some x -> exists y, f x = Ok y /\ nth_error l' i = Some y.
Proof.
  induction l as [|x r IH]; intros l' E; cbn [map_res] in E.
  - injection E as <-. split; auto. intros [|i]; discriminate.
  - destruct (f x) as [y|] eqn:Ey; [|discriminate]. cbn [bind] in E.
    destruct (map_res f r) as [ys|] eqn:Er; [|discriminate]. cbn [bind] in E. injection E as <-.
    destruct (IH ys eq_refl) as [L H]. split; [simpl; auto|]. intros [|i] z Hz; cbn in *; [|apply H; auto].
    injection Hz as <-. eauto.
Qed.

(* --------------------------------------------------------------------- push-pull *)
Section PushPull.
Context {A : arith}.
Local Notation O := (@zer A).

Definition entry (M : mat A) (r m : nat) : A := nth m (nth r M []) O.

Lemma set_nth_length {B} j (x : B) l : length (set_nth j x l) = length l.
Proof. unfold set_nth. rewrite map_length, seq_length. reflexivity. Qed.

Lemma set_nth_nth {B} j (x d : B) l i : i < length l -> nth i (set_nth j x l) d = if Nat.eqb i j then x else nth i l d.
Proof.
  intros H. unfold set_nth. rewrite nth_map_seq by auto. destruct (Nat.eqb i j); auto. apply nth_indep; auto.
Qed.

Lemma assign_length (M : mat A) r0 c vals : length (assign_rows M r0 c vals) = length M.
Proof. unfold assign_rows. rewrite map_length, seq_length. reflexivity. Qed.

Lemma assign_shape (M : mat A) r0 c vals n m : shape M n m -> shape (assign_rows M r0 c vals) n m.
Proof.
  intros [L H]. split; [rewrite assign_length; auto|]. unfold assign_rows. intros row (r & <- & Hr%in_seq)%in_map_iff.
  assert (length (nth r M []) = m) by (apply H, nth_In; lia).
  destruct (_ && _); auto. rewrite set_nth_length. auto.
Qed.

Lemma assign_entry (M : mat A) r0 c vals n m r j : shape M n m -> r < n -> j < m ->
  entry (assign_rows M r0 c vals) r j =
  if Nat.eqb j c && (Nat.leb r0 r && Nat.ltb r (r0 + length vals)) then nth (r - r0) vals O else entry M r j.
Proof.
  intros [L H] Hr Hj. unfold entry, assign_rows. rewrite nth_map_seq by lia.
  assert (length (nth r M []) = m) by (apply H, nth_In; lia).
  destruct (Nat.leb r0 r && Nat.ltb r (r0 + length vals)).
  - rewrite set_nth_nth by lia. destruct (Nat.eqb j c); reflexivity.
  - rewrite andb_false_r. reflexivity.
Qed.

(* inner loop: [cycles] copies of [poke] one after the other *)
Lemma inner_loop (poke : vec A) P L h mode n m : length poke = P -> forall q (M : mat A), shape M n m -> (q <= L) ->
  let M' := fold_left (fun M j => assign_rows M (P * (L * h + j)) mode poke) (seq 0 q) M in
  shape M' n m /\ forall r j, r < n -> j < m ->
    entry M' r j = if Nat.eqb j mode && (Nat.leb (P * (L * h)) r && Nat.ltb r (P * (L * h + q)))
                   then nth ((r - P * (L * h)) mod P) poke O else entry M r j.
Proof.
  intros LP. induction q as [|q IH]; intros M HM Hq.
  - cbn [seq fold_left]. split; auto. intros r j Hr Hj.
    destruct (Nat.leb_spec (P * (L * h)) r), (Nat.ltb_spec r (P * (L * h + 0))); cbn [andb]; rewrite ?andb_false_r; auto. lia.
  - rewrite seq_S, fold_left_app. cbn [fold_left Nat.add].
    destruct (IH M HM ltac:(lia)) as [S1 S2]. split; [apply assign_shape; auto|].
    intros r j Hr Hj. rewrite (assign_entry _ _ _ _ n m) by auto. rewrite S2 by auto. rewrite LP.
    destruct (Nat.eqb j mode); cbn [andb]; auto.
    destruct (Nat.leb_spec (P * (L * h + q)) r), (Nat.ltb_spec r (P * (L * h + q) + P)),
      (Nat.leb_spec (P * (L * h)) r), (Nat.ltb_spec r (P * (L * h + q))), (Nat.ltb_spec r (P * (L * h + S q))); cbn [andb]; auto; try nia.
    f_equal. replace (r - P * (L * h)) with ((r - P * (L * h + q)) + q * P) by nia.
    rewrite Nat.mod_add by lia. rewrite Nat.mod_small by lia. reflexivity.
Qed.

(* position in the pattern of row [b] of the block of a mode *)
Definition pat_pos (grouped : bool) (P L b : nat) : nat := if grouped then b / L else b mod P.

(* rows of the basic history: one block of [P * L] rows per mode *)
Definition base_entry (first : nat) (amps pattern : vec A) (L : nat) (grouped : bool) (r m : nat) : A :=
  let P := length pattern in
  if Nat.eqb m (first + r / (P * L))
  then (nth (m - first)%nat amps O * nth (pat_pos grouped P L (r mod (P * L))%nat) pattern O)%ar else O.

Lemma base_history n_modes first (amps pattern : vec A) L (grouped : bool) M :
  first <= n_modes ->
  fold_res (fun M mode =>
       let h := (mode - first) in
       match nth_error (repeat O first ++ amps) mode with
       | None => Err IndexError
       | Some a =>
           let poke := map (fun p => (a * p)%ar) pattern in
           if grouped then Ok (assign_rows M (length pattern * h * L) mode (np_repeat poke L))
           else Ok (fold_left (fun M j => assign_rows M (length pattern * (L * h + j)) mode poke) (seq 0 L) M)
       end) (mzeros (length pattern * (n_modes - first) * L) n_modes) (seq first (n_modes - first)) = Ok M ->
  shape M (length pattern * (n_modes - first) * L) n_modes /\
  forall r m, r < length pattern * (n_modes - first) * L -> m < n_modes ->
    entry M r m = base_entry first amps pattern L grouped r m.
Proof.
  intros Hf. set (P := length pattern). set (R := P * (n_modes - first) * L).
  assert (G : forall q M, q <= n_modes - first ->
    fold_res (fun M mode =>
       let h := (mode - first) in
       match nth_error (repeat O first ++ amps) mode with
       | None => Err IndexError
       | Some a =>
           let poke := map (fun p => (a * p)%ar) pattern in
           if grouped then Ok (assign_rows M (P * h * L) mode (np_repeat poke L))
           else Ok (fold_left (fun M j => assign_rows M (P * (L * h + j)) mode poke) (seq 0 L) M)
       end) (mzeros R n_modes) (seq first q) = Ok M ->
    shape M R n_modes /\ forall r m, r < R -> m < n_modes ->
      entry M r m = if Nat.ltb m (first + q) then base_entry first amps pattern L grouped r m else O).
  { induction q as [|q IH]; intros M' Hq E.
    - cbn [seq fold_res] in E. injection E as <-. split.
      + split; [apply repeat_length|]. intros row Hrow. apply repeat_spec in Hrow. subst. apply repeat_length.
      + intros r m Hr Hm. unfold entry, mzeros. rewrite (nth_indep _ [] (zeros n_modes)) by (rewrite repeat_length; auto).
        rewrite nth_repeat_same. unfold zeros. rewrite nth_repeat_same.
        destruct (Nat.ltb_spec m (first + 0)); auto. unfold base_entry.
        destruct (Nat.eqb_spec m (first + r / (length pattern * L))); auto. lia.
    - rewrite seq_S, LoopProofs.fold_res_app in E.
      match type of E with bind ?x _ = _ => destruct x as [M1|] eqn:E1; [|discriminate] end. cbn [bind fold_res] in E.
      destruct (IH M1 ltac:(lia) eq_refl) as [S1 H1]. clear IH E1.
      destruct (nth_error (repeat O first ++ amps) (first + q)) as [a|] eqn:Ea; [|discriminate].
      assert (Eamp : nth q amps O = a).
      { rewrite nth_error_app2, repeat_length in Ea by (rewrite repeat_length; lia).
        replace (first + q - first) with q in Ea by lia. apply nth_error_nth. auto. }
      replace (first + q - first) with q in E by lia.
      assert (HH : shape M' R n_modes /\ forall r m, r < R -> m < n_modes ->
        entry M' r m = if Nat.eqb m (first + q) && (Nat.leb (P * L * q) r && Nat.ltb r (P * L * S q))
                       then (a * nth (pat_pos grouped P L ((r - P * L * q) mod (P * L))%nat) pattern O)%ar else entry M1 r m).
      { assert (Hmap : forall x, x < P -> nth x (map (fun p => (a * p)%ar) pattern) O = (a * nth x pattern O)%ar).
        { intros x Hx. rewrite (nth_indep _ O (a * O)%ar) by (rewrite map_length; auto). apply (map_nth (fun p => (a * p)%ar)). }
        destruct grouped; cbn [bind fold_res] in E.
        - injection E as <-. split; [apply assign_shape; auto|]. intros r m Hr Hm.
          rewrite (assign_entry _ _ _ _ R n_modes) by auto. rewrite np_repeat_length, map_length. fold P.
          replace (P * q * L) with (P * L * q) by lia. replace (P * L * q + P * L) with (P * L * S q) by lia.
          destruct (Nat.eqb m (first + q)); cbn [andb]; auto.
          destruct (Nat.leb_spec (P * L * q) r), (Nat.ltb_spec r (P * L * S q)); cbn [andb]; auto.
          rewrite np_repeat_nth by (rewrite map_length; fold P; lia).
          rewrite (Nat.mod_small (r - P * L * q)) by lia. cbn [pat_pos]. apply Hmap.
          apply Nat.div_lt_upper_bound; nia.
        - injection E as <-.
          destruct (inner_loop (map (fun p => (a * p)%ar) pattern) P L q (first + q) R n_modes ltac:(rewrite map_length; auto) L M1 S1 ltac:(lia)) as [I1 I2].
          split; auto. intros r m Hr Hm. rewrite I2 by auto.
          replace (P * (L * q)) with (P * L * q) by lia. replace (P * (L * q + L)) with (P * L * S q) by lia.
          destruct (Nat.eqb m (first + q)); cbn [andb]; auto.
          destruct (Nat.leb_spec (P * L * q) r), (Nat.ltb_spec r (P * L * S q)); cbn [andb]; auto.
          rewrite (Nat.mod_small (r - P * L * q) (P * L)) by lia. cbn [pat_pos]. apply Hmap.
          apply Nat.mod_upper_bound. nia. }
      destruct HH as [HS HE]. split; auto. intros r m Hr Hm. rewrite HE, H1 by auto.
      assert (HPL : 0 < P * L) by (unfold R in Hr; nia).
      assert (Hdiv : (P * L * q <= r /\ r < P * L * S q) <-> r / (P * L) = q).
      { split.
        - intros [D1 D2]. symmetry. apply (Nat.div_unique r (P * L) q (r - P * L * q)); lia.
        - intros <-. pose proof (Nat.div_mod r (P * L)). pose proof (Nat.mod_upper_bound r (P * L)). nia. }
      destruct (Nat.eqb_spec m (first + q)) as [->|Hmq]; cbn [andb].
      + destruct (Nat.ltb_spec (first + q) (first + q)); [lia|].
        destruct (Nat.ltb_spec (first + q) (first + S q)); [|lia].
        unfold base_entry. fold P. replace (first + q - first) with q by lia. rewrite Eamp.
        destruct (Nat.leb_spec (P * L * q) r), (Nat.ltb_spec r (P * L * S q)); cbn [andb];
          destruct (Nat.eqb_spec (first + q) (first + r / (P * L))); auto; try lia.
        f_equal. f_equal. f_equal. rewrite Nat.mod_small by lia.
        pose proof (Nat.div_mod r (P * L)). assert (r / (P * L) = q) as D by lia. rewrite D in *. lia.
      + destruct (Nat.ltb_spec m (first + q)), (Nat.ltb_spec m (first + S q)); auto; lia. }
  intros E. destruct (G (n_modes - first) M ltac:(lia) E) as [S1 H1]. split; auto.
  intros r m Hr Hm. rewrite H1 by auto. destruct (Nat.ltb_spec m (first + (n_modes - first))); auto. lia.
Qed.

Lemma shape_row (M : mat A) n m r : shape M n m -> r < n -> length (nth r M []) = m.
Proof. intros [L H] Hr. apply H, nth_In. lia. Qed.

(* full history *)
Definition eff_pattern (only_push : bool) (pattern : vec A) : vec A := if only_push then [@one A] else pattern.

Theorem pushpull_entries n_modes first amps pattern op ncycles nsamples grouped full H :
  first <= n_modes ->
  pushpull n_modes first amps pattern op ncycles nsamples grouped full = Ok H ->
  let pat := eff_pattern op pattern in
  let P := length pat in
  let L := if full then 1 else ncycles in
  let B := P * (n_modes - first) * L in
  length H = B * (if full then ncycles else 1) * nsamples /\
  (forall row, In row H -> length row = n_modes) /\
  forall r m, r < length H -> m < n_modes ->
    entry H r m = base_entry first amps pat L (grouped && negb full) ((r / nsamples) mod B) m.
Proof.
  intros Hf E pat P L B. unfold pushpull in E. fold (eff_pattern op pattern) in E. fold pat in E. fold P in E. fold L in E.
  destruct (Nat.ltb_spec n_modes first); [lia|]. cbn [andb] in E.
  match type of E with bind ?x _ = _ => destruct x as [M|] eqn:EM; [|discriminate] end. cbn [bind] in E. injection E as <-.
  destruct (base_history n_modes first amps pat L (grouped && negb full) M Hf EM) as [S1 H1].
  fold P in S1, H1. fold B in S1, H1.
  assert (LM : length M = B) by apply S1.
  set (M2 := if full then np_tile M ncycles else M).
  assert (L2 : length M2 = B * (if full then ncycles else 1)).
  { unfold M2. destruct full; [rewrite np_tile_length, LM|rewrite LM]; lia. }
  split; [rewrite np_repeat_length, L2; lia|]. split.
  - unfold np_repeat. intros row (blk & Hb & Hr)%in_concat. apply in_map_iff in Hb. destruct Hb as (x & <- & Hx).
    apply repeat_spec in Hr. subst row. unfold M2 in Hx. destruct full; [|apply S1; auto].
    unfold np_tile in Hx. apply in_concat in Hx. destruct Hx as (y & Hy & Hx). apply repeat_spec in Hy. subst. apply S1; auto.
  - intros r m Hr Hm. rewrite np_repeat_length in Hr. unfold entry. rewrite np_repeat_nth by auto.
    assert (Hq : r / nsamples < length M2) by (apply Nat.div_lt_upper_bound; [destruct nsamples; lia|lia]).
    assert (Hn : nth (r / nsamples) M2 [] = nth ((r / nsamples) mod B) M []).
    { rewrite L2 in Hq. unfold M2. destruct full.
      - rewrite np_tile_nth by (rewrite LM; lia). rewrite LM. reflexivity.
      - rewrite Nat.mod_small by lia. reflexivity. }
    rewrite Hn. apply H1; auto. apply Nat.mod_upper_bound. rewrite L2 in Hq. destruct full; nia.
Qed.
End PushPull.

Section Field.
Variable A : arith.
Hypothesis HF : is_field A.
Let HF' : field_theory (@zer A) one add mul sub opp dvd inv eq := HF.
Add Field fA9 : HF'.
Local Open Scope ar_scope.

Lemma sumn_mul a b (f : nat -> A) : sumn (a * b) f = sumn a (fun i => sumn b (fun j => f (i * b + j)%nat)).
Proof.
  induction a as [|a IH]; auto. replace (S a * b)%nat with (a * b + b)%nat by lia.
  rewrite (sumn_app A HF), IH. reflexivity.
Qed.

(* total of a mode over the whole history *)
Theorem pushpull_total n_modes first (amps pattern : vec A) op ncycles nsamples grouped full H m :
  pushpull n_modes first amps pattern op ncycles nsamples grouped full = Ok H ->
  (first <= m < n_modes)%nat ->
  sumn (length H) (fun r => entry H r m) =
  nth (m - first) amps 0 * (of_nat (ncycles * nsamples)%nat * vsum (eff_pattern op pattern)).
Proof.
  intros E Hm. destruct (pushpull_entries n_modes first amps pattern op ncycles nsamples grouped full H ltac:(lia) E) as (HL & _ & HE).
  cbv zeta in HL, HE. set (pat := eff_pattern op pattern) in *. set (P := length pat) in *.
  set (L := if full then 1%nat else ncycles) in *. set (B := (P * (n_modes - first) * L)%nat) in *.
  set (C := if full then ncycles else 1%nat) in *. set (g := grouped && negb full) in *.
  rewrite (sumn_ext _ _ (fun r => base_entry first amps pat L g ((r / nsamples) mod B) m)) by (intros; apply HE; lia).
  rewrite HL, sumn_mul.
  rewrite (sumn_ext (B * C) _ (fun q => of_nat nsamples * base_entry first amps pat L g (q mod B) m)).
  2: { intros q Hq. rewrite (sumn_ext nsamples _ (fun _ => base_entry first amps pat L g (q mod B) m)).
       - apply sumn_const; auto.
       - intros j Hj. rewrite Nat.div_add_l by lia. rewrite (Nat.div_small j) by auto. rewrite Nat.add_0_r. reflexivity. }
  rewrite (sumn_scale A HF). replace (B * C)%nat with (C * B)%nat by lia. rewrite sumn_mul.
  rewrite (sumn_ext C _ (fun _ => sumn B (fun b => base_entry first amps pat L g b m))).
  2: { intros q Hq. apply sumn_ext. intros j Hj. rewrite (Nat.add_comm (q * B)), Nat.mod_add by lia.
       rewrite Nat.mod_small by auto. reflexivity. }
  rewrite (sumn_const A HF).
  assert (HB : sumn B (fun b => base_entry first amps pat L g b m) = nth (m - first) amps 0 * (of_nat L * vsum pat)).
  { unfold B. replace (P * (n_modes - first) * L)%nat with ((n_modes - first) * (P * L))%nat by lia. rewrite sumn_mul.
    rewrite (sumn_single A HF (n_modes - first) (m - first)) by
      (try lia; intros j Hj Hne; apply (sumn_zero A HF); intros x Hx; unfold base_entry; fold P;
       rewrite (Nat.div_add_l j (P * L) x), (Nat.div_small x) by lia;
       destruct (Nat.eqb_spec m (first + (j + 0))); auto; lia).
    rewrite (sumn_ext (P * L) _ (fun x => nth (m - first) amps 0 * nth (pat_pos g P L x) pat 0)).
    2: { intros x Hx. unfold base_entry. fold P. rewrite Nat.div_add_l, (Nat.div_small x) by lia.
         rewrite (Nat.add_comm (_ * _) x), Nat.mod_add, Nat.mod_small by lia.
         destruct (Nat.eqb_spec m (first + (m - first + 0))); auto. lia. }
    rewrite (sumn_scale A HF). f_equal. rewrite fold_left_sumn. fold P. unfold pat_pos. destruct g.
    - rewrite sumn_mul. rewrite <- (sumn_scale A HF). apply sumn_ext. intros i Hi.
      rewrite (sumn_ext L _ (fun _ => nth i pat 0)); [apply (sumn_const A HF)|].
      intros j Hj. rewrite Nat.div_add_l, (Nat.div_small j), Nat.add_0_r by lia. reflexivity.
    - replace (P * L)%nat with (L * P)%nat by lia. rewrite sumn_mul.
      rewrite (sumn_ext L _ (fun _ => sumn P (fun j => nth j pat 0))); [apply (sumn_const A HF)|].
      intros i Hi. apply sumn_ext. intros j Hj. rewrite (Nat.add_comm (i * P)), Nat.mod_add, Nat.mod_small by lia. reflexivity. }
  rewrite HB.
  assert (Hof : forall a b, of_nat (a * b) = of_nat a * of_nat b :> A).
  { intros a b. induction a; cbn [of_nat Nat.mul]; [ring|]. rewrite of_nat_add, IHa by auto. ring. }
  assert (HC : of_nat C * of_nat L = of_nat ncycles :> A) by (unfold C, L; destruct full; cbn [of_nat]; ring).
  rewrite Hof. rewrite <- HC. ring.
Qed.
End Field.

Lemma fold_res_total {S X} (f : S -> X -> res S) l : (forall s x, In x l -> exists s', f s x = Ok s') ->
  forall s, exists s', fold_res f s l = Ok s'.
Proof.
  induction l as [|x r IH]; intros H s; cbn [fold_res]; [eauto|].
  destruct (H s x (or_introl eq_refl)) as [s1 ->]. cbn [bind]. apply IH. intros; apply H; simpl; auto.
Qed.

Lemma pushpull_ok {A : arith} n_modes first (amps pattern : vec A) op ncycles nsamples grouped full :
  first <= n_modes -> n_modes - first <= length amps ->
  exists H, pushpull n_modes first amps pattern op ncycles nsamples grouped full = Ok H.
Proof.
  intros Hf Hl. unfold pushpull. destruct (Nat.ltb_spec n_modes first); [lia|]. cbn [andb].
  match goal with |- context [fold_res ?f ?a ?l] => assert (G : exists M, fold_res f a l = Ok M); [apply fold_res_total|] end.
  - intros M mode Hin%in_seq. destruct (nth_error _ mode) eqn:E.
    + destruct (_ && _); eauto.
    + apply nth_error_None in E. rewrite app_length, repeat_length in E. lia.
  - destruct G as [M ->]. cbn [bind]. eauto.
Qed.

Lemma fold_res_err {S X} (f : S -> X -> res S) (e : exn) l x : In x l -> (forall s, f s x = Err e) ->
  (forall s y, f s y = Err e \/ exists s', f s y = Ok s') -> forall s, fold_res f s l = Err e.
Proof.
  induction l as [|y r IH]; intros Hin Hx Hall s; [destruct Hin|]. cbn [fold_res].
  destruct Hin as [->|Hin]; [rewrite Hx; reflexivity|].
  destruct (Hall s y) as [->|[s' ->]]; [reflexivity|]. cbn [bind]. auto.
Qed.

Lemma pushpull_short {A : arith} n_modes first (amps pattern : vec A) op ncycles nsamples grouped full :
  first <= n_modes -> length amps < n_modes - first ->
  pushpull n_modes first amps pattern op ncycles nsamples grouped full = Err IndexError.
Proof.
  intros Hf Hl. unfold pushpull. destruct (Nat.ltb_spec n_modes first); [lia|]. cbn [andb].
  match goal with |- context [fold_res ?f ?a ?l] => assert (G : fold_res f a l = Err IndexError);
    [apply (fold_res_err f IndexError l (first + length amps))|rewrite G; reflexivity] end.
  - apply in_seq. lia.
  - intros s. replace (nth_error (repeat zer first ++ amps) (first + length amps)) with (@None A); auto.
    symmetry. apply nth_error_None. rewrite app_length, repeat_length. lia.
  - intros s y. destruct (nth_error _ y); auto. right. destruct (_ && _); eauto.
Qed.
