From Coq Require Import String List ZArith Bool Arith QArith Qcanon Lia Lqa.
From Verif Require Import PyBase PyLemmas OpticalModel ExtModel QcTac CalFileModel SubapCalModel SubapCalSpec.
Import ListNotations.
Local Open Scope nat_scope.

(* rounding *)
Lemma rnd_near a b : (0 < b -> - b <= 2 * (b * rnd a b - a) <= b)%Z.
Proof.
  intros B. unfold rnd. pose proof (Z.div_mod a b ltac:(lia)) as D. pose proof (Z.mod_pos_bound a b B) as M.
  set (q := (a / b)%Z) in *. set (r := (a mod b)%Z) in *. clearbody q r.
  destruct (Z.ltb_spec (2 * r) b); [nia|]. destruct (Z.ltb_spec b (2 * r)); [nia|]. destruct (Z.even q); nia.
Qed.
Lemma rnd_unique a b z : (0 < b -> - b < 2 * (b * z - a) < b -> rnd a b = z)%Z.
Proof. intros B H. pose proof (rnd_near a b B). nia. Qed.
Lemma rnd_shift a b m : (0 < b)%Z ->
  rnd (a + b * m) b = (rnd a b + m)%Z \/ (Z.odd m = true /\ 2 * (a mod b) = b /\ (rnd (a + b * m) b = rnd a b + m + 1 \/ rnd (a + b * m) b = rnd a b + m - 1))%Z.
Proof.
  intros B. unfold rnd. replace (a + b * m)%Z with (a + m * b)%Z by ring. rewrite Z.div_add, Z.mod_add by lia.
  set (q := (a / b)%Z). set (r := (a mod b)%Z). clearbody q r.
  destruct (Z.ltb_spec (2 * r) b); [left; lia|]. destruct (Z.ltb_spec b (2 * r)); [left; lia|].
  rewrite Z.even_add, <- (Z.negb_odd m). destruct (Z.even q), (Z.odd m); cbn [Bool.eqb negb]; try (left; lia); right; repeat split; lia.
Qed.

Section Limits.
Variables (n rows : nat).
Hypothesis n0 : n <> 0.
Lemma np_sub_near : (- Z.of_nat n <= 2 * (Z.of_nat n * np_sub n rows - Z.of_nat rows) <= Z.of_nat n)%Z.
Proof. apply rnd_near. lia. Qed.
Lemma np_sub_pos : (0 <= np_sub n rows)%Z.
Proof. pose proof np_sub_near. nia. Qed.
Lemma first_pos k : (0 <= first n rows k)%Z.
Proof.
  pose proof np_sub_near as A. unfold first.
  pose proof (rnd_near (Z.of_nat rows * (2 * Z.of_nat k + 1) - np_sub n rows * Z.of_nat n) (2 * Z.of_nat n) ltac:(lia)) as B.
  set (f := rnd _ (2 * Z.of_nat n)) in *. nia.
Qed.
Lemma last_max k : k < n -> (last n rows k <= Z.of_nat rows)%Z.
Proof.
  intros K. pose proof np_sub_near as A. unfold last.
  pose proof (rnd_near (Z.of_nat rows * (2 * Z.of_nat k + 1) + np_sub n rows * Z.of_nat n) (2 * Z.of_nat n) ltac:(lia)) as B.
  set (f := rnd _ (2 * Z.of_nat n)) in *.
  assert (Z.of_nat rows * (2 * Z.of_nat k + 1) <= Z.of_nat rows * (2 * Z.of_nat n - 1))%Z by nia. nia.
Qed.
Lemma width k :
  (last n rows k = first n rows k + np_sub n rows \/
   Z.odd (np_sub n rows) = true /\ (exists e, Z.of_nat rows * (2 * Z.of_nat k + 1) = 2 * e * Z.of_nat n) /\
   (last n rows k = first n rows k + np_sub n rows + 1 \/ last n rows k = first n rows k + np_sub n rows - 1))%Z.
Proof.
  unfold first, last. set (m := np_sub n rows). set (c := (Z.of_nat rows * (2 * Z.of_nat k + 1))%Z).
  replace (c + m * Z.of_nat n)%Z with (c - m * Z.of_nat n + 2 * Z.of_nat n * m)%Z by ring.
  destruct (rnd_shift (c - m * Z.of_nat n) (2 * Z.of_nat n) m ltac:(lia)) as [E | (O & T & E)]; [now left | right].
  split; [exact O|]. split; [|exact E].
  apply Z.odd_spec in O. destruct O as (h & O).
  pose proof (Z.div_mod (c - m * Z.of_nat n) (2 * Z.of_nat n) ltac:(lia)) as D.
  set (q := ((c - m * Z.of_nat n) / (2 * Z.of_nat n))%Z) in *. exists (q + h + 1)%Z. nia.
Qed.
Lemma first_last k : (first n rows k <= last n rows k)%Z.
Proof.
  pose proof np_sub_pos. destruct (width k) as [W | (O & _ & [W|W])]; try lia.
  apply Z.odd_spec in O. destruct O. lia.
Qed.
(* the limits when the tiles are exact *)
Lemma exact_limits s k : rows = n * s -> np_sub n rows = Z.of_nat s /\ first n rows k = Z.of_nat (s * k) /\ last n rows k = Z.of_nat (s * (k + 1)).
Proof.
  intros E. assert (M : np_sub n rows = Z.of_nat s) by (apply rnd_unique; subst rows; nia).
  split; [exact M|]. unfold first, last. rewrite M, E. split; apply rnd_unique; nia.
Qed.
(* no overlap when there are enough pixels *)
Lemma last_first k l : (np_sub n rows * Z.of_nat n <= Z.of_nat rows)%Z -> k < l -> (last n rows k <= first n rows l)%Z.
Proof.
  intros F K. unfold last, first. set (m := np_sub n rows) in *.
  set (a := (Z.of_nat rows * (2 * Z.of_nat k + 1) + m * Z.of_nat n)%Z). set (b := (Z.of_nat rows * (2 * Z.of_nat l + 1) - m * Z.of_nat n)%Z).
  assert (A : (a <= b)%Z) by (unfold a, b; nia). clearbody a b. unfold rnd. set (B := (2 * Z.of_nat n)%Z) in *. assert (0 < B)%Z by lia. clearbody B.
  pose proof (Z.div_mod a B ltac:(lia)) as D1. pose proof (Z.mod_pos_bound a B ltac:(lia)).
  pose proof (Z.div_mod b B ltac:(lia)) as D2. pose proof (Z.mod_pos_bound b B ltac:(lia)).
  pose proof (Z.div_le_mono a b B ltac:(lia) A) as Q.
  set (q1 := (a / B)%Z) in *. set (q2 := (b / B)%Z) in *. set (r1 := (a mod B)%Z) in *. set (r2 := (b mod B)%Z) in *.
  clearbody q1 q2 r1 r2.
  assert (q1 < q2 \/ (q1 = q2 /\ r1 <= r2))%Z as [Q'|[-> R']] by (destruct (Z.lt_ge_cases q1 q2); [now left | right; assert (q1 = q2) by lia; subst; split; [reflexivity | lia]]).
  - destruct (2 * r1 <? B)%Z, (B <? 2 * r1)%Z, (Z.even q1), (2 * r2 <? B)%Z, (B <? 2 * r2)%Z, (Z.even q2); lia.
  - destruct (Z.ltb_spec (2 * r1) B), (Z.ltb_spec B (2 * r1)), (Z.even q2), (Z.ltb_spec (2 * r2) B), (Z.ltb_spec B (2 * r2)); lia.
Qed.
End Limits.

Lemma clip_in len z : (0 <= z <= len)%Z -> clip len z = z.
Proof. intros H. unfold clip. destruct (Z.ltb_spec z 0); lia. Qed.
Lemma span_in len a b : (0 <= a -> a <= b -> b <= Z.of_nat len -> span len a b = seq (Z.to_nat a) (Z.to_nat (b - a)))%Z.
Proof. intros. unfold span. rewrite !clip_in by lia. reflexivity. Qed.
Lemma span_length_le len a b : (0 <= a -> 0 <= b -> Z.of_nat (length (span len a b)) <= Z.max 0 (b - a))%Z.
Proof. intros. unfold span, clip. rewrite seq_length. destruct (Z.ltb_spec a 0), (Z.ltb_spec b 0); lia. Qed.
Lemma span_bound len a b x : (0 <= a)%Z -> (0 <= b)%Z -> In x (span len a b) -> x < len /\ (a <= Z.of_nat x < b)%Z.
Proof. intros A B I. unfold span, clip in I. rewrite in_seq in I. destruct (Z.ltb_spec a 0), (Z.ltb_spec b 0); lia. Qed.
Lemma span_seq len a b : exists p, span len a b = seq p (length (span len a b)).
Proof. unfold span. rewrite seq_length. eexists; reflexivity. Qed.

(* sums and the maximum *)
Lemma spot_flux n rows cols img ij : spot n rows cols img ij = flux img (square n rows cols (fst ij) (snd ij)).
Proof. unfold spot, flux. induction (square n rows cols (fst ij) (snd ij)); cbn; [reflexivity | now rewrite IHl]. Qed.
Lemma qmax2_cases x y : (qmax2 x y = x \/ qmax2 x y = y) /\ (x <= qmax2 x y)%Qc /\ (y <= qmax2 x y)%Qc.
Proof.
  unfold qmax2. destruct (qlt x y) eqn:E.
  - repeat split; [now right | qclra | apply Qcle_refl].
  - repeat split; [now left | apply Qcle_refl | qclra].
Qed.
Lemma qmax_fold l x : In (fold_left qmax2 l x) (x :: l) /\ (x <= fold_left qmax2 l x)%Qc /\ forall y, In y l -> (y <= fold_left qmax2 l x)%Qc.
Proof.
  revert x. induction l as [|z l IH]; intros x; cbn [fold_left].
  - split; [now left|]. split; [apply Qcle_refl | intros y []].
  - destruct (IH (qmax2 x z)) as (I & L & A). destruct (qmax2_cases x z) as ([E|E] & Lx & Lz); (split; [|split; [eapply Qcle_trans; eassumption|]]).
    + destruct I as [I|I]; [rewrite <- I, E; now left | right; now right].
    + intros y [<-|Y]; [eapply Qcle_trans; eassumption | now apply A].
    + destruct I as [I|I]; [rewrite <- I, E; right; now left | right; now right].
    + intros y [<-|Y]; [eapply Qcle_trans; eassumption | now apply A].
Qed.
Lemma qmax_max l : l <> [] -> In (qmax l) l /\ forall y, In y l -> (y <= qmax l)%Qc.
Proof.
  destruct l as [|x l]; [contradiction|]. intros _. unfold qmax. destruct (qmax_fold l x) as (I & L & A).
  split; [exact I|]. intros y [<-|Y]; [exact L | now apply A].
Qed.
Lemma lenslets_in n i j : In (i, j) (lenslets n) <-> i < n /\ j < n.
Proof. unfold lenslets. rewrite in_prod_iff, !in_seq. lia. Qed.
Lemma lenslets_not_nil n : n <> 0 -> lenslets n <> [].
Proof. intros N E. assert (In (0, 0) (lenslets n)) by (apply lenslets_in; lia). now rewrite E in H. Qed.
Lemma list_prod_NoDup {A B} (l : list A) (l' : list B) : NoDup l -> NoDup l' -> NoDup (list_prod l l').
Proof.
  intros H H'. induction H as [|a l N H IH]; cbn; [constructor|].
  assert (D : forall x y (L : list (A * B)), NoDup x -> NoDup y -> (forall z, In z x -> ~ In z y) -> L = (x ++ y)%list -> NoDup L).
  { intros x y L Hx Hy Hd ->. induction Hx as [|z x Nz Hx IHx]; cbn; [exact Hy|]. constructor.
    - rewrite in_app_iff. intros [I|I]; [now apply Nz | now apply (Hd z (or_introl eq_refl))].
    - apply IHx. intros w W. apply Hd. now right. }
  eapply D; [| exact IH | | reflexivity].
  - clear - H'. induction H' as [|b l' Nb H' IH]; cbn; constructor; [|exact IH]. rewrite in_map_iff. intros (y & E & I). injection E as ->. contradiction.
  - intros (u, v) I J. apply in_map_iff in I. destruct I as (y & E & _). injection E as <- _. apply in_prod_iff in J. tauto.
Qed.
Lemma lenslets_NoDup n : NoDup (lenslets n).
Proof. apply list_prod_NoDup; apply seq_NoDup. Qed.

(* tiles *)
Lemma filter_div s a m : s <> 0 -> a < m -> filter (fun r => r / s =? a) (seq 0 (m * s)) = seq (s * a) s.
Proof.
  intros S A. replace (m * s) with (s * a + (s + (m - a - 1) * s)) by nia. rewrite !seq_app, !filter_app. cbn [Nat.add].
  assert (G : forall l, (forall x, In x l -> x / s <> a) -> filter (fun r => r / s =? a) l = []).
  { induction l as [|x l IH]; intros H; [reflexivity|]. cbn. destruct (Nat.eqb_spec (x / s) a) as [E|E]; [exfalso; apply (H x); [now left | exact E] |].
    apply IH. intros y Y. apply H. now right. }
  assert (K : forall l, (forall x, In x l -> x / s = a) -> filter (fun r => r / s =? a) l = l).
  { induction l as [|x l IH]; intros H; [reflexivity|]. cbn. rewrite (H x (or_introl eq_refl)), Nat.eqb_refl, IH; [reflexivity|]. intros y Y. apply H. now right. }
  rewrite (G (seq 0 (s * a))), (G (seq _ ((m - a - 1) * s))), K.
  - now rewrite app_nil_r.
  - intros x X. apply in_seq in X. symmetry. apply (Nat.div_unique x s a (x - s * a)); lia.
  - intros x X E. apply in_seq in X. pose proof (Nat.div_mod x s S). pose proof (Nat.mod_upper_bound x s S). nia.
  - intros x X E. apply in_seq in X. pose proof (Nat.div_mod x s S). pose proof (Nat.mod_upper_bound x s S). nia.
Qed.
Lemma filter_prod {A B} (f : A -> bool) (g : B -> bool) l l' :
  filter (fun p => f (fst p) && g (snd p)) (list_prod l l') = list_prod (filter f l) (filter g l').
Proof.
  induction l as [|a l IH]; [reflexivity|]. cbn. rewrite filter_app, IH.
  assert (E : filter (fun p : A * B => f (fst p) && g (snd p)) (map (fun y => (a, y)) l') = if f a then map (fun y => (a, y)) (filter g l') else []).
  { clear. induction l' as [|b l' IH]; cbn; [now destruct (f a)|]. rewrite IH. destruct (f a), (g b); reflexivity. }
  rewrite E. destruct (f a); reflexivity.
Qed.
Lemma filter_cols s a m x : s <> 0 -> a < m -> m * s <= x -> filter (fun r => r / s =? a) (seq 0 x) = seq (s * a) s.
Proof.
  intros S A X. replace x with (m * s + (x - m * s)) by lia. rewrite seq_app, filter_app, filter_div by assumption.
  assert (G : forall l, (forall x, In x l -> x / s <> a) -> filter (fun r => r / s =? a) l = []).
  { induction l as [|y l IH]; intros H; [reflexivity|]. cbn. destruct (Nat.eqb_spec (y / s) a) as [E|E]; [exfalso; apply (H y); [now left | exact E] |].
    apply IH. intros z Z. apply H. now right. }
  rewrite G, app_nil_r; [reflexivity|]. intros y Y E. apply in_seq in Y. pose proof (Nat.div_mod y s S). pose proof (Nat.mod_upper_bound y s S). nia.
Qed.
Lemma square_tile n s cols i j : s <> 0 -> i < n -> j < n -> n * s <= cols ->
  square n (n * s) cols i j = tile (n * s) cols s j i.
Proof.
  intros S I J C. unfold square, tile. rewrite (filter_prod (fun r => r / s =? j) (fun r => r / s =? i)), filter_div, (filter_cols s i n cols) by assumption.
  destruct (exact_limits n (n * s) ltac:(lia) s i eq_refl) as (_ & -> & ->).
  destruct (exact_limits n (n * s) ltac:(lia) s j eq_refl) as (_ & -> & ->).
  rewrite !span_in by nia. f_equal; f_equal; lia.
Qed.

(* the selection *)
Lemma selected_in n rows cols th img i j :
  In (i, j) (selected n rows cols th img) <->
  (i < n /\ j < n /\ (th * qmax (map (spot n rows cols img) (lenslets n)) < flux img (square n rows cols i j))%Qc).
Proof.
  unfold selected. cbv zeta. rewrite filter_In, lenslets_in, spot_flux. cbn [fst snd].
  assert (Q : forall x y, qlt x y = true <-> (x < y)%Qc) by (intros; rewrite qlt_true; reflexivity). rewrite Q. tauto.
Qed.
Lemma selected_NoDup n rows cols th img : NoDup (selected n rows cols th img).
Proof. apply NoDup_filter, lenslets_NoDup. Qed.
Definition code (n : nat) (ij : nat * nat) : nat := snd ij * n + fst ij.
Lemma code_inj n i j i' j' : i < n -> i' < n -> code n (i, j) = code n (i', j') -> i = i' /\ j = j'.
Proof. unfold code. cbn. intros. assert (j = j') by nia. nia. Qed.

Lemma detect_ok n rows cols th img d : detect n rows cols th img = Ok d -> exists v, n <> 0 /\ selected n rows cols th img <> [] /\
  map_res (fun ij => assign (np_sub n rows) (map (ravel cols) (square n rows cols (fst ij) (snd ij)))) (selected n rows cols th img) = Ok v /\
  d = mkSub v (map (code n) (selected n rows cols th img)) n th.
Proof.
  unfold detect. destruct (Nat.eqb_spec n 0) as [E|E]; [discriminate|].
  destruct (selected n rows cols th img) as [|p l] eqn:S; [discriminate|]. intros H. inv_bind H. injection H as <-.
  eexists. repeat split; [exact E | discriminate | eassumption].
Qed.
Lemma list_prod_length {A B} (l : list A) (l' : list B) : length (list_prod l l') = length l * length l'.
Proof. apply prod_length. Qed.

(* what can be stored *)
Lemma assign_square n rows cols i j l : n <> 0 -> i < n -> j < n ->
  assign (np_sub n rows) (map (ravel cols) (square n rows cols i j)) = Ok l ->
  l = map (ravel cols) (square n rows cols i j) /\
  length (span rows (first n rows j) (last n rows j)) = Z.to_nat (np_sub n rows) /\ 
  (length (span cols (first n rows i) (last n rows i)) = Z.to_nat (np_sub n rows) \/ np_sub n rows = 0%Z).
Proof.
  intros N I J. unfold assign. set (m := np_sub n rows).
  assert (Pm : (0 <= m)%Z) by (apply np_sub_pos; exact N).
  assert (W1 : Z.of_nat (length (span rows (first n rows j) (last n rows j))) = (last n rows j - first n rows j)%Z).
  { rewrite span_in; [|apply first_pos; exact N | apply first_last; exact N | now apply last_max]. rewrite seq_length. pose proof (first_last n rows N j). lia. }
  assert (W2 : (Z.of_nat (length (span cols (first n rows i) (last n rows i))) <= last n rows i - first n rows i)%Z).
  { pose proof (first_pos n rows N i). pose proof (first_last n rows N i). pose proof (span_length_le cols (first n rows i) (last n rows i)). lia. }
  assert (L : length (map (ravel cols) (square n rows cols i j)) = length (span rows (first n rows j) (last n rows j)) * length (span cols (first n rows i) (last n rows i))).
  { unfold square. now rewrite map_length, list_prod_length. }
  set (w1 := length (span rows _ _)) in *. set (w2 := length (span cols _ _)) in *.
  assert (O : (Z.of_nat w1 = m \/ (exists h, m = 2 * h + 1 /\ 0 <= h) /\ (Z.of_nat w1 = m + 1 \/ Z.of_nat w1 = m - 1))%Z).
  { destruct (width n rows N j) as [W | (Od & _ & W)]; fold m in W; [left; lia | right]. fold m in Od. apply Z.odd_spec in Od. destruct Od as (h & Od).
    split; [exists h; lia | lia]. }
  assert (O2 : (Z.of_nat w2 <= m + 1)%Z) by (destruct (width n rows N i) as [W | (_ & _ & W)]; fold m in W; lia).
  assert (Key : (Z.of_nat w1 * Z.of_nat w2 = m * m)%Z -> Z.of_nat w1 = m /\ (Z.of_nat w2 = m \/ m = 0)%Z).
  { intros E. destruct O as [O | ((h & Oh & Ph) & [O|O])].
    - split; [exact O|]. destruct (Z.eq_dec m 0); [now right | left]. rewrite O in E. nia.
    - exfalso. rewrite O in E. assert (m = Z.of_nat w2 * (m + 1) - m * (m + 1) + m + m)%Z by lia. nia.
    - exfalso. rewrite O in E. destruct (Z.eq_dec m 1) as [->|]; [lia|]. assert (3 <= m)%Z by lia.
      destruct (Z.eq_dec (Z.of_nat w2) (m + 1)) as [E2|E2]; [rewrite E2 in E; nia|]. assert (Z.of_nat w2 <= m)%Z by lia. nia. }
  destruct (Z.eqb_spec (Z.of_nat (length (map (ravel cols) (square n rows cols i j)))) (m * m)) as [E|E].
  - intros [= <-]. split; [reflexivity|]. rewrite L, Nat2Z.inj_mul in E. destruct (Key E) as (K1 & K2).
    split; [lia|]. destruct K2; [left; lia | now right].
  - destruct (map (ravel cols) (square n rows cols i j)) as [|z [|]] eqn:F; try discriminate. exfalso.
    cbn [length] in L, E. symmetry in L. apply Nat.eq_mul_1 in L. destruct L as (L & _).
    destruct (Z.eq_dec m 1) as [M|M]; [rewrite M in E; lia|].
    destruct O as [O | ((h & Oh & Ph) & [O|O])]; lia.
Qed.
Lemma ravel_number cols p : ravel cols p = number cols p. Proof. reflexivity. Qed.

Lemma map_res_Forall2 {A B} (f : A -> res B) l ys : map_res f l = Ok ys -> Forall2 (fun x y => f x = Ok y) l ys.
Proof.
  revert ys. induction l as [|a l IH]; cbn; intros ys H; [injection H as <-; constructor|].
  inv_bind H. inv_bind H. injection H as <-. constructor; [assumption | now apply IH].
Qed.
Lemma map_res_length {A B} (f : A -> res B) l ys : map_res f l = Ok ys -> length ys = length l.
Proof. intros H. apply map_res_Forall2 in H. induction H; cbn; congruence. Qed.
Lemma map_res_nth {A B} (f : A -> res B) l ys : map_res f l = Ok ys -> forall k y, nth_error ys k = Some y -> exists x, nth_error l k = Some x /\ f x = Ok y.
Proof.
  intros H. apply map_res_Forall2 in H. induction H as [|x y l ys E F IH]; intros [|k] z Z; cbn in *; try discriminate.
  - injection Z as <-. eauto.
  - now apply IH.
Qed.
Lemma map_res_in {A B} (f : A -> res B) l ys : map_res f l = Ok ys -> forall y, In y ys -> exists x, In x l /\ f x = Ok y.
Proof.
  intros H y Y. apply In_nth_error in Y. destruct Y as (k & K). destruct (map_res_nth f l ys H k y K) as (x & X & E). exists x. split; [eapply nth_error_In; eauto | exact E].
Qed.
(* order of the selection *)
From Coq Require Import Sorting.Sorted.
Lemma StronglySorted_filter {A} (r : A -> A -> Prop) f l : StronglySorted r l -> StronglySorted r (filter f l).
Proof.
  induction 1 as [|a l S IH F]; cbn; [constructor|]. destruct (f a); [|exact IH]. constructor; [exact IH|].
  rewrite Forall_forall in *. intros x X. apply filter_In in X. now apply F.
Qed.
Lemma StronglySorted_app {A} (r : A -> A -> Prop) l l' : StronglySorted r l -> StronglySorted r l' -> (forall x y, In x l -> In y l' -> r x y) -> StronglySorted r (l ++ l').
Proof.
  induction 1 as [|a l S IH F]; intros S' C; cbn; [exact S'|]. constructor.
  - apply IH; [exact S'|]. intros x y X. apply C. now right.
  - rewrite Forall_forall in *. intros x X. apply in_app_iff in X. destruct X as [X|X]; [now apply F | apply C; [now left | exact X]].
Qed.
Lemma seq_before a n m : StronglySorted before (list_prod (seq a n) (seq 0 m)).
Proof.
  revert a. induction n as [|n IH]; intros a; cbn; [constructor|]. apply StronglySorted_app; [| apply IH |].
  - clear IH. generalize 0 as b. induction m as [|m IHm]; intros b; cbn; [constructor|]. constructor; [apply IHm|].
    apply Forall_forall. intros x X. apply in_map_iff in X. destruct X as (y & <- & Y). apply in_seq in Y. right. cbn. lia.
  - intros (x1, x2) (y1, y2) X Y. apply in_map_iff in X. destruct X as (z & E & _). injection E as <- _.
    apply in_prod_iff in Y. destruct Y as (Y & _). apply in_seq in Y. left. cbn. lia.
Qed.
Lemma selected_sorted n rows cols th img : StronglySorted before (selected n rows cols th img).
Proof. apply StronglySorted_filter, seq_before. Qed.

Lemma top_qmax n rows cols img t : n <> 0 -> is_top n (fun i j => flux img (square n rows cols i j)) t -> qmax (map (spot n rows cols img) (lenslets n)) = t.
Proof.
  intros N ((i & j & I & J & E) & A).
  destruct (qmax_max (map (spot n rows cols img) (lenslets n))) as (M & U).
  { intros X. apply (lenslets_not_nil n N). now apply map_eq_nil in X. }
  apply in_map_iff in M. destruct M as ((i', j') & M & Y). apply lenslets_in in Y. rewrite spot_flux in M. cbn [fst snd] in M.
  apply Qcle_antisym.
  - rewrite <- M. now apply A.
  - rewrite <- E. apply U. apply in_map_iff. exists (i, j). split; [apply spot_flux | now apply lenslets_in].
Qed.
Lemma map_res_all {A B} (f : A -> res B) g l : (forall x, In x l -> f x = Ok (g x)) -> map_res f l = Ok (map g l).
Proof. induction l as [|a l IH]; intros H; [reflexivity|]. cbn. rewrite (H a (or_introl eq_refl)), IH; [reflexivity|]. intros x X. apply H. now right. Qed.

(* the result when all the sub-apertures are full squares *)
Lemma detect_full n rows cols th img sq t : n <> 0 ->
  (forall i j, i < n -> j < n -> square n rows cols i j = sq i j) ->
  (forall i j, i < n -> j < n -> Z.of_nat (length (sq i j)) = (np_sub n rows * np_sub n rows)%Z) ->
  is_top n (fun i j => flux img (sq i j)) t ->
  exists sel, StronglySorted before sel /\
    (forall i j, In (i, j) sel <-> i < n /\ j < n /\ (th * t < flux img (sq i j))%Qc) /\
    detect n rows cols th img = match sel with [] => Err ValueError | _ =>
      Ok (mkSub (map (fun ij => map (number cols) (sq (fst ij) (snd ij))) sel) (map (fun ij => snd ij * n + fst ij) sel) n th) end.
Proof.
  intros N S L T. exists (selected n rows cols th img). split; [apply selected_sorted|].
  assert (T' : is_top n (fun i j => flux img (square n rows cols i j)) t).
  { destruct T as ((i & j & I & J & E) & A). split; [exists i, j; now rewrite S | intros i' j' I' J'; rewrite S by assumption; now apply A]. }
  split.
  - intros i j. rewrite selected_in, (top_qmax _ _ _ _ _ N T'). split; intros (I & J & K); rewrite S in * by assumption; auto.
  - unfold detect. destruct (Nat.eqb_spec n 0); [contradiction|].
    assert (M : map_res (fun ij => assign (np_sub n rows) (map (ravel cols) (square n rows cols (fst ij) (snd ij)))) (selected n rows cols th img) =
      Ok (map (fun ij => map (number cols) (sq (fst ij) (snd ij))) (selected n rows cols th img))).
    { apply map_res_all. intros (i, j) I. apply selected_in in I. destruct I as (I & J & _). cbn [fst snd]. unfold assign. rewrite S by assumption.
      rewrite map_length, (L i j I J), Z.eqb_refl. reflexivity. }
    destruct (selected n rows cols th img); [reflexivity|]. rewrite M. reflexivity.
Qed.
