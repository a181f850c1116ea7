(* C120: plots of values during a simulation, and the printing of values. *)
From Coq Require Import String List Bool Arith ZArith Lia.
From Verif Require Import PyBase PyLemmas NpModel NpSpec NpProofs PlotModel PlotSpec PlotProofs.
Import ListNotations.

(* ---------------------------------------------------------------- the frames of a simulation *)
Section Frames.
Context {V : Type} (v0 : V).
Definition run_plot (histlen : nat) (by_time : bool) (ds : list (list (@datum V) * Z)) : plot :=
  fold_left (trigger v0 by_time) ds (new_plot v0 histlen).
Definition run_vplot (histlen : nat) (k : pick) (most : option nat) (by_time : bool) (ds : list (option (list V) * Z)) : vplot :=
  fold_left (vtrigger v0 histlen k most by_time) ds new_vplot.
Definition numbers (fs : list (list V * Z)) : list (list (@datum V) * Z) := map (fun d => (map Scalar (fst d), snd d)) fs.
Definition vectors (fs : list (list V * Z)) : list (option (list V) * Z) := map (fun d => (Some (fst d), snd d)) fs.
End Frames.

Lemma map_nth_seq : forall (A : Type) (f : nat -> A) k i, i < k -> nth_error (map f (seq 0 k)) i = Some (f i).
Proof.
  intros A f k i H. rewrite nth_error_map. rewrite (nth_error_nth' (seq 0 k) 0) by (rewrite seq_length; lia). cbn. now rewrite seq_nth by lia.
Qed.
Lemma lastn_map : forall (A B : Type) (f : A -> B) n l, lastn n (map f l) = map f (lastn n l).
Proof.
  intros. unfold lastn. rewrite map_length. generalize (length l - n). intros k. revert l. induction k as [|k IH]; intros [|a l]; cbn; auto.
Qed.

(* the last values given and their times are what is drawn, one line for each value *)
Theorem C120_plot : forall (V : Type) (v0 : V) n k fs, 1 <= n -> 1 <= k -> Forall (fun d => length (fst d) = k) fs -> fs <> [] ->
  exists ls, p_lines (run_plot v0 n true (numbers fs)) = Some ls /\ length ls = k /\ p_text (run_plot v0 n true (numbers fs)) = None /\
  forall i, i < k -> nth_error ls i = Some (mkLine (lastn n (map snd fs)) (series v0 i (lastn n (map fst fs))) true).
Proof.
  intros V v0 n k fs Hn Hk F NE. destruct (run_inv v0 n k true fs Hn Hk (or_introl eq_refl) F) as [[E _]|(_ & _ & _ & _ & _ & _ & T & L)]; [congruence|].
  eexists. split; [exact L|]. split; [now rewrite map_length, seq_length|]. split; [exact T|].
  intros i Hi. rewrite (map_nth_seq _ _ k i Hi). reflexivity.
Qed.
Print Assumptions C120_plot.
Example C120_plot_example :
  let p := run_plot 0%Z 2 true (numbers [([1; 2]%Z, 10%Z); ([3; 4]%Z, 20%Z); ([5; 6]%Z, 30%Z)]) in
  p_lines p = Some [mkLine [20; 30]%Z [3; 5]%Z true; mkLine [20; 30]%Z [4; 6]%Z true] /\ p_text p = None.
Proof. now vm_compute. Qed.

(* with iterations as abscissae, these are numbered from 1 *)
Theorem C120_iterations : forall (V : Type) (v0 : V) n k fs, 2 <= n -> 1 <= k -> Forall (fun d => length (fst d) = k) fs -> fs <> [] ->
  exists ls, p_lines (run_plot v0 n false (numbers fs)) = Some ls /\ length ls = k /\ p_text (run_plot v0 n false (numbers fs)) = None /\
  forall i, i < k -> nth_error ls i = Some (mkLine (map Z.of_nat (seq (length fs - n + 1) (Nat.min (length fs) n))) (series v0 i (lastn n (map fst fs))) true).
Proof.
  intros V v0 n k fs Hn Hk F NE. destruct (run_inv v0 n k false fs ltac:(lia) Hk (or_intror Hn) F) as [[E _]|(_ & _ & _ & _ & _ & _ & T & L)]; [congruence|].
  eexists. split; [exact L|]. split; [now rewrite map_length, seq_length|]. split; [exact T|].
  intros i Hi. rewrite (map_nth_seq _ _ k i Hi). f_equal. f_equal.
  unfold stamps. rewrite lastn_map. f_equal. unfold lastn. rewrite seq_length, map_length.
  assert (G : forall d a len, skipn d (seq a len) = seq (a + d) (len - d)).
  { induction d as [|d IH]; intros a len; [now rewrite Nat.add_0_r, Nat.sub_0_r|]. destruct len as [|len]; [reflexivity|]. cbn [seq skipn]. rewrite IH. f_equal; lia. }
  rewrite G. f_equal; lia.
Qed.
Print Assumptions C120_iterations.
Example C120_iterations_example :
  p_lines (run_plot 0%Z 2 false (numbers [([1]%Z, 10%Z); ([3]%Z, 20%Z); ([5]%Z, 30%Z)])) = Some [mkLine [2; 3]%Z [3; 5]%Z true].
Proof. reflexivity. Qed.
(* with a history of one element the number of the iteration stays 1 *)
Theorem C120_iterations_refuted : exists fs : list (list Z * Z),
  length fs = 3 /\ Forall (fun d => length (fst d) = 1) fs /\ p_lines (run_plot 0%Z 1 false (numbers fs)) = Some [mkLine [1]%Z [5]%Z true].
Proof. exists [([1]%Z, 10%Z); ([3]%Z, 20%Z); ([5]%Z, 30%Z)]. split; [reflexivity|]. split; [repeat constructor|reflexivity]. Qed.
Print Assumptions C120_iterations_refuted.

(* when the first frame has no value, or an array in place of the first one, nothing is ever drawn *)
Theorem C120_first_failure : forall (V : Type) (v0 : V) n b data t ds, 1 <= n -> data = [] \/ (exists r, data = Array :: r) ->
  let p := run_plot v0 n b ((data, t) :: ds) in
  (p_lines p = None \/ p_lines p = Some []) /\ exists m, p_text p = Some m.
Proof.
  intros V v0 n b data t ds Hn D. cbv zeta. unfold run_plot. cbn [fold_left].
  destruct (run_blank v0 b ds _ (first_blank v0 n b t data Hn D)) as (L & _ & T & _). split; assumption.
Qed.
Print Assumptions C120_first_failure.
Example C120_first_failure_example :
  let p := run_plot 0%Z 3 true (([Array], 1%Z) :: numbers [([1]%Z, 10%Z); ([3]%Z, 20%Z)]) in p_lines p = Some [] /\ p_text p = Some (Error ValueError).
Proof. now vm_compute. Qed.
(* lines are lost at the first failure, and do not come back *)
Theorem C120_failure_refuted : exists ds : list (list (@datum Z) * Z),
  p_lines (run_plot 0%Z 3 true ds) = Some [mkLine [1; 2; 3]%Z [7; 9]%Z false] /\ ds = [([Scalar 7%Z], 1%Z); ([Array], 2%Z); ([Scalar 9%Z], 3%Z)].
Proof. eexists. split; [|reflexivity]. reflexivity. Qed.
Print Assumptions C120_failure_refuted.
(* values never given are drawn when the number of values changes *)
Theorem C120_width_refuted : exists ds : list (list (@datum Z) * Z),
  p_lines (run_plot 0%Z 3 true ds) = Some [mkLine [1; 2]%Z [0; 8]%Z true; mkLine [1; 2]%Z [0; 9]%Z true] /\ ds = numbers [([7], 1); ([8; 9], 2)]%Z.
Proof. eexists. split; [|reflexivity]. reflexivity. Qed.
Print Assumptions C120_width_refuted.

(* ---------------------------------------------------------------- elements of a vector *)
Theorem C120_vector : forall (V : Type) (v0 : V) n pk most ix k fs, 1 <= n -> plot_indices pk most k = Ok ix -> ix <> [] ->
  Forall (fun d => length (fst d) = k) fs -> fs <> [] ->
  exists ls, v_lines (run_vplot v0 n pk most true (vectors fs)) = Some ls /\ length ls = length ix /\ v_text (run_vplot v0 n pk most true (vectors fs)) = None /\
  forall i e, nth_error ix i = Some e -> nth_error ls i = Some (mkLine (lastn n (map snd fs)) (series v0 e (lastn n (map fst fs))) true).
Proof.
  intros V v0 n pk most ix k fs Hn PI NI F NE. destruct (vrun_inv v0 n pk most ix k true fs Hn (or_introl eq_refl) PI NI F) as [[E _]|(_ & _ & _ & T & L)]; [congruence|].
  eexists. split; [exact L|]. split; [now rewrite map_length, seq_length|]. split; [exact T|].
  intros i e Hi. assert (LI : i < length ix) by (apply nth_error_Some; congruence).
  rewrite (map_nth_seq _ _ (length ix) i LI). now rewrite (nth_error_nth _ _ 0 Hi).
Qed.
Print Assumptions C120_vector.
Example C120_vector_example :
  v_lines (run_vplot 0%Z 2 (Indices [2; 0; 7]%Z) (Some 20) true (vectors [([1; 2; 3]%Z, 10%Z); ([4; 5; 6]%Z, 20%Z); ([7; 8; 9]%Z, 30%Z)]))
  = Some [mkLine [20; 30]%Z [6; 9]%Z true; mkLine [20; 30]%Z [4; 7]%Z true].
Proof. reflexivity. Qed.

(* which elements: those asked for that exist, in the order asked for, up to the limit *)
Theorem C120_elements : forall pk most n ix, plot_indices pk most n = Ok ix ->
  Forall (fun i => i < n) ix /\ (forall m, most = Some m -> length ix <= m) /\
  exists all, ix = firstn (match most with Some m => m | None => length all end) all /\
    match pk with
    | All => all = seq 0 n
    | Indices l => map Z.of_nat all = filter (fun i => (0 <=? i)%Z && (i <? Z.of_nat n)%Z) l
    | Sliced s => slice_selects s (Z.of_nat n) (map Z.of_nat all)
    end.
Proof.
  intros pk most n ix H. unfold plot_indices in H. inv_bind H. rename a into x, E into Hm.
  assert (A : Forall (fun i => i < n) x /\ match pk with
    | All => x = seq 0 n
    | Indices l => map Z.of_nat x = filter (fun i => (0 <=? i)%Z && (i <? Z.of_nat n)%Z) l
    | Sliced s => slice_selects s (Z.of_nat n) (map Z.of_nat x)
    end).
  { destruct pk as [|l|s].
    - injection Hm as <-. split; [|reflexivity]. apply Forall_forall. intros i Hi. apply in_seq in Hi. lia.
    - injection Hm as <-. split.
      + apply Forall_forall. intros i Hi. apply in_map_iff in Hi. destruct Hi as [z [<- Hz]]. apply filter_In in Hz. destruct Hz as [_ Hz]. apply andb_true_iff in Hz. lia.
      + rewrite map_map. rewrite <- (map_id (filter _ l)) at 2. apply map_ext_in. intros z Hz. apply filter_In in Hz. destruct Hz as [_ Hz]. apply andb_true_iff in Hz. lia.
    - inv_bind Hm. rename a into x0, E into Hm0. injection Hm as <-. destruct (slice_pos_ok s (Z.of_nat n) x0 ltac:(lia) Hm0) as [S B]. split.
      + apply Forall_forall. intros i Hi. apply in_map_iff in Hi. destruct Hi as [z [<- Hz]]. specialize (B z Hz). lia.
      + rewrite map_map. replace (map (fun z => Z.of_nat (Z.to_nat z)) x0) with x0; [exact S|].
        rewrite <- (map_id x0) at 1. apply map_ext_in. intros z Hz. specialize (B z Hz). lia. }
  destruct A as [A1 A2]. injection H as <-. split; [|split].
  - destruct most as [m|]; [|exact A1]. rewrite Forall_forall in *. intros i Hi. apply A1. rewrite <- (firstn_skipn m x). apply in_or_app. now left.
  - intros m ->. rewrite firstn_length. lia.
  - exists x. split; [|exact A2]. destruct most; [reflexivity|]. symmetry. apply firstn_all.
Qed.
Print Assumptions C120_elements.
Example C120_elements_example : plot_indices (Sliced (mkSlice None None (Some (-2)%Z))) (Some 2) 7 = Ok [6; 4].
Proof. reflexivity. Qed.
(* indices and a slice exclude each other *)
Theorem C120_choice : forall indices slice_args,
  (forall l a, indices = Some l -> slice_args = Some a -> make_pick indices slice_args = Err ValueError) /\
  (indices = None -> slice_args = Some [] -> make_pick indices slice_args = Err ValueError) /\
  (forall l, indices = Some l -> slice_args = None -> make_pick indices slice_args = Ok (Indices l)) /\
  (indices = None -> slice_args = None -> make_pick indices slice_args = Ok All) /\
  (forall a b c, indices = None -> slice_args = Some [a; b; c] -> make_pick indices slice_args = Ok (Sliced (mkSlice a b c))) /\
  (forall a b, indices = None -> slice_args = Some [a; b] -> make_pick indices slice_args = Ok (Sliced (mkSlice a b None))) /\
  (forall b, indices = None -> slice_args = Some [b] -> make_pick indices slice_args = Ok (Sliced (mkSlice None b None))).
Proof. intros. repeat split; intros; subst; reflexivity. Qed.
Print Assumptions C120_choice.
Example C120_choice_example : make_pick (Some [1%Z]) (Some []) = Err ValueError /\ make_pick None (Some [Some 5%Z]) = Ok (Sliced (mkSlice None (Some 5%Z) None)).
Proof. split; reflexivity. Qed.
(* a vector of another size is refused with a message: the history stays as it was *)
Theorem C120_size : forall (V : Type) (v0 : V) n pk most b p w rows vec t, v_rows p = Some (w, rows) -> length vec <> w ->
  let q := vtrigger v0 n pk most b p (Some vec, t) in
  v_rows q = v_rows p /\ v_count q = v_count p /\ v_times q = v_times p /\ v_text q = Some (Error ValueError) /\
  forall ls l, v_lines q = Some ls -> In l ls -> l_on l = false.
Proof.
  intros V v0 n pk most b p w rows vec t E NE. unfold vtrigger. cbn [fst snd]. rewrite E.
  destruct (Nat.eqb_spec w (length vec)); [congruence|]. cbn. repeat split; auto.
  intros ls l H I. destruct (v_lines p); cbn in H; [|discriminate]. injection H as <-. apply in_map_iff in I. destruct I as [l' [<- _]]. reflexivity.
Qed.
Print Assumptions C120_size.
Example C120_size_example :
  let q := run_vplot 0%Z 2 All None true (vectors [([1]%Z, 10%Z); ([4; 5]%Z, 20%Z)]) in v_text q = Some (Error ValueError) /\ v_rows q = Some (1, [[1]; [0]]%Z).
Proof. now vm_compute. Qed.

(* ---------------------------------------------------------------- history of a number *)
Fixpoint histories {V} (st : list V * nat) (vs : list V) : res (list (list nat * list V)) :=
  match vs with [] => Ok [] | v :: r => x <- plot_history st v ;; l <- histories (fst x) r ;; Ok (snd x :: l) end.
Theorem C120_history : forall (V : Type) (v0 : V) n vs, 1 <= n ->
  exists out, histories (repeat v0 n, 0) vs = Ok out /\ length out = length vs /\
  forall i, i < length vs -> nth_error out i = Some (seq 0 (Nat.min (S i) n), lastn n (firstn (S i) vs)).
Proof.
  intros V v0 n vs Hn.
  assert (G : forall (vs past : list V) st, holds n (fst st) (snd st) past -> exists out, histories st vs = Ok out /\ length out = length vs /\
    forall i, i < length vs -> nth_error out i = Some (seq 0 (Nat.min (S (length past + i)) n), lastn n (past ++ firstn (S i) vs))).
  { clear vs. induction vs as [|v vs IH]; intros past st H.
    - exists []. split; [reflexivity|]. split; [reflexivity|]. intros i Hi. cbn in Hi. lia.
    - destruct (history_inv n past st v Hn H) as [st' [E H']]. destruct (IH (past ++ [v]) st' H') as [out [Eo [L N]]].
      eexists. cbn [histories]. rewrite E. cbn [bind fst snd]. rewrite Eo. split; [reflexivity|]. split; [cbn; now rewrite L|].
      intros [|i] Hi; cbn [nth_error].
      + rewrite Nat.add_0_r. reflexivity.
      + cbn [length] in Hi. rewrite N by lia. rewrite app_length. cbn [length]. rewrite <- app_assoc. cbn [app]. do 4 f_equal. lia. }
  destruct (G vs [] (repeat v0 n, 0)) as [out R].
  - split; [apply repeat_length|]. split; reflexivity.
  - exists out. exact R.
Qed.
Print Assumptions C120_history.
(* without room for one value the first value is refused *)
Theorem C120_no_history : forall (V : Type) c (v : V) r, histories ([], c) (v :: r) = Err IndexError.
Proof. reflexivity. Qed.
Print Assumptions C120_no_history.
Example C120_history_example : histories (repeat 0%Z 2, 0) [5; 6; 7]%Z = Ok [([0], [5]%Z); ([0; 1], [5; 6]%Z); ([0; 1], [6; 7]%Z)].
Proof. reflexivity. Qed.

(* ---------------------------------------------------------------- printing *)
Local Open Scope Z_scope.
(* the first time is printed; then times at least dt apart; one that is not printed comes less than dt after the last printed *)
Theorem C120_print : forall dt ts,
  (forall t r, ts = t :: r -> 0 <= t -> exists l, printed dt (print_start dt) ts = t :: l) /\
  (forall a u v b, printed dt (print_start dt) ts = (a ++ u :: v :: b)%list -> dt <= v - u) /\
  (forall t, In t (printed dt (print_start dt) ts) -> In t ts) /\
  (forall a t b, ts = (a ++ t :: b)%list -> let last := List.last (printed dt (print_start dt) a) (- dt) in
     exists l, printed dt (print_start dt) ts = (printed dt (print_start dt) a ++ (if dt <=? t - last then [t] else []) ++ l)%list).
Proof.
  intros dt ts. split; [|split; [|split]].
  - intros t r -> Ht. cbn. unfold print_step, print_start. destruct (Z.leb_spec dt (t - - dt)); [now eexists|lia].
  - intros a u v b. apply printed_spaced.
  - intros t. apply printed_in.
  - intros a t b ->. cbv zeta. rewrite printed_skipped. cbn [printed]. unfold print_step. destruct (dt <=? t - _); now eexists.
Qed.
Print Assumptions C120_print.
Example C120_print_example : printed 10 (print_start 10) [0; 4; 9; 12; 20; 22; 40] = [0; 12; 22; 40].
Proof. reflexivity. Qed.
(* triggers every p and printing every m p: one trigger out of m *)
Theorem C120_print_regular : forall (m q : nat) p, (1 <= m)%nat -> 0 < p ->
  printed (Z.of_nat m * p) (print_start (Z.of_nat m * p)) (map (fun i => Z.of_nat i * p) (seq 0 (q * m))) = map (fun j => Z.of_nat j * (Z.of_nat m * p)) (seq 0 q).
Proof. intros m q p Hm Hp. exact (printed_regular m p q 0 _ Hm Hp eq_refl). Qed.
Print Assumptions C120_print_regular.
Example C120_print_regular_example : printed 30 (print_start 30) [0; 10; 20; 30; 40; 50] = [0; 30].
Proof. reflexivity. Qed.
(* all the values selected of a vector; of a larger array, the first ten, and dots exactly when there are more *)
Theorem C120_print_values : forall (A : Type) (data : list A) s,
  (shown_values [] data s = Ok ([], data, false)) /\
  (forall sh l dots, shown_values [length data] data s = Ok (sh, l, dots) -> take_slice data s = Ok l /\ sh = [length l] /\ dots = false) /\
  (forall n d rest sh l dots, shown_values (n :: d :: rest) data s = Ok (sh, l, dots) ->
     exists ps, slice_selects s (Z.of_nat n) ps /\ sh = length ps :: d :: rest /\
     let size := fold_right Nat.mul 1%nat (d :: rest) in
     let sel := concat (map (fun i => firstn size (skipn (Z.to_nat i * size) data)) ps) in
     l = firstn 10 sel /\ (dots = true <-> (10 < length sel)%nat)).
Proof.
  intros A data s. split; [reflexivity|]. split.
  - intros sh l dots H. unfold shown_values in H. inv_bind H. rename a into ps, E into Hm. injection H as <- <- <-.
    destruct (slice_pos_ok s (Z.of_nat (length data)) ps ltac:(lia) Hm) as [_ B].
    unfold take_slice, zlen. rewrite Hm. cbn [bind].
    assert (G : gather data ps = Ok (flat_map (fun i => chunk 1 data (Z.to_nat i)) ps) /\ length (flat_map (fun i => chunk 1 data (Z.to_nat i)) ps) = length ps).
    { unfold gather. clear Hm. induction ps as [|p ps IH]; [split; reflexivity|].
      assert (Hp : 0 <= p < Z.of_nat (length data)) by (apply B; now left).
      destruct (IH (fun q Hq => B q (or_intror Hq))) as [IH1 IH2]. cbn [map_res flat_map]. unfold at_pos at 1.
      destruct (nth_error data (Z.to_nat p)) as [v|] eqn:N.
      - assert (C : chunk 1 data (Z.to_nat p) = [v]).
        { unfold chunk. rewrite Nat.mul_1_r. apply nth_error_split in N. destruct N as [l1 [l2 [-> L]]].
          rewrite <- L. rewrite skipn_app, skipn_all, Nat.sub_diag. reflexivity. }
        rewrite C. cbn [bind]. rewrite IH1. cbn [bind]. split; [reflexivity|]. cbn [app length]. f_equal. exact IH2.
      - apply nth_error_None in N. lia. }
    cbn [fold_right]. destruct G as [G1 G2]. rewrite G1, G2. auto.
  - intros n d rest sh l dots H. unfold shown_values in H. inv_bind H. cbv zeta in H.
    exists a. split; [apply (slice_pos_ok s (Z.of_nat n) a ltac:(lia) E)|].
    rewrite flat_map_concat_map in H.
    assert (Hs : sh = length a :: d :: rest) by congruence. split; [exact Hs|]. cbv zeta.
    remember (concat (map (fun i => firstn (fold_right Nat.mul 1%nat (d :: rest)) (skipn (Z.to_nat i * fold_right Nat.mul 1%nat (d :: rest)) data)) a)) as sel eqn:ES.
    unfold chunk in H. rewrite <- ES in H.
    assert (Hl : l = firstn 10 sel) by congruence. assert (Hd : dots = (10 <? length sel)%nat) by congruence.
    split; [exact Hl|]. rewrite Hd. apply Nat.ltb_lt.
Qed.
Print Assumptions C120_print_values.
Example C120_print_values_example :
  shown_values [3%nat; 5%nat] [1; 2; 3; 4; 5; 6; 7; 8; 9; 10; 11; 12; 13; 14; 15] (mkSlice (Some 1) None None) = Ok ([2%nat; 5%nat], [6; 7; 8; 9; 10; 11; 12; 13; 14; 15], false)
  /\ shown_values [3%nat; 5%nat] [1; 2; 3; 4; 5; 6; 7; 8; 9; 10; 11; 12; 13; 14; 15] (mkSlice None None None) = Ok ([3%nat; 5%nat], [1; 2; 3; 4; 5; 6; 7; 8; 9; 10], true).
Proof. split; reflexivity. Qed.
