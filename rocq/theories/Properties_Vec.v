(* C47-C50: slicing, inserting, element-wise operations and combination of commands. *)
From Coq Require Import List ZArith Bool Lia PeanoNat QArith Qcanon.
From Verif Require Import PyBase Arith ArithLemmas NpModel NpSpec NpProofs NpSegments VecModel VecSpec VecProofs VecProofs2 Properties_Filter.
Import ListNotations.

(* ------------------------------------------------------------------------- C47 *)
Local Open Scope Z_scope.

(* a slice: the output shows exactly the elements start + i*step before stop *)
Theorem C47_slice : forall V args (value : list V) s, slice_of_args args = Ok s -> sl_step s <> Some 0 ->
  slicer_select None (Some args) = Ok (SelSlice s) /\
  exists o ps out, slicer_trigger (SelSlice s) value = Ok o /\ read_sliced o value = Ok out /\
    slice_selects s (zlen value) ps /\ elements_at value ps out.
Proof.
  intros V args value s E Hs. split; [unfold slicer_select; now rewrite E|].
  destruct (slicer_slice s value Hs) as (ps & out & H). exists (View ps), ps, out. exact H.
Qed.
Print Assumptions C47_slice.

(* a list of indices: the elements in the listed order; negative indices count from the
   end, others out of range raise IndexError *)
Theorem C47_indices : forall V is (value : list V),
  ((forall i, In i is -> - zlen value <= i < zlen value) ->
     exists ps out, slicer_trigger (SelList is) value = Ok (Own out) /\ Forall2 (denotes (zlen value)) is ps /\ elements_at value ps out) /\
  (forall i, In i is -> ~ (- zlen value <= i < zlen value) -> slicer_trigger (SelList is) value = Err IndexError).
Proof. intros V is value. split; [apply slicer_list|apply slicer_list_err]. Qed.
Print Assumptions C47_indices.

Theorem C47_one_index : forall V i (value : list V),
  (forall p, denotes (zlen value) i p -> exists v, nth_error value (Z.to_nat p) = Some v /\ slicer_trigger (SelInt i) value = Ok (Scalar v)) /\
  (~ (exists p, denotes (zlen value) i p) -> slicer_trigger (SelInt i) value = Err IndexError).
Proof. intros. apply slicer_int. Qed.
Print Assumptions C47_one_index.

Theorem C47_both_arguments : forall V (zero : V) i a, slicer_init zero (Some i) (Some a) = Err ValueError.
Proof. intros V zero [i|is] a; reflexivity. Qed.
Print Assumptions C47_both_arguments.

(* the length of the output before the first trigger is that of all later outputs, when
   the slice lies within the input *)
Theorem C47_declared_length : forall V (zero : V) (value : list V) a b k o ps,
  0 <= a <= b -> b <= zlen value -> 0 < match k with Some k => k | None => 1 end ->
  slicer_initial zero (SelSlice (mkSlice (Some a) (Some b) k)) = Ok o ->
  slice_selects (mkSlice (Some a) (Some b) k) (zlen value) ps -> length ps = length o.
Proof. intros. eapply slicer_declared; eauto. Qed.
Print Assumptions C47_declared_length.

(* it is not otherwise: a stop beyond the input, a negative step *)
Theorem C47_declared_length_refuted :
  (exists s o ps, slicer_initial 0 (SelSlice s) = Ok o /\ slice_selects s (zlen [1; 2; 3]) ps /\ length o = 5%nat /\ length ps = 3%nat) /\
  (exists s o ps, sl_step s = Some (-1) /\ slicer_initial 0 (SelSlice s) = Ok o /\
     slice_selects s (zlen [1; 2; 3; 4; 5; 6]) ps /\ length o = 7%nat /\ length ps = 5%nat).
Proof.
  split.
  - exists (mkSlice (Some 0) (Some 5) None). eexists. exists [0; 1; 2]. split; [reflexivity|]. split; [|split; reflexivity].
    apply slice_pos_iff; [apply zlen_nonneg|]. reflexivity.
  - exists (mkSlice (Some 5) (Some 0) (Some (-1))). eexists. exists [5; 4; 3; 2; 1]. split; [reflexivity|]. split; [reflexivity|]. split; [|split; reflexivity].
    apply slice_pos_iff; [apply zlen_nonneg|]. reflexivity.
Qed.
Print Assumptions C47_declared_length_refuted.

(* outputs of index lists and of the copy are snapshots, those of slices are views: they
   change when the input array is overwritten *)
Theorem C47_snapshot : forall V sel (value value' : list V) o,
  slicer_trigger sel value = Ok o -> (forall s, sel <> SelSlice s) -> read_sliced o value' = read_sliced o value.
Proof.
  intros V sel value value' o H N. destruct sel; cbn [slicer_trigger] in H.
  - injection H as <-. reflexivity.
  - destruct (take1 value i); [|discriminate]. injection H as <-. reflexivity.
  - destruct (take_list value is); [|discriminate]. injection H as <-. reflexivity.
  - exfalso. now apply (N s).
Qed.
Print Assumptions C47_snapshot.
Theorem C47_snapshot_refuted : exists s (value value' : list Z) o,
  slicer_trigger (SelSlice s) value = Ok o /\ length value' = length value /\ read_sliced o value' <> read_sliced o value.
Proof.
  exists (mkSlice (Some 1) (Some 3) None), [10; 11; 12], [20; 21; 22], (View [1; 2]).
  split; [reflexivity|]. split; [reflexivity|]. vm_compute. discriminate.
Qed.
Print Assumptions C47_snapshot_refuted.

Example C47_example :
  let v := [10; 11; 12; 13; 14; 15; 16] in
  let get a := match slice_of_args a with Ok s => o <- slicer_trigger (SelSlice s) v ;; read_sliced o v | Err e => Err e end in
  get [Some 1; Some 6; Some 2] = Ok [11; 13; 15] /\ get [None; None; Some (-3)] = Ok [16; 13; 10] /\
  get [Some (-3); Some 100] = Ok [14; 15; 16] /\ get [Some 0; Some 3; Some 0] = Err ValueError /\
  slicer_trigger (SelList [6; -1; 0]) v = Ok (Own [16; 16; 10]) /\ slicer_trigger (SelInt (-8)) v = Err IndexError /\
  slicer_init 0 None (Some [Some 1; Some 6; Some 2]) = Ok (SelSlice (mkSlice (Some 1) (Some 6) (Some 2)), [0; 0; 0]).
Proof. vm_compute. repeat split; reflexivity. Qed.

(* ------------------------------------------------------------------------- C48 *)

(* exactly one of the two arguments *)
Theorem C48_arguments : forall i s,
  inserter_pairs (Some i) (Some s) = Err ValueError /\ inserter_pairs None None = Err ValueError.
Proof. split; reflexivity. Qed.
Print Assumptions C48_arguments.

(* positions named by no pair stay zero for ever *)
Theorem C48_rest_is_zero : forall V (zero : V) ps n ins out q, inserter_run zero ps n ins = Ok out ->
  0 <= q < Z.of_nat n -> (forall p ds, In p ps -> dest_places p (Z.of_nat n) ds -> ~ In q ds) ->
  nth_error out (Z.to_nat q) = Some zero.
Proof. intros. eapply inserter_uncovered; eauto. Qed.
Print Assumptions C48_rest_is_zero.

(* after a trigger, a position named by a pair holds the element of the latest input that
   the last pair naming it assigns to it *)
Theorem C48_inserted : forall V (zero : V) ps1 p ps2 n ins small out ss ds j q,
  inserter_run zero (ps1 ++ p :: ps2) n (ins ++ [small]) = Ok out ->
  src_places p (zlen small) ss -> dest_places p (Z.of_nat n) ds ->
  nth_error ds j = Some q -> (forall i, (j < i)%nat -> nth_error ds i <> Some q) ->
  (forall p' ds', In p' ps2 -> dest_places p' (Z.of_nat n) ds' -> ~ In q ds') ->
  exists s v, source_of ss j = Some s /\ nth_error small (Z.to_nat s) = Some v /\ nth_error out (Z.to_nat q) = Some v.
Proof.
  intros V zero ps1 p ps2 n ins small out ss ds j q H1 H2 H3 H4 H5 H6.
  destruct (inserter_covered zero ps1 p ps2 n ins small out ss ds j q H1 H2 H3 H4 H5 H6) as (s & E & N & Q).
  destruct (nth_error small (Z.to_nat s)) as [v|] eqn:Ev; [|congruence]. exists s, v. auto.
Qed.
Print Assumptions C48_inserted.

(* a trigger is accepted exactly when all positions exist and the numbers of elements agree
   (or a single element is inserted in several places) *)
Theorem C48_accepted : forall V ps small (out : list V),
  (exists out', inserter_trigger ps out small = Ok out') <->
  (forall p, In p ps -> exists ss ds, src_places p (zlen small) ss /\ dest_places p (zlen out) ds /\ (length ss = length ds \/ length ss = 1%nat)).
Proof. intros. apply inserter_accepts. Qed.
Print Assumptions C48_accepted.

Theorem C48_size : forall V (zero : V) ps n ins out, inserter_run zero ps n ins = Ok out -> length out = n.
Proof. intros V zero ps n ins out H. apply run_length in H. rewrite H. unfold inserter_initial. apply repeat_length. Qed.
Print Assumptions C48_size.

Example C48_example :
  let sl a b := mkSlice (Some a) (Some b) None in
  let two := [PairSlice (sl 0 2) (sl 0 2); PairSlice (sl 2 4) (sl 5 7)] in
  inserter_pairs None (Some [([Some 0; Some 2], [Some 0; Some 2]); ([Some 2; Some 4], [Some 5; Some 7])]) = Ok two /\
  inserter_run 0 two 8 [[1; 2; 3; 4]; [5; 6; 7; 8]] = Ok [5; 6; 0; 0; 0; 7; 8; 0] /\
  (* overlapping pairs: the later one wins; one element in three places *)
  inserter_run 0 [PairIdx [0; 1; 2] [1; 3; -1]; PairIdx [3] [3; 4; 4]] 6 [[1; 2; 3; 4]] = Ok [0; 1; 0; 4; 4; 3] /\
  inserter_run 0 two 8 [[1; 2; 3]] = Ok [1; 2; 0; 0; 0; 3; 3; 0] /\
  inserter_run 0 [PairSlice (sl 0 4) (sl 0 3)] 8 [[1; 2; 3; 4]] = Err ValueError.
Proof. vm_compute. repeat split; reflexivity. Qed.

(* ------------------------------------------------------------------------- C49 *)
Local Open Scope nat_scope.

(* two vectors of equal size *)
Theorem C49_same_size : forall A mx mn junk (c : op_cfg A) a b st ins v1 w st',
  no_consts c -> two_inputs (o_op c) -> o_layout c = Same -> op_setup junk c a (Some b) = Ok st ->
  (forall i, In i (ins ++ [(v1, Some w)]) -> length (fst i) = length a /\ exists x, snd i = Some x /\ length x = length a) ->
  op_run mx mn c st (ins ++ [(v1, Some w)]) = Ok st' -> os_out st' = map2 (op_result (o_op c)) v1 w.
Proof. intros. eapply op_same; eauto. Qed.
Print Assumptions C49_same_size.

(* a shorter second vector, always of the same size: missing elements are 1 for the
   division and 0 for the other operations, at every step *)
Theorem C49_shorter : forall A mx mn junk (c : op_cfg A) a b st ins v1 w m st',
  no_consts c -> two_inputs (o_op c) -> o_layout c = Shorter -> op_setup junk c a (Some b) = Ok st -> m <= length a ->
  (forall i, In i (ins ++ [(v1, Some w)]) -> length (fst i) = length a /\ exists x, snd i = Some x /\ length x = m) ->
  op_run mx mn c st (ins ++ [(v1, Some w)]) = Ok st' ->
  os_out st' = map2 (op_result (o_op c)) v1 (w ++ repeat (filler (o_op c)) (length a - m)).
Proof. intros. eapply op_shorter; eauto. Qed.
Print Assumptions C49_shorter.

(* the filling is neutral for division, sum and subtraction *)
Theorem C49_neutral : forall A mx mn junk (c : op_cfg A) a b st ins v1 w m st' i, is_field A ->
  no_consts c -> (o_op c = OpDiv \/ o_op c = OpSum \/ o_op c = OpSub) -> o_layout c = Shorter ->
  op_setup junk c a (Some b) = Ok st -> m <= length a ->
  (forall i, In i (ins ++ [(v1, Some w)]) -> length (fst i) = length a /\ exists x, snd i = Some x /\ length x = m) ->
  op_run mx mn c st (ins ++ [(v1, Some w)]) = Ok st' -> m <= i < length a ->
  nth i (os_out st') zer = nth i v1 zer.
Proof.
  intros A mx mn junk c a b st ins v1 w m st' i HF N O L S Hm H R Hi.
  assert (T : two_inputs (o_op c)) by (unfold two_inputs; tauto).
  rewrite (op_shorter mx mn junk c a b st ins v1 w m st' N T L S Hm H R).
  destruct (H (v1, Some w) ltac:(apply in_or_app; right; now left)) as (L1 & x & Ex & Lx). cbn in L1, Ex. injection Ex as <-.
  rewrite (map2_nth _ _ _ i zer (filler (o_op c)) zer); [|lia|rewrite app_length, repeat_length; lia].
  rewrite app_nth2 by lia. rewrite nth_repeat_same.
  destruct HF as [[? ? ? ? ? ? ? Hsub Hopp] ? Hdiv Hinv].
  assert (O1 : opp zer = @zer A). { rewrite <- (Radd_0_l (opp zer)). apply Hopp. }
  assert (I1 : inv one = @one A).
  { rewrite <- (Rmul_1_l (inv one)). rewrite Rmul_comm. apply Hinv. intros Q. now apply F_1_neq_0. }
  destruct O as [-> | [-> | ->]]; cbn [op_result filler].
  - rewrite Hdiv, I1, Rmul_comm. apply Rmul_1_l.
  - rewrite Radd_comm. apply Radd_0_l.
  - rewrite Hsub, O1, Radd_comm. apply Radd_0_l.
Qed.
Print Assumptions C49_neutral.

(* it is not for the multiplication: elements without a partner become zero *)
Theorem C49_neutral_mul_refuted : exists (c : op_cfg qc) st st' v1 w,
  no_consts c /\ o_op c = OpMul /\ o_layout c = Shorter /\ op_setup zer c v1 (Some w) = Ok st /\
  op_run add add c st [(v1, Some w)] = Ok st' /\ map this (os_out st') <> map this v1 /\
  map this (os_out st') = map this [qi 10; qi 0].
Proof.
  exists (op_init None None None None None None true false false false false true None), (mkOpSt [qi 0; qi 0] [qi 0; qi 0]).
  eexists. exists [qi 5; qi 7], [qi 2]. split; [repeat split|]. split; [reflexivity|]. split; [reflexivity|]. split; [reflexivity|].
  split; [reflexivity|]. split; [vm_compute; discriminate|reflexivity].
Qed.
Print Assumptions C49_neutral_mul_refuted.

(* and if the size of the second vector varies, elements of earlier steps are used again *)
Theorem C49_stale_refuted : exists (c : op_cfg qc) st st',
  no_consts c /\ o_op c = OpSum /\ o_layout c = Shorter /\ op_setup zer c [qi 1; qi 1; qi 1] (Some [qi 0]) = Ok st /\
  op_run add add c st [([qi 1; qi 1; qi 1], Some [qi 5; qi 6; qi 7]); ([qi 1; qi 1; qi 1], Some [qi 2])] = Ok st' /\
  map this (os_out st') = map this [qi 3; qi 7; qi 8].
Proof.
  exists (op_init None None None None None None false false true false false true None). eexists. eexists.
  split; [repeat split|]. split; [reflexivity|]. split; [reflexivity|]. split; [reflexivity|]. split; [reflexivity|reflexivity].
Qed.
Print Assumptions C49_stale_refuted.

(* second vector with a list of positions *)
Theorem C49_remapped : forall A mx mn junk (c : op_cfg A) a b st ins v1 w is ps st',
  no_consts c -> two_inputs (o_op c) -> o_layout c = Remap is -> Forall2 (denotes (zlen a)) is ps ->
  op_setup junk c a (Some b) = Ok st ->
  (forall i, In i (ins ++ [(v1, Some w)]) -> length (fst i) = length a /\ exists x, snd i = Some x /\ length x = length is) ->
  op_run mx mn c st (ins ++ [(v1, Some w)]) = Ok st' ->
  (forall q x, (0 <= q)%Z -> nth_error v1 (Z.to_nat q) = Some x -> ~ In q ps ->
     nth_error (os_out st') (Z.to_nat q) = Some (op_result (o_op c) x (filler (o_op c)))) /\
  (forall q x j y, nth_error v1 (Z.to_nat q) = Some x -> nth_error ps j = Some q -> (forall i, j < i -> nth_error ps i <> Some q) ->
     nth_error w j = Some y -> nth_error (os_out st') (Z.to_nat q) = Some (op_result (o_op c) x y)).
Proof. intros. eapply op_remap; eauto. Qed.
Print Assumptions C49_remapped.

Theorem C49_concat : forall A mx mn junk (c : op_cfg A) a b st ins v1 w st',
  no_consts c -> o_op c = OpConcat -> op_setup junk c a (Some b) = Ok st ->
  (forall i, In i (ins ++ [(v1, Some w)]) -> length (fst i) = length a /\ exists x, snd i = Some x /\ length x = length b) ->
  op_run mx mn c st (ins ++ [(v1, Some w)]) = Ok st' -> os_out st' = v1 ++ w.
Proof. intros. eapply op_concat; eauto. Qed.
Print Assumptions C49_concat.

(* constants: division and subtraction are stored as multiplication and sum; at most one
   constant is used, in the order product, sum, maximum, minimum, and a second vector is
   ignored when there is a constant *)
Theorem C49_constants : forall A mx mn (c : op_cfg A) st v1 v2, length (os_out st) = length v1 ->
  let out k := exists s, op_trigger mx mn c st v1 v2 = Ok s /\ os_out s = k in
  (forall k, o_cmul c = Some (CScalar k) -> out (map (fun x => mul x k) v1)) /\
  (forall k, o_cmul c = Some (CVec k) -> length k = length v1 -> out (map2 mul v1 k)) /\
  (forall k, o_cmul c = None -> o_csum c = Some (CScalar k) -> out (map (fun x => add x k) v1)) /\
  (forall k, o_cmul c = None -> o_csum c = Some (CVec k) -> length k = length v1 -> out (map2 add v1 k)) /\
  (forall k, o_cmul c = None -> o_csum c = None -> o_cmax c = Some k -> out (map (fun x => mx x k) v1)) /\
  (forall k, o_cmul c = None -> o_csum c = None -> o_cmax c = None -> o_cmin c = Some k -> out (map (fun x => mn x k) v1)).
Proof. intros. now apply op_constant. Qed.
Print Assumptions C49_constants.

(* in exact arithmetic constant_div divides and constant_sub subtracts *)
Theorem C49_div_sub : forall (A : arith) (k x : A) m s p q f1 f2 f3 f4 f5 sh re, is_field A ->
  (let c := op_init m (Some (CScalar k)) s None p q f1 f2 f3 f4 f5 sh re in
   exists k', o_cmul c = Some (CScalar k') /\ mul x k' = dvd x k) /\
  (let c := op_init m None s (Some (CScalar k)) p q f1 f2 f3 f4 f5 sh re in
   exists k', o_csum c = Some (CScalar k') /\ add x k' = sub x k).
Proof.
  intros A k x m s p q f1 f2 f3 f4 f5 sh re HF. destruct HF as [[? ? ? ? ? ? ? Hsub Hopp] ? Hdiv Hinv].
  split; eexists; (split; [reflexivity|]).
  - now rewrite !Hdiv, Rmul_1_l.
  - now rewrite Hsub.
Qed.
Print Assumptions C49_div_sub.

Definition op_show (r : res (op_state qc)) := match r with Ok s => Some (map this (os_out s)) | Err _ => None end.
Definition op_go (c : op_cfg qc) (v1 : vec qc) (v2 : option (vec qc)) ins :=
  op_show (s <- op_setup zer c v1 v2 ;; op_run add add c s ins).
Example C49_example :
  let v := [qi 6; qi 9; qi 4] in
  let init := op_init (A := qc) None None None None None None in
  (* division by a shorter vector, twice *)
  op_go (init false true false false false true None) v (Some [qi 2]) [(v, Some [qi 3]); (v, Some [qi 2])] = Some (map this [qi 3; qi 9; qi 4]) /\
  (* subtraction at remapped positions *)
  op_go (init false false false true false false (Some [2; 0]%Z)) v (Some [qi 1; qi 2]) [(v, Some [qi 1; qi 2])] = Some (map this [qi 4; qi 9; qi 3]) /\
  op_go (init false false false false true false None) v (Some [qi 1]) [(v, Some [qi 8])] = Some (map this (v ++ [qi 8])) /\
  (* product and sum constants: only the product is applied *)
  op_go (op_init (Some (CScalar (qi 2))) None (Some (CScalar (qi 100))) None None None false false false false false false None) v None [(v, None)]
    = Some (map this [qi 12; qi 18; qi 8]) /\
  op_go (init true false false false false false None) v None [] = None.
Proof. vm_compute. repeat split; reflexivity. Qed.

(* ------------------------------------------------------------------------- C50 *)

(* mirror commands: low orders, focus and high orders of the first mirror, plus the third
   chunk of low orders scaled by k after the first one, plus the projection of the P
   commands; the second chunk of high orders; the third chunks of low and high orders *)
Theorem C50_combinator : forall A (c : comb_cfg A) l1 l3 f n1 n2 n3 p o1 o2 o3 (lo1 lo3 ho1 ho2 ho3 xF xP : vec A),
  cc_LO1 c = Z.of_nat l1 -> cc_LO2 c = 0%Z -> cc_LO3 c = Z.of_nat l3 -> cc_F c = Z.of_nat f -> cc_P c = Z.of_nat p ->
  cc_out1 c = Z.of_nat n1 -> cc_out2 c = Z.of_nat n2 -> cc_out3 c = Z.of_nat n3 ->
  length o1 = n1 -> length o2 = n2 -> length o3 = n3 -> l1 + f <= n1 -> l1 + l3 <= n1 -> l3 <= n3 ->
  length lo1 = l1 -> length lo3 = l3 -> length xF = f -> length xP = p -> length (cc_k c) = l3 ->
  length ho1 = n1 - l1 - f -> length ho2 = n2 -> length ho3 = n3 - l3 ->
  (0 < p -> n1 <= length (cc_A c)) -> (forall r, In r (cc_A c) -> length r = p) ->
  exists y1, comb_trigger c (o1, o2, o3) (ho1 ++ ho2 ++ ho3) (lo1 ++ lo3) xF xP = Ok (y1, ho2, lo3 ++ ho3) /\
    y1 = (let y := vadd (lo1 ++ xF ++ ho1) (zeros l1 ++ vmul (cc_k c) lo3 ++ zeros (n1 - l1 - l3)) in
          if (0 <? p) then vadd y (mv (firstn n1 (cc_A c)) xP) else y).
Proof. intros. eapply comb_places; eauto. Qed.
Print Assumptions C50_combinator.

(* commands longer than their slots are cut without an error *)
Theorem C50_longer_rejected_refuted : exists (c : comb_cfg qc) outs ho lo f p extra o,
  extra <> [] /\ comb_trigger c outs ho lo f p = Ok o /\ comb_trigger c outs (ho ++ extra) (lo ++ extra) f p = Ok o.
Proof.
  exists (mkComb [qi 2] [] 1 0 1 0 1 3 1 2), (zeros 3, zeros 1, zeros 2), [qi 1; qi 2; qi 3], [qi 4; qi 5], [qi 6], [], [qi 9].
  eexists. split; [discriminate|]. split; vm_compute; reflexivity.
Qed.
Print Assumptions C50_longer_rejected_refuted.

(* a second chunk of low-order commands cannot be used: the slot of the second output is
   not filled *)
Theorem C50_second_chunk_refuted : exists (c : comb_cfg qc) outs ho lo f,
  (cc_LO2 c = 1)%Z /\ Z.of_nat (length lo) = (cc_LO1 c + cc_LO2 c + cc_LO3 c)%Z /\
  Z.of_nat (length ho + length lo + length f) = (cc_out1 c + cc_out2 c + cc_out3 c)%Z /\
  comb_init c = Ok outs /\ comb_trigger c outs ho lo f [] = Err ValueError.
Proof.
  exists (mkComb [qi 2] [] 1 1 1 0 1 3 3 2). eexists. exists [qi 1; qi 2; qi 3; qi 4], [qi 5; qi 6; qi 7], [qi 8].
  split; [reflexivity|]. split; [reflexivity|]. split; [reflexivity|]. split; vm_compute; reflexivity.
Qed.
Print Assumptions C50_second_chunk_refuted.

(* linear combination: accepted numbers of inputs *)
Theorem C50_linear_inputs : forall A (c : lc_cfg A) n, lc_check c n = Ok tt <->
  n = 2 + (if lc_no_focus c then 0 else 1) + (if lc_no_lift c then 0 else 1).
Proof. intros. apply lc_inputs. Qed.
Print Assumptions C50_linear_inputs.

(* tip and tilt from NGS, focus from the focus vector, the rest from LGS, then LIFT *)
Theorem C50_linear : forall A (c : lc_cfg A) a0 a1 r focus f lift t0 t1 tr out,
  let lgs := a0 :: a1 :: r in let ngs := t0 :: t1 :: tr in
  lc_idx c = None -> (lc_no_focus c = false -> r <> [] /\ focus = f :: tl focus) ->
  lc_setup c (lc_ins c lgs focus lift ngs) = Ok out ->
  lc_trigger c out (lc_ins c lgs focus lift ngs) =
  Ok ((t0 :: t1 :: if lc_no_focus c then r else f :: tl r) ++ (if lc_no_lift c then [] else lift)).
Proof. intros. now apply lc_plain. Qed.
Print Assumptions C50_linear.

(* with a plate-scale index k: the three plate-scale modes of NGS at k, k+1, k+2, and
   their projections subtracted from elements 2, 3, 4 *)
Theorem C50_linear_platescale : forall A (c : lc_cfg A) a0 a1 a2 a3 a4 r focus f lift t0 t1 t2 t3 t4 p0 p1 p2 k out,
  let lgs := a0 :: a1 :: a2 :: a3 :: a4 :: r in let ngs := [t0; t1; t2; t3; t4] in
  lc_idx c = Some (Z.of_nat k) -> lc_ps c = [p0; p1; p2] -> k + 3 <= length lgs ->
  (lc_no_focus c = false -> focus = f :: tl focus) ->
  lc_setup c (lc_ins c lgs focus lift ngs) = Ok out ->
  let m := (t0 :: t1 :: (if lc_no_focus c then a2 else f) - t2 * p0 :: a3 - t3 * p1 :: a4 - t4 * p2 :: r)%ar in
  lc_trigger c out (lc_ins c lgs focus lift ngs) =
  Ok ((firstn k m ++ [t2; t3; t4] ++ skipn (k + 3) m) ++ (if lc_no_lift c then [] else lift)).
Proof. intros. now apply lc_platescale. Qed.
Print Assumptions C50_linear_platescale.

Definition comb_show (r : res (vec qc * vec qc * vec qc)) :=
  match r with Ok (a, b, c) => Some (map this a, map this b, map this c) | Err _ => None end.
Example C50_example :
  let c := mkComb [qi 10; qi 100] [[qi 1]; [qi 2]; [qi 3]; [qi 4]; [qi 5]; [qi 0]] 2 0 2 1 1 5 2 3 in
  comb_show (o <- comb_init c ;; comb_trigger c o [qi 1; qi 2; qi 3; qi 4; qi 5] [qi 6; qi 7; qi 8; qi 9] [qi 20] [qi 1000]) =
    Some (map this [qi 1006; qi 2007; qi 3100; qi 4901; qi 5002], map this [qi 3; qi 4], map this [qi 8; qi 9; qi 5]) /\
  (let l := mkLc (A := qc) false false [qi 1; qi 2; qi 3] (Some 5%Z) in
   let ins := [map qi [1; 2; 3; 4; 5; 6; 7; 8; 9]%Z; [qi 50]; [qi 70; qi 71]; map qi [10; 11; 12; 13; 14]%Z] in
   match (o <- lc_setup l ins ;; lc_trigger l o ins) with
   | Ok r => map this r = map this (map qi [10; 11; 38; -22; -37; 12; 13; 14; 9; 70; 71]%Z) | Err _ => False end).
Proof. vm_compute. split; reflexivity. Qed.
