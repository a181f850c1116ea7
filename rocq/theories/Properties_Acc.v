(* C76: accumulation of frames in windows, and the weights made from them. *)
From Coq Require Import String List ZArith Bool PeanoNat Lia QArith Qcanon Field Field_theory.
From Verif Require Import PyBase PyLemmas Arith ArithLemmas SumLemmas FilterSpec NpModel SlopesModel SlopecModel SlopecSpec AccSpec AccProofs
  ShSpec ShWeights Properties_Filter.
Import ListNotations.
Local Open Scope nat_scope.

Section Acc.
Variable A : arith.
Hypothesis HF : is_field A.

(* After any frames, the accumulated frame is the sum of the frames of the current window,
   and its generation time is the time of the last frame that ended a window. *)
Theorem C76_sum dt m (frames : list (Z * vec A)) : (0 < dt)%Z -> frames <> [] -> (forall x, In x frames -> length (snd x) = m) ->
  exists s cur a, accumulate_all A dt frames = Ok s /\ current_window dt frames cur /\
    ac_pix s = Some a /\ length a = m /\ (forall j, j < m -> nth j a zer = summed cur j) /\
    ((exists f x r, frames = f ++ x :: r /\ window_end dt (fst x) /\ ac_gt s = fst x /\ (forall y, In y r -> ~ window_end dt (fst y))) \/
     ((forall y, In y frames -> ~ window_end dt (fst y)) /\ ac_gt s = (-1)%Z)).
Proof.
  intros D N L. destruct (accumulate_all_ok A HF dt m frames D L) as (s & E & [[Q _]|(cur & a & C & P & La & S & _ & T)]); [contradiction|].
  exists s, cur, a. exact (conj E (conj C (conj P (conj La (conj S T))))).
Qed.
(* Without a positive duration nothing is accumulated. *)
Theorem C76_off dt (frames : list (Z * vec A)) : (dt <= 0)%Z -> accumulate_all A dt frames = Ok (acc0 A).
Proof.
  intros D. unfold accumulate_all. induction frames as [|f fr IH]; [reflexivity|]. cbn [fold_res]. unfold accumulate at 1.
  replace (dt <=? 0)%Z with true by (symmetry; apply Z.leb_le; exact D). exact IH.
Qed.
End Acc.

(* Frames at regular times 0, st, 2 st, ... and windows of k steps: the number of frames in the
   current window. *)
Theorem C76_regular {V} (st : Z) (k M : nat) (frames cur : list (Z * V)) : (0 < st)%Z -> 0 < k -> length frames = S M ->
  (forall i t f, nth_error frames i = Some (t, f) -> t = (Z.of_nat i * st)%Z) -> current_window (Z.of_nat k * st) frames cur ->
  length cur = if M <=? k then S M else S ((M - 1) mod k).
Proof.
  intros Hst Hk LM T (before & E & Nc & B & C).
  assert (We : forall i x, nth_error frames i = Some x -> (window_end (Z.of_nat k * st) (fst x) <-> k <= i /\ exists q, i = q * k)).
  { intros i [t f] Hi. apply T in Hi. subst t. cbn [fst]. unfold window_end. split.
    - intros [H1 [q Q]]. assert (Eq : (Z.of_nat i = q * Z.of_nat k)%Z) by nia. split; [nia|]. exists (Z.to_nat q). nia.
    - intros [H1 [q ->]]. split; [nia|]. exists (Z.of_nat q). nia. }
  assert (Lb : length before + length cur = S M) by (rewrite <- LM, E, app_length; lia).
  destruct (snoc_cases cur) as [->|(c & x & Ec)]; [now destruct Nc|].
  assert (Lc : length cur = S (length c)) by (rewrite Ec, app_length; cbn; lia).
  assert (Nw : forall i, length before <= i < M -> ~ (k <= i /\ exists q, i = q * k)).
  { intros i Hi Q. destruct (nth_error frames i) as [y|] eqn:Ey; [|apply nth_error_None in Ey; lia].
    apply (C c x Ec y); [|now apply (We i y Ey)]. rewrite E, Ec in Ey. rewrite nth_error_app2 in Ey by lia. rewrite nth_error_app1 in Ey by lia.
    now apply nth_error_In in Ey. }
  destruct B as [->|(b & y & -> & Wy)].
  - cbn [length] in *. replace (M <=? k) with true; [lia|]. symmetry. apply Nat.leb_le. destruct (Nat.le_gt_cases M k) as [Q|Q]; [exact Q|].
    exfalso. apply (Nw k); [lia|]. split; [lia|]. exists 1. lia.
  - rewrite app_length in *. cbn [length] in *. assert (Ey : nth_error frames (length b) = Some y).
    { rewrite E, <- app_assoc. rewrite nth_error_app2 by lia. now rewrite Nat.sub_diag. }
    apply (We _ _ Ey) in Wy as [H1 [q Q]]. destruct q as [|q]; [lia|].
    assert (Up : M <= length b + k). { destruct (Nat.le_gt_cases M (length b + k)) as [R|R]; [exact R|]. exfalso. apply (Nw (length b + k)); [lia|]. split; [lia|]. exists (S q + 1). lia. }
    replace (M <=? k) with false by (symmetry; apply Nat.leb_gt; lia).
    replace (M - 1) with (length c + S q * k) by nia. rewrite Nat.mod_add by lia. rewrite Nat.mod_small by nia. lia.
Qed.

(* The weights are between 0 and 1; one pixel at least has weight 1 without a window
   threshold. *)
Theorem C76_weights window m a w : 0 < m -> weights_from window m a w -> (forall j, j < m -> (0 <= w j)%Qc /\ (w j <= 1)%Qc) /\
  (window = None -> exists j, j < m /\ w j = 1%Qc).
Proof.
  intros Hm W. split; [intros j Hj; exact (weights_range window m a w j W Hj)|]. intros ->. destruct W as (lo & hi & Lo & ((j & Hj & Ej) & Hi) & W).
  destruct (Qclt_le_dec lo hi) as [Q|Q].
  - exists j. split; [exact Hj|]. rewrite (W j Hj), Ej. field. intros Z. assert (lo = hi) by (replace lo with (hi - (hi - lo))%Qc by ring; rewrite Z; ring).
    subst. exact (Qclt_not_eq _ _ Q eq_refl).
  - exists j. split; [exact Hj|now apply W].
Qed.

Definition one_pix (t z : Z) : Z * vec qc := (t, [qi z]).
Definition see_acc (r : res (acc qc)) : res (option (list Q) * Z) := s <- r ;; Ok (option_map (map this) (ac_pix s), ac_gt s).
Example C76_example :
  see_acc (accumulate_all qc 10 [one_pix 0 1; one_pix 5 2]) = Ok (Some [3]%Q, -1)%Z /\
  see_acc (accumulate_all qc 10 [one_pix 0 1; one_pix 5 2; one_pix 10 4]) = Ok (Some [7]%Q, 10)%Z /\
  see_acc (accumulate_all qc 10 [one_pix 0 1; one_pix 5 2; one_pix 10 4; one_pix 15 8]) = Ok (Some [8]%Q, 10)%Z /\
  see_acc (accumulate_all qc 10 [one_pix 0 1; one_pix 5 2; one_pix 10 4; one_pix 15 8; one_pix 20 16]) = Ok (Some [24]%Q, 20)%Z.
Proof. vm_compute. repeat split. Qed.

(* Claim: every complete window contains the same number of frames.  The first one also
   contains the frame at time zero. *)
Theorem C76_first_window_refuted : exists dt f1 f2, 
  (exists c1, current_window dt f1 c1 /\ length c1 = 3 /\ ac_gt match accumulate_all qc dt f1 with Ok s => s | Err _ => acc0 qc end = dt) /\
  (exists c2 g, f2 = f1 ++ g /\ current_window dt f2 c2 /\ length c2 = 2 /\ ac_gt match accumulate_all qc dt f2 with Ok s => s | Err _ => acc0 qc end = (2 * dt)%Z).
Proof.
  exists 10%Z, [one_pix 0 1; one_pix 5 2; one_pix 10 4], ([one_pix 0 1; one_pix 5 2; one_pix 10 4] ++ [one_pix 15 8; one_pix 20 16]).
  assert (NE : forall z, (z < 10)%Z \/ (10 < z < 20)%Z -> ~ window_end 10 z) by (intros z H [H1 [k K]]; lia). split.
  - exists [one_pix 0 1; one_pix 5 2; one_pix 10 4]. split; [|split; [reflexivity|vm_compute; reflexivity]]. exists []. split; [reflexivity|]. split; [discriminate|]. split; [now left|].
    intros c x E y Hy. change [one_pix 0 1; one_pix 5 2; one_pix 10 4] with ([one_pix 0 1; one_pix 5 2] ++ [one_pix 10 4]) in E.
    apply app_inj_tail in E as [<- <-]. destruct Hy as [<-|[<-|[]]]; apply NE; cbn; lia.
  - exists [one_pix 15 8; one_pix 20 16], [one_pix 15 8; one_pix 20 16]. split; [reflexivity|]. split; [|split; [reflexivity|vm_compute; reflexivity]].
    exists [one_pix 0 1; one_pix 5 2; one_pix 10 4]. split; [reflexivity|]. split; [discriminate|]. split.
    + right. exists [one_pix 0 1; one_pix 5 2], (one_pix 10 4). split; [reflexivity|]. split; [cbn; lia|]. now exists 1%Z.
    + intros c x E y Hy. change [one_pix 15 8; one_pix 20 16] with ([one_pix 15 8] ++ [one_pix 20 16]) in E.
      apply app_inj_tail in E as [<- <-]. destruct Hy as [<-|[]]. apply NE. cbn. lia.
Qed.

(* Claim: a window ends with the first frame after its length has passed.  It only ends with a
   frame at a multiple of its length. *)
Theorem C76_missed_end_refuted : exists dt frames, (0 < dt)%Z /\ (forall x, In x frames -> (0 <= fst x)%Z) /\
  (exists x, In x frames /\ (5 * dt < fst x)%Z) /\ see_acc (accumulate_all qc dt frames) = Ok (Some [31]%Q, (-1)%Z).
Proof.
  exists 2%Z, [one_pix 1 1; one_pix 3 2; one_pix 5 4; one_pix 7 8; one_pix 11 16]. split; [lia|]. split.
  - intros x H. repeat (destruct H as [<-|H]; [cbn; lia|]). contradiction.
  - split; [|vm_compute; reflexivity]. exists (one_pix 11 16). split; [|cbn; lia]. do 4 right. now left.
Qed.

Print Assumptions C76_sum.
Print Assumptions C76_off.
Print Assumptions C76_regular.
Print Assumptions C76_weights.
Print Assumptions C76_first_window_refuted.
Print Assumptions C76_missed_end_refuted.
