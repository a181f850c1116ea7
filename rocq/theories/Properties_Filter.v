(* C24-C33, C61-C65: time-domain filters.

   [A] is an arbitrary arithmetic; hypotheses [is_field A] mark the results that need
   exact arithmetic.  The others hold for floating point too. *)
From Coq Require Import List Bool PeanoNat ZArith QArith Qcanon Lia.
From Verif Require Import PyBase Arith ArithLemmas FilterModel FilterSpec SumLemmas FilterProofs IirProofs
  FilterFacts FilterFacts2 SsrDataModel SsrDataProofs MultirateModel MultirateProofs.
Import ListNotations.
Local Open Scope nat_scope.

(* ------------------------------------------------------------ example material *)
Definition qi (z : Z) : qc := Q2Qc (inject_Z z).
Definition qf (a : Z) (b : positive) : qc := Q2Qc (a # b).
Definition show (r : res (fstate qc (mat qc * mat qc) * list (vec qc * vec qc))) :=
  match r with Ok (_, ys) => Some (map (fun p => (map this (fst p), map this (snd p))) ys) | Err _ => None end.
Definition shows (r : res (fstate qc (vec qc) * list (vec qc * vec qc))) :=
  match r with Ok (_, ys) => Some (map (fun p => (map this (fst p), map this (snd p))) ys) | Err _ => None end.
(* y(k) = y(k-1) + 2 u(k); y(k) = 1/2 y(k-1) + u(k) *)
Definition two_int : iir qc := mkIir [[qi 0; qi 2]; [qi 0; qi 1]] [[qi (-1); qi 1]; [qf (-1) 2; qi 1]] true.
Definition two_in : list (finput qc) :=
  [([qi 1; qi 4], None); ([qi 3; qi 0], None); ([qi (-2)], None); ([qi 5; qi 1], Some [qi 2])].

(* ---------------------------------------------------------------------- C24, C25 *)

(* C24, C25: any filter law, any delay.  A run succeeds exactly when every input fits the
   number of channels; otherwise it raises ValueError.  The delayed output is the
   undelayed one of [m] steps ago, or the interpolation of the two neighbouring ones. *)
Theorem C24_C25_delay : forall A X n (law : X -> vec A -> vec A -> X * vec A) x0 d us,
  sized n law x0 ->
  (Forall (input_fits n) us <-> exists s ys, frun n d law (finit n d x0) us = Ok (s, ys)) /\
  (~ Forall (input_fits n) us -> frun n d law (finit n d x0) us = Err ValueError) /\
  forall s ys k i, frun n d law (finit n d x0) us = Ok (s, ys) -> k < length us -> i < n ->
    out_at ys k i =
    match d with
    | DInt m => ago (fun k => nd_at ys k i) k m
    | DFrac m f => (f * ago (fun k => nd_at ys k i) k (S m) + (1 - f) * ago (fun k => nd_at ys k i) k m)%ar
    end.
Proof.
  intros A X n law x0 d us H. split; [symmetry; exact (@gen_ok A X n law x0 H d us)|].
  split; [apply run_err|]. intros. eapply gen_out; eauto.
Qed.
Print Assumptions C24_C25_delay.

Theorem C24_integer_delay : forall A X n (law : X -> vec A -> vec A -> X * vec A) x0 m us s ys k i,
  sized n law x0 -> frun n (DInt m) law (finit n (DInt m) x0) us = Ok (s, ys) -> k < length us -> i < n ->
  (k < m -> out_at ys k i = zer) /\ (m <= k -> out_at ys k i = nd_at ys (k - m) i).
Proof.
  intros A X n law x0 m us s ys k i H E Hk Hi. rewrite (@gen_out A X n law x0 H (DInt m) us s ys k i E Hk Hi).
  unfold ago. destruct (Nat.leb_spec m k); split; intros; auto; lia.
Qed.
Print Assumptions C24_integer_delay.

Theorem C25_fractional_delay : forall A X n (law : X -> vec A -> vec A -> X * vec A) x0 m f us s ys k i,
  sized n law x0 -> frun n (DFrac m f) law (finit n (DFrac m f) x0) us = Ok (s, ys) ->
  S m <= k -> k < length us -> i < n ->
  out_at ys k i = (f * nd_at ys (k - S m) i + (1 - f) * nd_at ys (k - m) i)%ar.
Proof.
  intros A X n law x0 m f us s ys k i H E Hm Hk Hi. rewrite (@gen_out A X n law x0 H (DFrac m f) us s ys k i E Hk Hi).
  unfold ago. destruct (Nat.leb_spec m k); [|lia]. destruct (Nat.leb_spec (S m) k); [auto|lia].
Qed.
Print Assumptions C25_fractional_delay.

(* every IIR filter and every state-space filter is an instance *)
Theorem C24_iir_and_ssr_are_laws :
  (forall A (c : iir A) n ni no, shape (inum c) n (S ni) -> shape (iden c) n (S no) ->
     sized n (iir_law c) (iir_x0 c) /\
     forall d us, iir_run c d us = frun n d (iir_law c) (finit n d (iir_x0 c)) us) /\
  (forall A (c : ssr A) n nx, shape (sA c) nx nx -> shape (sB c) nx n -> shape (sC c) n nx -> shape (sD c) n n ->
     sized n (ssr_law c) (zeros nx) /\
     forall d us, ssr_run c d us = frun n d (ssr_law c) (finit n d (zeros nx)) us).
Proof.
  split.
  - intros A c n ni no H1 H2. split; [exact (iir_sized c n ni no H1 H2)|exact (iir_run_frun c n ni H1)].
  - intros A c n nx H1 H2 H3 H4. split; [exact (ssr_sized' c n nx H1 H2 H3 H4)|exact (ssr_run_frun c n nx H1 H3)].
Qed.
Print Assumptions C24_iir_and_ssr_are_laws.

Example C24_example : show (iir_run two_int (DInt 2) two_in) =
  Some [([0;0], [2;4]); ([0;0], [8;2]); ([2;4], [4;-1]); ([8;2], [24;3#2])]%Q.
Proof. vm_compute. reflexivity. Qed.
Example C25_example : show (iir_run two_int (DFrac 1 (qf 1 2)) two_in) =
  Some [([0;0], [2;4]); ([1;2], [8;2]); ([5;3], [4;-1]); ([6;1#2], [24;3#2])]%Q.
Proof. vm_compute. reflexivity. Qed.
Example C24_bad_size : iir_run two_int (DInt 2) [([qi 1; qi 4; qi 5], None)] = Err ValueError.
Proof. vm_compute. reflexivity. Qed.

(* -------------------------------------------------------------------------- C26 *)

(* C26: rows of coefficients are stored with the newest term last; [j] steps ago
   corresponds to entry [ni - j] of a row of length [S ni]. *)
Theorem C26_difference_equation : forall A, is_field A ->
  forall (c : iir A) n ni no d us s ys k i,
  shape (inum c) n (S ni) -> shape (iden c) n (S no) ->
  iir_run c d us = Ok (s, ys) -> k < length us -> i < n ->
  nth no (nth i (iden c) []) zer <> zer ->
  let rhs := sumn (S ni) (fun j => (nth (ni - j) (nth i (inum c) []) 0 * gain_at n us k i
                                    * ago (fun k => in_at n us k i) k j)%ar) in
  (iinteg c = true ->
     sumn (S no) (fun j => (nth (no - j) (nth i (iden c) []) 0 * ago (fun k => nd_at ys k i) k j)%ar) = rhs) /\
  (iinteg c = false -> (nth no (nth i (iden c) []) 0 * nd_at ys k i)%ar = rhs).
Proof.
  intros A HF c n ni no d us s ys k i H1 H2 E Hk Hi Hn. split; intros Hg.
  - exact (iir_diff_eq A HF c n ni no H1 H2 d us s ys k i Hg E Hk Hi Hn).
  - exact (iir_fir A HF c n ni no H1 H2 d us s ys k i Hg E Hk Hi Hn).
Qed.
Print Assumptions C26_difference_equation.

(* second order: y(k) = u(k) + 2 u(k-1) + y(k-1) - 2 y(k-2) *)
Example C26_example :
  show (iir_run (mkIir [[qi 0; qi 2; qi 1]] [[qi 2; qi (-1); qi 1]] true) (DInt 0)
                [([qi 1], None); ([qi 0], None); ([qi 0], None); ([qi 1], None)]) =
  Some [([1], [1]); ([3], [3]); ([1], [1]); ([-4], [-4])]%Q.
Proof. vm_compute. reflexivity. Qed.

(* -------------------------------------------------------------------------- C27 *)

Theorem C27_integrator : forall A, is_field A ->
  forall modes g ff (c : iir A) d us s ys b i k,
  integrator modes g ff true = Ok c -> iir_run c d us = Ok (s, ys) ->
  in_group modes b i -> i < n_channels modes g -> k < length us ->
  let n := n_channels modes g in
  nd_at ys k i = sumn (S k) (fun t => (nth b g 0 * pow (ff_at A g ff b) (k - t) *
                                        (gain_at n us t i * in_at n us t i))%ar).
Proof. intros A HF modes g ff c d us s ys b i k. exact (integrator_closed A HF modes g ff c d us s ys b i k). Qed.
Print Assumptions C27_integrator.

(* without forgetting factor it is the plain sum *)
Theorem C27_no_forgetting : forall A, is_field A ->
  forall modes g (c : iir A) d us s ys b i k,
  integrator modes g None true = Ok c -> iir_run c d us = Ok (s, ys) ->
  in_group modes b i -> i < n_channels modes g -> k < length us ->
  let n := n_channels modes g in
  nd_at ys k i = (nth b g 0 * sumn (S k) (fun t => gain_at n us t i * in_at n us t i))%ar.
Proof.
  intros A HF modes g c d us s ys b i k H1 H2 H3 H4 H5 n.
  rewrite (integrator_closed A HF modes g None c d us s ys b i k H1 H2 H3 H4 H5).
  rewrite <- (sumn_scale A HF). apply sumn_ext. intros t Ht.
  cbn [ff_at]. rewrite (pow_one A HF). destruct HF as [[_ _ _ M1 MC _ _ _ _] _ _ _].
  rewrite (MC (nth b g zer) one), M1. reflexivity.
Qed.
Print Assumptions C27_no_forgetting.

(* the constructor rejects mode lists that do not match the gains or forgetting factors *)
Theorem C27_constructor_errors : forall A modes (g : vec A) ff ig,
  (exists c, integrator modes g ff ig = Ok c) \/ integrator modes g ff ig = Err ValueError.
Proof.
  intros A modes g ff ig. unfold integrator, integ_expand, from_gain_and_ff.
  assert (K : forall (g : vec A) ff, (exists c,
     bind (match ff with None => Ok (ones (length g)) | Some f => fit (length g) f end)
       (fun f => Ok (mkIir (map (fun a => [zer; a]) g) (map (fun a => [opp a; one]) f) ig)) = Ok c) \/
     bind (match ff with None => Ok (ones (length g)) | Some f => fit (length g) f end)
       (fun f => Ok (mkIir (map (fun a => [zer; a]) g) (map (fun a => [opp a; one]) f) ig)) = Err ValueError).
  { intros g' [f|]; cbn [bind]; [|eauto]. unfold fit. destruct (Nat.eqb (length f) (length g')); cbn [bind]; [eauto|].
    destruct f as [|x [|]]; cbn [bind]; eauto. }
  destruct modes as [ms|]; cbn [bind fst snd]; [|apply K].
  destruct (Nat.eqb (length ms) (length g)); cbn [negb bind]; [|right; reflexivity].
  destruct ff as [f|]; [|exact (K (expand ms g) None)].
  destruct (Nat.eqb (length ms) (length f)); cbn [negb bind fst snd]; [|right; reflexivity].
  exact (K (expand ms g) (Some (expand ms f))).
Qed.
Print Assumptions C27_constructor_errors.

Theorem C27_mode_list_mismatch : forall A ms (g : vec A) ff ig,
  length ms <> length g -> integrator (Some ms) g ff ig = Err ValueError.
Proof.
  intros A ms g ff ig H. unfold integrator, integ_expand. apply Nat.eqb_neq in H. rewrite H. reflexivity.
Qed.
Print Assumptions C27_mode_list_mismatch.

Example C27_example :
  match integrator (Some [1; 2]) [qi 2; qi 1] (Some [qi 1; qf 1 2]) true with
  | Ok c => show (iir_run c (DInt 0) [([qi 1; qi 4; qi 8], None); ([qi 3; qi 0; qi 0], None); ([qi 1], None)])
  | Err _ => None
  end = Some [([2;4;8], [2;4;8]); ([8;2;4], [8;2;4]); ([10;2;3], [10;2;3])]%Q.
Proof. vm_compute. reflexivity. Qed.

(* -------------------------------------------------------------------------- C28 *)

Theorem C28_iir_linear : forall A, is_field A ->
  forall (c : iir A) n ni no (a b : A) d us1 us2 us s1 y1 s2 y2,
  shape (inum c) n (S ni) -> shape (iden c) n (S no) ->
  length us1 = length us -> length us2 = length us ->
  (forall k, k < length us -> in_comb a b (nth k us1 ([], None)) (nth k us2 ([], None)) (nth k us ([], None))) ->
  iir_run c d us1 = Ok (s1, y1) -> iir_run c d us2 = Ok (s2, y2) ->
  exists s y, iir_run c d us = Ok (s, y) /\ forall k i, k < length us -> i < n ->
    nd_at y k i = (a * nd_at y1 k i + b * nd_at y2 k i)%ar /\
    out_at y k i = (a * out_at y1 k i + b * out_at y2 k i)%ar.
Proof.
  intros A HF c n ni no a b d us1 us2 us s1 y1 s2 y2 H1 H2.
  exact (iir_linear A HF c n ni no H1 H2 a b d us1 us2 us s1 y1 s2 y2).
Qed.
Print Assumptions C28_iir_linear.

Theorem C28_ssr_linear : forall A, is_field A ->
  forall (c : ssr A) n nx (a b : A) d us1 us2 us s1 y1 s2 y2,
  shape (sA c) nx nx -> shape (sB c) nx n -> shape (sC c) n nx -> shape (sD c) n n ->
  length us1 = length us -> length us2 = length us ->
  (forall k, k < length us -> in_comb a b (nth k us1 ([], None)) (nth k us2 ([], None)) (nth k us ([], None))) ->
  ssr_run c d us1 = Ok (s1, y1) -> ssr_run c d us2 = Ok (s2, y2) ->
  exists s y, ssr_run c d us = Ok (s, y) /\ forall k i, k < length us -> i < n ->
    nd_at y k i = (a * nd_at y1 k i + b * nd_at y2 k i)%ar /\
    out_at y k i = (a * out_at y1 k i + b * out_at y2 k i)%ar.
Proof.
  intros A HF c n nx a b d us1 us2 us s1 y1 s2 y2 H1 H2 H3 H4.
  exact (ssr_linear c n nx H1 H2 H3 H4 HF a b d us1 us2 us s1 y1 s2 y2).
Qed.
Print Assumptions C28_ssr_linear.

Example C28_example :
  let u1 := [([qi 1; qi 0], None); ([qi 0; qi 2], None)] in
  let u2 := [([qi 0; qi 3], None); ([qi 1; qi 1], None)] in
  let u := [([qi 2; qi 9], None); ([qi 3; qi 7], None)] in
  in_comb (qi 2) (qi 3) (nth 0 u1 ([], None)) (nth 0 u2 ([], None)) (nth 0 u ([], None)) /\
  show (iir_run two_int (DInt 1) u1) = Some [([0;0],[2;0]); ([2;0],[2;2])]%Q /\
  show (iir_run two_int (DInt 1) u2) = Some [([0;0],[0;3]); ([0;3],[2;5#2])]%Q /\
  show (iir_run two_int (DInt 1) u) = Some [([0;0],[4;9]); ([4;9],[10;23#2])]%Q.
Proof.
  cbv zeta. split; [|vm_compute; auto].
  split; [reflexivity|]. split; [reflexivity|]. split; [reflexivity|]. cbn.
  reflexivity.
Qed.

(* -------------------------------------------------------------------------- C29 *)

(* C29: two filters, possibly with different numbers of channels and different other
   channels; if channel [i1] of one and channel [i2] of the other have the same
   coefficients, inputs and gains, they have the same outputs.  Any arithmetic. *)
Theorem C29_iir_channels : forall A (c1 c2 : iir A) n1 n2 ni no d us1 us2 s1 s2 y1 y2 i1 i2,
  shape (inum c1) n1 (S ni) -> shape (iden c1) n1 (S no) ->
  shape (inum c2) n2 (S ni) -> shape (iden c2) n2 (S no) ->
  iir_run c1 d us1 = Ok (s1, y1) -> iir_run c2 d us2 = Ok (s2, y2) ->
  i1 < n1 -> i2 < n2 -> iinteg c1 = iinteg c2 ->
  nth i1 (inum c1) [] = nth i2 (inum c2) [] -> nth i1 (iden c1) [] = nth i2 (iden c2) [] ->
  length us1 = length us2 ->
  (forall k, k < length us1 -> in_at n1 us1 k i1 = in_at n2 us2 k i2 /\ gain_at n1 us1 k i1 = gain_at n2 us2 k i2) ->
  forall k, k < length us1 -> nd_at y1 k i1 = nd_at y2 k i2 /\ out_at y1 k i1 = out_at y2 k i2.
Proof. intros A c1 c2 n1 n2 ni no d us1 us2 s1 s2 y1 y2 i1 i2. apply iir_chan_indep. Qed.
Print Assumptions C29_iir_channels.

Example C29_example :
  show (iir_run two_int (DInt 0) [([qi 1; qi 4], None); ([qi 3; qi 0], None)]) = Some [([2;4],[2;4]); ([8;2],[8;2])]%Q /\
  show (iir_run (mkIir [[qi 0; qi 1]] [[qf (-1) 2; qi 1]] true) (DInt 0) [([qi 4], None); ([qi 0], None)])
    = Some [([4],[4]); ([2],[2])]%Q.
Proof. vm_compute. auto. Qed.

(* -------------------------------------------------------------------------- C30 *)

(* same outputs or same error *)
Definition same_outputs {A : arith} {X Y} (r1 : res (fstate A X * list (vec A * vec A)))
  (r2 : res (fstate A Y * list (vec A * vec A))) : Prop :=
  match r1, r2 with
  | Ok (_, y1), Ok (_, y2) => y1 = y2
  | Err e1, Err e2 => e1 = e2
  | _, _ => False
  end.

Theorem C30_iir_reset : forall A (c : iir A) n ni no d us0 s0 y0 us,
  shape (inum c) n (S ni) -> shape (iden c) n (S no) ->
  iir_run c d us0 = Ok (s0, y0) ->
  same_outputs (frun n d (iir_law c) (freset iir_rx s0) us) (iir_run c d us).
Proof.
  intros A c n ni no d us0 s0 y0 us H1 H2 H3. pose proof (iir_reset c n ni no H1 H2 d us0 s0 y0 us H3) as H.
  unfold same_outputs. destruct (frun n d (iir_law c) (freset iir_rx s0) us) as [[? ?]|], (iir_run c d us) as [[? ?]|]; auto.
Qed.
Print Assumptions C30_iir_reset.

Theorem C30_ssr_reset : forall A (c : ssr A) n nx d us0 s0 y0 us,
  shape (sA c) nx nx -> shape (sB c) nx n -> shape (sC c) n nx -> shape (sD c) n n ->
  ssr_run c d us0 = Ok (s0, y0) ->
  same_outputs (frun n d (ssr_law c) (freset ssr_rx s0) us) (ssr_run c d us).
Proof.
  intros A c n nx d us0 s0 y0 us H1 H2 H3 H4 H5. pose proof (ssr_reset c n nx H1 H2 H3 H4 d us0 s0 y0 us H5) as H.
  unfold same_outputs. destruct (frun n d (ssr_law c) (freset ssr_rx s0) us) as [[? ?]|], (ssr_run c d us) as [[? ?]|]; auto.
Qed.
Print Assumptions C30_ssr_reset.

(* The multirate filter inherits a reset that only clears the delay buffer: after it the
   filter still remembers its inputs, outputs and frame count. *)
Definition mr_example : mcfg qc := mkM [2] [qi 1; qi 1] (qi 1) [[qi 0; qi 1]] [[qi (-1); qi 1]] false.
Theorem C30_multirate_reset_refuted : exists (c : mcfg qc) n d us0 s0 y0 us,
  mrun c n d (minit c n d) us0 = Ok (s0, y0) /\
  ~ same_outputs (mrun c n d (mreset s0) us) (mrun c n d (minit c n d) us).
Proof.
  pose (us := [Vec [qi 1] [[qi 1]] None] : list (minput qc)).
  assert (H : match mrun mr_example 1 (DInt 0) (minit mr_example 1 (DInt 0)) us with
              | Ok (s0, _) =>
                  match mrun mr_example 1 (DInt 0) (mreset s0) us, mrun mr_example 1 (DInt 0) (minit mr_example 1 (DInt 0)) us with
                  | Ok (_, y1), Ok (_, y2) => map (fun p => map this (fst p)) y1 <> map (fun p => map this (fst p)) y2
                  | _, _ => False end
              | Err _ => False end) by (vm_compute; discriminate).
  destruct (mrun mr_example 1 (DInt 0) (minit mr_example 1 (DInt 0)) us) as [[s0 y0]|] eqn:E; [|destruct H].
  exists mr_example, 1, (DInt 0), us, s0, y0, us. split; [exact E|]. rewrite E.
  unfold same_outputs. destruct (mrun mr_example 1 (DInt 0) (mreset s0) us) as [[s1 y1]|]; auto. intros ->. apply H. reflexivity.
Qed.
Print Assumptions C30_multirate_reset_refuted.

(* With a fractional delay the output read right after a reset is still the old one. *)
Theorem C30_stale_output_refuted : exists (c : iir qc) d us s ys i,
  iir_run c d us = Ok (s, ys) /\ nth i (fst (fouts (freset iir_rx s))) 0%ar <> 0%ar.
Proof.
  assert (H : match iir_run two_int (DFrac 1 (qf 1 2)) two_in with
              | Ok (s, _) => this (nth 0 (fst (fouts (freset iir_rx s))) 0%ar) <> 0%Q | Err _ => False end)
    by (vm_compute; discriminate).
  destruct (iir_run two_int (DFrac 1 (qf 1 2)) two_in) as [[s ys]|] eqn:E; [|destruct H].
  exists two_int, (DFrac 1 (qf 1 2)), two_in, s, ys, 0. split; auto.
  intros H'. apply H. rewrite H'. reflexivity.
Qed.
Print Assumptions C30_stale_output_refuted.

Example C30_example :
  match iir_run two_int (DInt 1) two_in with
  | Ok (s, _) => show (frun 2 (DInt 1) (iir_law two_int) (freset iir_rx s) two_in)
  | Err _ => None end = show (iir_run two_int (DInt 1) two_in) /\
  show (iir_run two_int (DInt 1) two_in) <> None.
Proof. vm_compute. split; [reflexivity|discriminate]. Qed.

(* -------------------------------------------------------------------------- C31 *)

(* C31: run the transfer function of a delay as a difference equation on a sequence [w];
   run any filter with that delay: if the undelayed output of a channel is [w], the
   delayed output is what the transfer function gives. *)
Theorem C31_delay_tf : forall A, is_field A ->
  forall (d : delay A) (w : vec A) s ys, iir_run (tf_filter A d) (DInt 0) (map (fun x => ([x], None)) w) = Ok (s, ys) ->
  forall X n (law : X -> vec A -> vec A -> X * vec A) x0 us s' ys' i,
  sized n law x0 -> frun n d law (finit n d x0) us = Ok (s', ys') -> i < n -> length us = length w ->
  (forall k, k < length w -> nd_at ys' k i = nth k w 0%ar) ->
  forall k, k < length w -> out_at ys k 0 = out_at ys' k i.
Proof.
  intros A HF d w s ys E X n law x0 us s' ys' i HS E' Hi HL HW k Hk.
  rewrite (tf_run A HF d w s ys k E Hk), (@gen_out A X n law x0 HS d us s' ys' k i E' (eq_ind_r _ Hk HL) Hi).
  assert (G : forall m, ago (fun k0 => nth k0 w 0%ar) k m = ago (fun k0 => nd_at ys' k0 i) k m).
  { intros m. unfold ago. destruct (Nat.leb_spec m k); auto. rewrite HW by lia. reflexivity. }
  destruct d; rewrite !G; reflexivity.
Qed.
Print Assumptions C31_delay_tf.

Theorem C31_tf_total : forall A (d : delay A) (w : vec A),
  exists s ys, iir_run (tf_filter A d) (DInt 0) (map (fun x => ([x], None)) w) = Ok (s, ys).
Proof.
  intros A d w. destruct (tf_shape A d) as [H1 H2]. rewrite (iir_run_frun (tf_filter A d) 1 (dceil d) H1).
  apply (proj2 (@gen_ok A _ 1 (iir_law (tf_filter A d)) (iir_x0 (tf_filter A d)) (iir_sized _ 1 _ _ H1 H2) (DInt 0) _)).
  apply Forall_forall. intros u (x & <- & _)%in_map_iff. split; [left; reflexivity|exact I].
Qed.
Print Assumptions C31_tf_total.

Example C31_example : show (iir_run (tf_filter qc (DFrac 1 (qf 1 4))) (DInt 0)
     (map (fun x => ([x], None)) [qi 4; qi 8; qi 0; qi 0])) = Some [([0],[0]); ([3],[3]); ([7],[7]); ([2],[2])]%Q.
Proof. vm_compute. reflexivity. Qed.

(* -------------------------------------------------------------------------- C32 *)

Theorem C32_recursion : forall A (c : ssr A) n nx d us s ys,
  shape (sA c) nx nx -> shape (sB c) nx n -> shape (sC c) n nx -> shape (sD c) n n ->
  ssr_run c d us = Ok (s, ys) ->
  exists x : nat -> vec A, x 0 = zeros nx /\
    forall k, k < length us ->
      x (S k) = vadd (mv (sA c) (x k)) (mv (sB c) (ssr_in n us k)) /\
      snd (nth k ys ([], [])) = vadd (mv (sC c) (if snew c then x (S k) else x k)) (mv (sD c) (ssr_in n us k)).
Proof. intros A c n nx d us s ys H1 H2 H3 H4. exact (ssr_run_rec c n nx H1 H2 H3 H4 d us s ys). Qed.
Print Assumptions C32_recursion.

Theorem C32_convolution : forall A, is_field A -> forall (c : ssr A) n nx d us s ys k,
  shape (sA c) nx nx -> shape (sB c) nx n -> shape (sC c) n nx -> shape (sD c) n n ->
  ssr_run c d us = Ok (s, ys) -> k < length us ->
  snd (nth k ys ([], [])) = vsumn n (S k) (fun j => ssr_resp c j (ssr_in n us (k - j))).
Proof. intros A HF c n nx d us s ys k H1 H2 H3 H4. exact (ssr_conv c n nx H1 H2 H3 H4 HF d us s ys k). Qed.
Print Assumptions C32_convolution.

Definition ssr_ex : ssr qc :=
  mkSsr [[qi 1; qi 1]; [qi 0; qf 1 2]] [[qi 0]; [qi 1]] [[qi 1; qi 2]] [[qi 3]] false.
Example C32_example : shows (ssr_run ssr_ex (DInt 1) [([qi 1], None); ([qi 0], None); ([qi 2], Some [qi 3]); ([qi 0], None)]) =
  Some [([0],[3]); ([3],[2]); ([2],[20]); ([20],[14])]%Q.
Proof. vm_compute. reflexivity. Qed.

(* -------------------------------------------------------------------------- C33 *)

Lemma in_sync_dec A (c : mcfg A) n k i : (forall N, In N (mN c) -> 0 < N) -> frame_ok c n i ->
  in_sync c k i \/ ~ in_sync c k i.
Proof.
  intros HN (Hl & _). destruct i as [tf yf ys g|]; [|left; exact I]. cbn [mi_ys] in Hl.
  destruct (sync_ok (k + 1) tf (mN c) (map fst ys)) as [Q1 [Q2|Q2]]; auto.
  - rewrite map_length in *. auto.
  - left. exact (proj1 Q1 Q2).
  - right. intros Hi. pose proof (proj2 Q1 Hi). congruence.
Qed.

(* C33: with frames of the right sizes the filter fails exactly when some frame is not in
   sync, and then with RuntimeError. *)
Theorem C33_sync_errors : forall A (c : mcfg A) n d us,
  (forall N, In N (mN c) -> 0 < N) -> msync c = true -> (forall i, In i us -> frame_ok c n i) ->
  ((forall k i, nth_error us k = Some i -> in_sync c k i) <->
     exists s ys, mrun c n d (minit c n d) us = Ok (s, ys)) /\
  ((exists k i, nth_error us k = Some i /\ ~ in_sync c k i) <->
     mrun c n d (minit c n d) us = Err RuntimeError).
Proof.
  intros A c n d us HN Hs Hf. destruct (mrun_sync c n d HN Hs us (minit c n d) Hf) as [H1 H2].
  cbn [minit finit fx m_cpu] in H1, H2.
  assert (H1' : (forall k i, nth_error us k = Some i -> in_sync c k i) -> exists s ys, mrun c n d (minit c n d) us = Ok (s, ys)).
  { intros H. apply H1. intros k i _ E. apply H. auto. }
  assert (D : (forall k i, nth_error us k = Some i -> in_sync c k i) \/ (exists k i, nth_error us k = Some i /\ ~ in_sync c k i)).
  { assert (G : forall (l : list (minput A)) m, (forall i, In i l -> frame_ok c n i) ->
       (forall k i, nth_error l k = Some i -> in_sync c (m + k) i) \/ (exists k i, nth_error l k = Some i /\ ~ in_sync c (m + k) i)).
    { induction l as [|i r IH]; intros m Hl.
      - left. intros [|k] i E; discriminate.
      - destruct (in_sync_dec A c n m i HN (Hl i (or_introl eq_refl))) as [Hi|Hi].
        + destruct (IH (S m) (fun j Hj => Hl j (or_intror Hj))) as [IH1|(k & j & E & Hj)].
          * left. intros [|k] j E; [injection E as <-; rewrite Nat.add_0_r; auto|].
            replace (m + S k) with (S m + k) by lia. apply IH1; auto.
          * right. exists (S k), j. split; auto. replace (m + S k) with (S m + k) by lia. auto.
        + right. exists 0, i. rewrite Nat.add_0_r. auto. }
    apply (G us 0 Hf). }
  split; split; auto.
  - intros (s & ys & E). destruct D as [D|D]; auto. rewrite (H2 D) in E. discriminate.
  - intros E. destruct D as [D|D]; auto. destruct (H1' D) as (s & ys & E'). congruence.
Qed.
Print Assumptions C33_sync_errors.

(* C33: the outputs are those of the IIR filter on the fused input, in which slow sensor
   j appears on its due frames only, weighted by its period. *)
Theorem C33_fused_input : forall A, is_field A ->
  forall (c : mcfg A) n ni no d us s ys,
  shape (mnum c) n (S ni) -> shape (mden c) n (S no) -> minit_ok c = Ok tt ->
  mrun c n d (minit c n d) us = Ok (s, ys) ->
  exists t, iir_run (mkIir (mnum c) (mden c) true) d (fused_inputs c n us) = Ok (t, ys).
Proof.
  intros A HF c n ni no d us s ys H1 H2 H3. refine (multirate_run A HF c n ni H1 _ d us s ys).
  unfold minit_ok in H3. destruct (Nat.eqb_spec (length (mw c)) (length (mN c) + 1)); [auto|discriminate].
Qed.
Print Assumptions C33_fused_input.

(* C65: with constant measurements, over any common multiple [L] of the slow periods the
   fused input adds up to L * g_track * (weighted mean of all sensors). *)
Theorem C65_dc_weights : forall A, is_field A ->
  forall (c : mcfg A) us i s0 L yf ys,
  0 < s0 -> s0 + L <= length us ->
  (forall j, j < length (mN c) -> 0 < ratio c j /\ exists q, L = q * ratio c j) ->
  (forall k, s0 - 1 <= k < s0 + L -> yf_at us k i = yf) ->
  (forall k j, s0 <= k < s0 + L -> j < length (mN c) -> ys_at us k j i = ys j) ->
  sumn L (fun k => fused c us (s0 + k) i) =
  (of_nat L * (mg c * (dc_weight c 0 * yf + sumn (length (mN c)) (fun j => dc_weight c (S j) * ys j))))%ar.
Proof. intros A HF. exact (fused_dc A HF). Qed.
Print Assumptions C65_dc_weights.

Definition mr_sync : mcfg qc := mkM [2] [qi 1; qi 3] (qi 1) [[qi 0; qi 1]] [[qi (-1); qi 1]] true.
Example C33_example :
  match mrun mr_sync 1 (DInt 0) (minit mr_sync 1 (DInt 0))
    [Sep 10 [qi 4] [(0%Z, [qi 8])] None; Sep 20 [qi 4] [(20%Z, [qi 8])] None; Sep 30 [qi 4] [(20%Z, [qi 8])] None] with
  | Ok (_, ys) => map (fun p => map this (fst p)) ys | Err _ => [] end = [[5]; [18]; [19]]%Q /\
  mrun mr_sync 1 (DInt 0) (minit mr_sync 1 (DInt 0))
    [Sep 10 [qi 4] [(0%Z, [qi 8])] None; Sep 20 [qi 4] [(0%Z, [qi 8])] None] = Err RuntimeError /\
  mrun mr_sync 1 (DInt 0) (minit mr_sync 1 (DInt 0)) [Sep 10 [qi 4] [(10%Z, [qi 8])] None] = Err RuntimeError.
Proof. vm_compute. auto. Qed.
Example C65_example :
  let us := repeat (Vec [qi 4] [[qi 8]] None) 5 in
  this (sumn 4 (fun k => fused mr_sync us (1 + k) 0)) = 28%Q.   (* 4 * (1/4*4 + 3/4*8) *)
Proof. vm_compute. reflexivity. Qed.

(* -------------------------------------------------------------------------- C61 *)

(* C61: preparing the next step does not change an output that another object may still
   be reading - true for the undelayed output, and for the delayed output when the delay
   is zero or fractional. *)
Theorem C61_output_stable_partial : forall A X n (law : X -> vec A -> vec A -> X * vec A) x0 d us u s s' ys i,
  sized n law x0 -> frun n d law (finit n d x0) (us ++ [u]) = Ok (s, ys) -> fprepare n d s i = Ok s' ->
  snd (fouts s') = snd (fouts s) /\
  (match d with DInt 0 => True | DInt _ => False | DFrac _ _ => True end -> fst (fouts s') = fst (fouts s)).
Proof.
  intros A X n law x0 d us u s s' ys i HS E P.
  assert (V : fnd s = VCol 0 /\ match d with DInt 0 => fout s = VCol 0 | DInt _ => True | DFrac _ _ => exists v, fout s = VOwn v end).
  { clear P. assert (G : forall us s0 s ys, frun n d law s0 (us ++ [u]) = Ok (s, ys) ->
       fnd s = VCol 0 /\ match d with DInt 0 => fout s = VCol 0 | DInt _ => True | DFrac _ _ => exists v, fout s = VOwn v end).
    { clear. induction us as [|w r IH]; intros s0 s ys E; cbn [app frun] in E.
      - destruct (fstep n d law s0 u) as [s1|] eqn:E1; [|discriminate]. cbn in E. injection E as <- _.
        unfold fstep in E1. destruct (fprepare n d s0 u); [|discriminate]. cbn [bind] in E1. injection E1 as <-.
        cbn [fpost fnd fout]. destruct d as [[|m]|m f]; split; eauto.
      - destruct (fstep n d law s0 w) as [s1|]; [|discriminate]. cbn [bind] in E.
        destruct (frun n d law s1 (r ++ [u])) as [[s2 y2]|] eqn:E2; [|discriminate]. cbn in E. injection E as <- _. eauto. }
    eapply G; eauto. }
  unfold fprepare in P. destruct (fit n (fst i)); [|discriminate]. cbn [bind] in P.
  destruct (match snd i with Some g => fit n g | None => Ok (ones n) end); [|discriminate]. cbn [bind] in P.
  injection P as <-. destruct V as [V1 V2]. unfold fouts. cbn [fout fnd fst snd]. rewrite V1. unfold fread. cbn [fbuf].
  assert (C0 : forall m : mat A, col 0 (map shr m) = col 0 m).
  { intros m. unfold col. rewrite map_map. apply map_ext. intros [|x r]; reflexivity. }
  split.
  - destruct (dpos d); auto.
  - destruct d as [[|m]|m f]; intros Hd; [rewrite V2; reflexivity|destruct Hd|].
    destruct V2 as [v ->]. reflexivity.
Qed.
Print Assumptions C61_output_stable_partial.

(* With a positive integer delay the delayed output is a view of the delay buffer, which
   the preparation of the next step shifts: the output changes before the step runs. *)
Theorem C61_output_stable_refuted : exists (c : iir qc) n d us s ys i s',
  iir_run c d us = Ok (s, ys) /\ fprepare n d s i = Ok s' /\ fst (fouts s') <> fst (fouts s).
Proof.
  assert (H : match iir_run two_int (DInt 1) two_in with
    | Ok (s, _) => match fprepare 2 (DInt 1) s ([qi 0], None) with
        | Ok s' => map this (fst (fouts s')) <> map this (fst (fouts s)) | Err _ => False end
    | Err _ => False end) by (vm_compute; discriminate).
  destruct (iir_run two_int (DInt 1) two_in) as [[s ys]|] eqn:E; [|destruct H].
  destruct (fprepare 2 (DInt 1) s ([qi 0], None)) as [s'|] eqn:E'; [|destruct H].
  exists two_int, 2, (DInt 1), two_in, s, ys, ([qi 0], None), s'. split; [auto|]. split; [auto|]. congruence.
Qed.
Print Assumptions C61_output_stable_refuted.

(* --------------------------------------------------------------- C29 (SSR), C62-C64 *)

(* C62: a state-space filter built from one block per channel is the bank of its
   single-channel filters. *)
Theorem C62_block_channels : forall A, is_field A ->
  forall (l : list (blk A)) nw c d us s ys i,
  build_blocks l nw = Ok c -> ssr_run c d us = Ok (s, ys) -> i < length l ->
  exists si yi, ssr_run (single A (nth i l (e0 A)) nw) d (chan_inputs A (length l) us i) = Ok (si, yi) /\
    forall k, k < length us -> nd_at ys k i = nd_at yi k 0 /\ out_at ys k i = out_at yi k 0.
Proof. exact blocks_channels. Qed.
Print Assumptions C62_block_channels.

(* C62: with n_modes, block g serves n_modes[g] consecutive channels; blocks beyond n_modes
   are not used, and a missing block is an IndexError *)
Lemma expand_blocks_nth {A : arith} (d : blk A) : forall modes l l' g j, expand_blocks modes l = Ok l' ->
  length l' = list_sum modes /\
  (g < length modes -> j < nth g modes 0 -> g < length l /\ nth (list_sum (firstn g modes) + j) l' d = nth g l d).
Proof.
  induction modes as [|m ms IH]; intros l l' g j H; cbn [expand_blocks] in H.
  - injection H as <-. split; [reflexivity|]. cbn. lia.
  - destruct l as [|b r].
    + destruct (forallb (Nat.eqb 0) (m :: ms)) eqn:Z; [|discriminate]. injection H as <-.
      assert (Q : forall k, nth k (m :: ms) 0 = 0).
      { intros k. destruct (Nat.lt_ge_cases k (length (m :: ms))) as [L|L]; [|now apply nth_overflow].
        symmetry. apply Nat.eqb_eq. rewrite forallb_forall in Z. apply Z. now apply nth_In. }
      split; [|intros _ Hj; rewrite Q in Hj; lia].
      clear - Q. revert Q. generalize (m :: ms). induction l as [|x l IH]; intros Q; [reflexivity|].
      cbn [list_sum fold_right]. pose proof (Q 0) as Q0. cbn in Q0. rewrite Q0. cbn. apply IH. intros k. apply (Q (S k)).
    + destruct (expand_blocks ms r) as [t|e] eqn:E; [|discriminate]. cbn [bind] in H. injection H as <-. split.
      * rewrite app_length, repeat_length. destruct (IH r t 0 0 E) as [-> _]. reflexivity.
      * intros Hg Hj. destruct g as [|g]; cbn [nth firstn list_sum fold_right] in *.
        -- split; [cbn; lia|]. rewrite app_nth1 by (rewrite repeat_length; lia). cbn [Nat.add].
           clear - Hj. revert j Hj. induction m as [|m IH]; intros [|j] Hj; cbn; try lia; [reflexivity|]. apply IH. lia.
        -- destruct (IH r t g j E) as [_ I]. destruct I as [I1 I2]; [cbn in Hg; lia|exact Hj|]. split; [cbn; lia|].
           fold (list_sum (firstn g ms)). rewrite <- Nat.add_assoc, app_nth2 by (rewrite repeat_length; lia).
           rewrite repeat_length. replace (m + (list_sum (firstn g ms) + j) - m) with (list_sum (firstn g ms) + j) by lia. exact I2.
Qed.

Theorem C62_repeated_blocks : forall A, is_field A ->
  forall modes (l l' : list (blk A)) nw c d us s ys g j,
  expand_blocks modes l = Ok l' -> build_blocks l' nw = Ok c -> ssr_run c d us = Ok (s, ys) ->
  g < length modes -> j < nth g modes 0 ->
  let i := list_sum (firstn g modes) + j in
  length l' = list_sum modes /\ g < length l /\
  exists si yi, ssr_run (single A (nth g l (e0 A)) nw) d (chan_inputs A (list_sum modes) us i) = Ok (si, yi) /\
    forall k, k < length us -> nd_at ys k i = nd_at yi k 0 /\ out_at ys k i = out_at yi k 0.
Proof.
  intros A HF modes l l' nw c d us s ys g j E B R Hg Hj i. destruct (expand_blocks_nth (e0 A) modes l l' g j E) as [L N].
  destruct (N Hg Hj) as [Hl Hn]. split; [exact L|]. split; [exact Hl|]. rewrite <- Hn, <- L. apply (blocks_channels A HF l' nw c d us s ys i B R).
  rewrite L. unfold i. clear - Hg Hj. revert g Hg Hj. induction modes as [|m ms IH]; intros [|g] Hg Hj; cbn [length nth firstn list_sum fold_right] in *; try lia.
  specialize (IH g ltac:(lia) Hj). fold (list_sum ms). fold (list_sum (firstn g ms)). lia.
Qed.
Print Assumptions C62_repeated_blocks.

Theorem C62_missing_block : forall A modes (l : list (blk A)),
  expand_blocks modes l = Err IndexError <-> exists g, length l <= g < length modes /\ nth g modes 0 <> 0.
Proof.
  intros A. induction modes as [|m ms IH]; intros l; cbn [expand_blocks].
  - split; [discriminate|]. cbn. intros (g & H & _). lia.
  - destruct l as [|b r].
    + destruct (forallb (Nat.eqb 0) (m :: ms)) eqn:Z.
      * split; [discriminate|]. intros (g & Hg & N). exfalso. apply N. symmetry. apply Nat.eqb_eq. rewrite forallb_forall in Z. apply Z.
        apply nth_In. lia.
      * split; [intros _|reflexivity]. clear IH. revert Z. generalize (m :: ms). induction l as [|x l IH]; [discriminate|].
        cbn [forallb]. intros Z. apply andb_false_iff in Z as [Z|Z].
        -- exists 0. split; [cbn; lia|]. cbn. destruct x; [discriminate|lia].
        -- destruct (IH Z) as (g & Hg & N). exists (S g). split; [cbn in *; lia|exact N].
    + assert (Q : expand_blocks (m :: ms) (b :: r) = Err IndexError <-> expand_blocks ms r = Err IndexError).
      { cbn [expand_blocks]. destruct (expand_blocks ms r) as [t|e]; cbn [bind]; split; congruence. }
      cbn [expand_blocks] in Q. rewrite Q, IH. split.
      * intros (g & Hg & N). exists (S g). split; [cbn; lia|exact N].
      * intros ([|g] & Hg & N); [cbn in Hg; lia|]. exists g. split; [cbn in Hg; lia|exact N].
Qed.
Print Assumptions C62_missing_block.

Example C62_example :
  match expand_blocks [2; 1] [mkBlk [[qi 1]] [[qi 2]] [[qi 1]] [[qi 0]]; mkBlk [[qi 0]] [[qi 0]] [[qi 0]] [[qi 5]]] with
  | Ok l => match build_blocks l true with
            | Ok c => match ssr_run c (DInt 0) [([qi 1; qi 2; qi 3], None); ([qi 1; qi 1; qi 1], None)] with
                      | Ok (_, ys) => map (fun p => map this (snd p)) ys = [map this [qi 2; qi 4; qi 15]; map this [qi 4; qi 6; qi 5]]
                      | Err _ => False end
            | Err _ => False end
  | Err _ => False end.
Proof. vm_compute. reflexivity. Qed.

(* C63: the state-space integrator and the recursive integrator give the same outputs. *)
Theorem C63_same_integrator : forall A, is_field A ->
  forall g ff (l : list (blk A)) cs ci d us s1 y1 s2 y2,
  integrator_blocks g ff = Ok l -> build_blocks l true = Ok cs -> integrator None g ff true = Ok ci ->
  ssr_run cs d us = Ok (s1, y1) -> iir_run ci d us = Ok (s2, y2) ->
  forall k i, k < length us -> i < length g -> nd_at y1 k i = nd_at y2 k i /\ out_at y1 k i = out_at y2 k i.
Proof.
  intros A HF g ff l cs ci d us s1 y1 s2 y2 H1 H2 H3 H4 H5.
  assert (ND : forall k i, k < length us -> i < length g -> nd_at y1 k i = nd_at y2 k i).
  { intros k i Hk Hi. rewrite (ssr_integrator_closed A HF g ff l cs d us s1 y1 i k H1 H2 H4 Hi Hk).
    symmetry. exact (integrator_closed A HF None g ff ci d us s2 y2 i i k H3 H5 eq_refl Hi Hk). }
  intros k i Hk Hi. split; [apply ND; auto|].
  destruct (integrator_shape A None g ff true ci H3) as (_ & S1 & S2 & _). cbn [n_channels] in S1, S2.
  rewrite (iir_out ci (length g) 1 1 S1 S2 d us s2 y2 k i H5 Hk Hi).
  destruct (build_shapes A l true cs H2) as (_ & T1 & T2 & T3 & T4).
  assert (Ll : length l = length g) by (exact (proj1 (integrator_blocks_nth A g ff l H1))).
  rewrite Ll in *.
  rewrite (ssr_run_frun cs (length g) _ T1 T3) in H4.
  rewrite (@gen_out A _ _ _ _ (ssr_sized' cs _ _ T1 T2 T3 T4) d us s1 y1 k i H4 Hk Hi).
  assert (G : forall m, ago (fun k0 => nd_at y1 k0 i) k m = ago (fun k0 => nd_at y2 k0 i) k m).
  { intros m. unfold ago. destruct (Nat.leb_spec m k); auto. apply ND; lia. }
  destruct d; rewrite !G; reflexivity.
Qed.
Print Assumptions C63_same_integrator.

(* C64: the state-space filter built from gains is a pure gain. *)
Theorem C64_pure_gain : forall A, is_field A ->
  forall (g : vec A) c nw d us s ys i k,
  build_blocks (gain_blocks g) nw = Ok c -> ssr_run c d us = Ok (s, ys) -> i < length g -> k < length us ->
  nd_at ys k i = (nth i g 0 * (gain_at (length g) us k i * in_at (length g) us k i))%ar.
Proof. exact ssr_gain. Qed.
Print Assumptions C64_pure_gain.

Example C63_example :
  match integrator_blocks [qi 2; qi 1] (Some [qi 1; qf 1 2]) with
  | Ok l => match build_blocks l true with Ok c => shows (ssr_run c (DInt 1) two_in) | Err _ => None end
  | Err _ => None end = show (iir_run two_int (DInt 1) two_in).
Proof. vm_compute. reflexivity. Qed.
Example C64_example :
  match build_blocks (gain_blocks [qi 2; qi 5]) false with
  | Ok c => shows (ssr_run c (DInt 0) [([qi 3; qi 4], None); ([qi 1], Some [qi 2])]) | Err _ => None end =
  Some [([6;20],[6;20]); ([4;10],[4;10])]%Q.
Proof. vm_compute. reflexivity. Qed.
