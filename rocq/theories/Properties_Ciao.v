(* Properties of the rotational shearing interferometer. *)
From Coq Require Import List ZArith Bool Arith Lia QArith Qcanon Lqa.
From Verif Require Import PyBase PyLemmas OpticalModel QcTac AirModel CiaoModel Properties_Air.
Import ListNotations.
Local Open Scope Qc_scope.
Local Strategy 100 [qlt Qcdiv Qcinv Qcmult Qcplus Q2Qc].

(* what the constructor accepts *)
Theorem C132_init : forall n flux mag mag' t, (exists v, init n flux mag mag' t = Ok v) <->
  ((0 < n)%Z /\ 0 <= flux /\ flux <= 1 /\ q 1 1000000 <= mag /\ q 1 1000000 <= mag' /\ match t with Scalar _ => True | Values l => length l = 2%nat end).
Proof.
  intros n flux mag mag' t. unfold init. destruct (Z.leb n 0) eqn:N; [apply Z.leb_le in N|apply Z.leb_gt in N]; [split; [intros [v H]; discriminate H|intros (A & _); lia]|].
  destruct (qlt flux 0) eqn:F0; cbn [orb]; [apply qlt_true in F0; split; [intros [v H]; discriminate H|intros (_ & A & _); now apply Qclt_not_le in F0]|apply qlt_false in F0].
  destruct (qlt 1 flux) eqn:F1; [apply qlt_true in F1; split; [intros [v H]; discriminate H|intros (_ & _ & A & _); now apply Qclt_not_le in F1]|apply qlt_false in F1].
  destruct (qlt mag (q 1 1000000)) eqn:M; [apply qlt_true in M; split; [intros [v H]; discriminate H|intros (_ & _ & _ & A & _); now apply Qclt_not_le in M]|apply qlt_false in M].
  destruct (qlt mag' (q 1 1000000)) eqn:M'; [apply qlt_true in M'; split; [intros [v H]; discriminate H|intros (_ & _ & _ & _ & A & _); now apply Qclt_not_le in M']|apply qlt_false in M'].
  split.
  - intros [v H]. repeat (split; [assumption|]). destruct t as [x|[|x [|y [|z l]]]]; try discriminate H; [exact I|reflexivity].
  - intros (_ & _ & _ & _ & _ & T). destruct t as [x|[|x [|y [|z l]]]]; try discriminate T; now eexists.
Qed.
Theorem C132_scalar : forall n flux mag mag' x v, init n flux mag mag' (Scalar x) = Ok v -> v = (x, 0) /\ init n flux mag mag' (Values [x; 0]) = Ok v.
Proof.
  intros n flux mag mag' x v. unfold init. destruct (Z.leb n 0); [discriminate|]. destruct (_ || _); [discriminate|]. destruct (qlt mag _); [discriminate|]. destruct (qlt mag' _); [discriminate|]. intros H. split; [now injection H|exact H].
Qed.

Section Props.
Context (flux amp0 amp1 : Qc) (resample : list Qc -> list Qc).
(* the squares of the amplitudes of the branches are twice their fluxes *)
Context (A0 : amp0 * amp0 = flux + flux) (A1 : amp1 * amp1 = (1 - flux) + (1 - flux)).
Notation intensity := (intensity amp0 amp1).
Notation frame := (frame amp0 amp1 resample).
Definition branches (e r : cplx) : Qc := let x := flux * abs2 e + (1 - flux) * abs2 r in x + x.
Definition opposite (t : cplx) : cplx := (- fst t, - snd t).

Lemma square_pos : forall x : Qc, 0 <= x * x.
Proof.
  intros x. destruct (Qclt_le_dec x 0) as [H|H].
  - replace (x * x) with ((- x) * (- x)) by ring. apply Qclt_le_weak. apply mul_pos; qclra.
  - rewrite <- (Qcmult_0_l x). now apply Qcmult_le_compat_r.
Qed.
Lemma abs2_pos : forall z, 0 <= abs2 z.
Proof. intros [x y]. unfold abs2. cbn. assert (A := square_pos x). assert (B := square_pos y). set (a := x * x) in *. set (b := y * y) in *. clearbody a b. qclra. Qed.
Lemma terms : forall e r t, abs2 t = 1 -> amp0 * amp0 * abs2 e + amp1 * amp1 * (abs2 r * abs2 t) = branches e r.
Proof. intros e r t T. rewrite A0, A1, T. unfold branches. cbv zeta. ring. Qed.
(* fringes: half a wave of tilt reverses them about the sum of the branches, within zero and twice that sum *)
Theorem C132_fringes : forall e r t, abs2 t = 1 ->
  intensity (e, r, t) + intensity (e, r, opposite t) = branches e r + branches e r /\ 0 <= intensity (e, r, t) /\ intensity (e, r, t) <= branches e r + branches e r.
Proof.
  intros e r t T. assert (S : intensity (e, r, t) + intensity (e, r, opposite t) = branches e r + branches e r).
  { rewrite <- (terms e r t T). unfold CiaoModel.intensity, abs2, cadd, cmul, cscale, opposite. cbn [fst snd]. ring. }
  split; [exact S|]. assert (P := abs2_pos (cadd (cscale amp0 e) (cmul (cscale amp1 r) t))). assert (P' := abs2_pos (cadd (cscale amp0 e) (cmul (cscale amp1 r) (opposite t)))).
  change (0 <= intensity (e, r, t)) in P. change (0 <= intensity (e, r, opposite t)) in P'. set (a := intensity (e, r, t)) in *. set (b := intensity (e, r, opposite t)) in *. set (c := branches e r) in *. clearbody a b c. split; [exact P|qclra].
Qed.
(* a phase common to the branches is not seen *)
Theorem C132_piston : forall u e r t, abs2 u = 1 -> intensity (cmul u e, cmul u r, t) = intensity (e, r, t).
Proof.
  intros u e r t U. transitivity (abs2 u * intensity (e, r, t)); [|rewrite U; ring]. unfold CiaoModel.intensity, abs2, cadd, cmul, cscale. cbn [fst snd]. ring.
Qed.
(* with all the flux in one branch there are no fringes *)
Lemma root0 : forall x : Qc, x * x = 0 -> x = 0.
Proof. intros x H. destruct (Qcmult_integral _ _ H); assumption. Qed.
Theorem C132_one_branch : forall e r t, abs2 t = 1 -> (flux = 1 -> intensity (e, r, t) = abs2 e + abs2 e) /\ (flux = 0 -> intensity (e, r, t) = abs2 r + abs2 r).
Proof.
  intros e r t T. split; intros F.
  - assert (Z : amp1 = 0) by (apply root0; rewrite A1, F; ring). transitivity (amp0 * amp0 * abs2 e); [|rewrite A0, F; ring]. unfold CiaoModel.intensity, abs2, cadd, cmul, cscale. rewrite Z. cbn [fst snd]. ring.
  - assert (Z : amp0 = 0) by (apply root0; rewrite A0, F; ring). transitivity (amp1 * amp1 * (abs2 r * abs2 t)); [|rewrite A1, F, T; ring]. unfold CiaoModel.intensity, abs2, cadd, cmul, cscale. rewrite Z. cbn [fst snd]. ring.
Qed.
Lemma total_scale : forall k l, total (map (fun x => x * k) l) = total l * k.
Proof. intros k. induction l as [|x l IH]; cbn [map total fold_right]; [ring|]. change (fold_right Qcplus 0 (map (fun x => x * k) l)) with (total (map (fun x => x * k) l)). rewrite IH. change (fold_right Qcplus 0 l) with (total l). ring. Qed.
(* a normalised frame has the photons of the input, unless it is dark *)
Theorem C132_photons : forall same phot px, 0 < total (frame same false phot px) -> total (frame same true phot px) = phot.
Proof.
  intros same phot px H. unfold CiaoModel.frame in *. cbv zeta in *. set (o := if same then _ else _) in *. clearbody o. rewrite (proj2 (qlt_true 0 (total o)) H). rewrite total_scale. set (s := total o) in *. clearbody s. field. now apply pos_nz.
Qed.
Theorem C132_dark : forall same phot px, total (frame same false phot px) <= 0 -> frame same true phot px = frame same false phot px.
Proof.
  intros same phot px H. unfold CiaoModel.frame in *. cbv zeta in *. set (o := if same then _ else _) in *. clearbody o. now rewrite (proj2 (qlt_false 0 (total o)) H).
Qed.
Lemma zeros : forall l, Forall (fun x => 0 <= x) l -> total l <= 0 -> Forall (fun x => x = 0) l.
Proof.
  intros l F. assert (G : forall l, Forall (fun x => 0 <= x) l -> 0 <= total l).
  { clear. induction 1 as [|x l X F IH]; [apply Qcle_refl|]. change (0 <= x + total l). set (s := total l) in *. clearbody s. qclra. }
  induction F as [|x l X F IH]; intros H; [constructor|]. change (x + total l <= 0) in H. specialize (G l F). set (s := total l) in *. clearbody s. constructor; [apply Qcle_antisym; qclra|apply IH; qclra].
Qed.
(* the brightness of the fields does not matter to a normalised frame *)
Theorem C132_brightness : forall k phot px, k <> 0 -> frame true true phot (map (fun p => let '(e, r, t) := p in (cscale k e, cscale k r, t)) px) = frame true true phot px.
Proof.
  intros k phot px K. unfold CiaoModel.frame. cbv zeta. rewrite map_map.
  replace (map (fun x => intensity (let '(e, r, t) := x in (cscale k e, cscale k r, t))) px) with (map (fun x => x * (k * k)) (map intensity px)).
  2:{ rewrite map_map. apply map_ext. intros [[e r] t]. unfold CiaoModel.intensity, abs2, cadd, cmul, cscale. cbn [fst snd]. ring. }
  set (o := map intensity px). assert (NN : Forall (fun x => 0 <= x) o).
  { apply Forall_forall. intros x X. apply in_map_iff in X. destruct X as ([[e r] t] & <- & _). apply abs2_pos. }
  clearbody o. rewrite total_scale. assert (KK : 0 < k * k).
  { destruct (Qcle_lt_or_eq _ _ (square_pos k)) as [G|G]; [exact G|]. exfalso. apply K. apply root0. now rewrite <- G. }
  assert (E : qlt 0 (total o * (k * k)) = qlt 0 (total o)).
  { destruct (qlt 0 (total o)) eqn:B; [apply qlt_true in B; apply qlt_true; now apply mul_pos|]. apply qlt_false in B. apply qlt_false. rewrite <- (Qcmult_0_l (k * k)). apply Qcmult_le_compat_r; [exact B|now apply Qclt_le_weak]. }
  rewrite E. destruct (qlt 0 (total o)) eqn:B.
  - rewrite map_map. apply map_ext. intros x. apply qlt_true in B. set (s := total o) in *. clearbody s. field. split; [now apply pos_nz|exact K].
  - apply qlt_false in B. assert (Z := zeros o NN B). clear - Z. induction Z as [|x l X Z IH]; [reflexivity|]. cbn [map]. f_equal; [rewrite X; ring|exact IH].
Qed.
End Props.
Print Assumptions C132_init.
Print Assumptions C132_scalar.
Print Assumptions C132_fringes.
Print Assumptions C132_piston.
Print Assumptions C132_one_branch.
Print Assumptions C132_photons.
Print Assumptions C132_dark.
Print Assumptions C132_brightness.

(* balanced branches, equal fields, and tilts of none, a quarter and half a wave *)
Definition ex_px : list (cplx * cplx * cplx) := map (fun t => ((1, 0), (1, 0), t)) [(1, 0); (0, 1); (- (1), 0)].
Example C132_fringes_example : map this (frame 1 1 (fun l => l) true false 0 ex_px) = [4; 2; 0]%Q.
Proof. vm_compute. reflexivity. Qed.
Example C132_photons_example : map this (frame 1 1 (fun l => l) true true (q 60 1) ex_px) = [40; 20; 0]%Q.
Proof. vm_compute. reflexivity. Qed.
Example C132_init_example : init 10 (q 1 2) 1 1 (Scalar (q 3 1)) = Ok (q 3 1, 0) /\ init 10 (q 3 2) 1 1 (Scalar 1) = Err ValueError /\ init 10 1 1 1 (Values [1]) = Err ValueError /\ init 0 1 1 1 (Scalar 1) = Err ValueError /\ init 1 1 0 1 (Scalar 1) = Err ValueError /\ init 1 1 1 0 (Scalar 1) = Err ValueError.
Proof. repeat split; vm_compute; reflexivity. Qed.
