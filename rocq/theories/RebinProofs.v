(* Sums over blocks. *)
From Coq Require Import List ZArith Bool Arith Lia Field Field_theory.
From Verif Require Import PyBase PyLemmas Arith ArithLemmas FilterSpec SumLemmas FitsModel FitsSpec RebinModel RebinSpec.
Import ListNotations.
Local Open Scope ar_scope.

Section G.
Context {A : arith}.
Lemma vsum_map_seq (f : nat -> A) n : vsum (map f (seq 0 n)) = sumn n f.
Proof.
  rewrite fold_left_sumn, map_length, seq_length. apply sumn_ext. intros j Hj. now rewrite nth_map_seq.
Qed.
Lemma tab_r m n (f : nat -> nat -> A) : a_r (tab A m n f) = m.
Proof. unfold tab, a_r. cbn [a_rows]. now rewrite map_length, seq_length. Qed.
Lemma tab_frame m n (f : nat -> nat -> A) : frame m n f (a_rows (tab A m n f)).
Proof.
  unfold tab. cbn [a_rows]. split; [now rewrite map_length, seq_length|]. split.
  - intros i Hi. rewrite nth_map_seq by exact Hi. now rewrite map_length, seq_length.
  - intros i j Hi Hj. rewrite nth_map_seq by exact Hi. now rewrite nth_map_seq.
Qed.
Lemma tab_ent m n (f : nat -> nat -> A) i j : (i < m)%nat -> (j < n)%nat -> ent A (tab A m n f) i j = f i j.
Proof. intros Hi Hj. exact (proj2 (proj2 (tab_frame m n f)) i j Hi Hj). Qed.
Lemma tab_rect m n (f : nat -> nat -> A) : (0 < m)%nat -> rect (tab A m n f).
Proof.
  intros H. split; [unfold tab; cbn [a_rows]; now rewrite map_length, seq_length|]. intros r Hr. unfold tab in *. cbn [a_rows a_c] in *.
  apply in_map_iff in Hr as (i & <- & _). now rewrite map_length, seq_length.
Qed.

Lemma total_flux (a : arr2 A) : rect a -> total A a = flux (a_r a) (a_c a) (ent A a).
Proof.
  intros [_ R]. unfold total, flux, a_r. rewrite fold_left_sumn, map_length. apply sumn_ext. intros i Hi.
  rewrite (nth_indep _ 0 (vsum [])) by (rewrite map_length; exact Hi). rewrite (map_nth vsum).
  rewrite fold_left_sumn, R by (apply nth_In; exact Hi). reflexivity.
Qed.

Lemma rect_ext (a b : arr2 A) : rect a -> rect b -> a_r a = a_r b -> a_c a = a_c b ->
  (forall i j, (i < a_r a)%nat -> (j < a_c a)%nat -> ent A a i j = ent A b i j) -> a = b.
Proof.
  intros [_ Ra] [_ Rb] Er Ec H. destruct a as [c ra], b as [c' rb]. unfold a_r, ent in *. cbn [a_rows a_c] in *. subst c'. f_equal.
  apply nth_ext with [] []; [exact Er|]. intros i Hi.
  assert (La := Ra (nth i ra []) (nth_In _ _ Hi)). assert (Hi' : (i < length rb)%nat) by lia. assert (Lb := Rb (nth i rb []) (nth_In _ _ Hi')).
  apply nth_ext with 0 0; [congruence|]. intros j Hj. apply H; [exact Hi|lia].
Qed.
End G.

Section F.
Context {A : arith} (HF : is_field A).
Let HF' : field_theory 0 1 add mul sub opp dvd inv (@eq A) := HF.
Add Field fA11 : HF'.
Context (ofn : nat -> A) (HC : counts ofn).

Lemma sumn_blocks m b (f : nat -> A) : sumn (m * b) f = sumn m (fun i => sumn b (fun r => f (i * b + r)%nat)).
Proof.
  induction m as [|m IH]; [reflexivity|]. cbn [sumn]. rewrite <- IH. replace (S m * b)%nat with (m * b + b)%nat by lia. apply (sumn_app A HF).
Qed.

Lemma ofn_mul a b : ofn (a * b)%nat = ofn a * ofn b.
Proof.
  destruct HC as [E _]. rewrite (E (a * b)%nat), sumn_blocks, (E a), <- (sumn_scale_r A HF). apply sumn_ext. intros i _.
  rewrite (E b). ring.
Qed.

Lemma sumn_const n (x : A) : sumn n (fun _ => x) = ofn n * x.
Proof. destruct HC as [E _]. rewrite E, <- (sumn_scale_r A HF). apply sumn_ext. intros. ring. Qed.

Lemma mean_sumn (f : nat -> A) n : mean A ofn (map f (seq 0 n)) = sumn n f / ofn n.
Proof. unfold mean. now rewrite vsum_map_seq, map_length, seq_length. Qed.

Lemma mean_mean (f : nat -> nat -> A) b c : (0 < b)%nat -> (0 < c)%nat ->
  mean A ofn (map (fun r => mean A ofn (map (fun j => f r j) (seq 0 c))) (seq 0 b)) = flux b c f / ofn (b * c)%nat.
Proof.
  intros Hb Hc. rewrite mean_sumn. rewrite (sumn_ext _ _ (fun r => sumn c (f r) * inv (ofn c))).
  - rewrite (sumn_scale_r A HF), ofn_mul. change (flux b c f) with (sumn b (fun r => sumn c (f r))).
    generalize (sumn b (fun r => sumn c (f r))). intros x. field. split; apply (proj2 HC); assumption.
  - intros j _. rewrite mean_sumn. apply (Fdiv_def HF).
Qed.

Lemma flux_blocks m n b c (f : nat -> nat -> A) :
  flux m n (fun i j => flux b c (fun r s => f (i * b + r)%nat (j * c + s)%nat)) = flux (m * b) (n * c) f.
Proof.
  unfold flux. rewrite sumn_blocks. apply sumn_ext. intros i _. rewrite (sumn_swap A HF). apply sumn_ext. intros r _. now rewrite sumn_blocks.
Qed.

Lemma flux_scale m n a (f : nat -> nat -> A) : flux m n (fun i j => f i j * a) = flux m n f * a.
Proof. unfold flux. rewrite <- (sumn_scale_r A HF). apply sumn_ext. intros. apply (sumn_scale_r A HF). Qed.
Lemma flux_ext m n (f g : nat -> nat -> A) : (forall i j, (i < m)%nat -> (j < n)%nat -> f i j = g i j) -> flux m n f = flux m n g.
Proof. intros H. unfold flux. apply sumn_ext. intros. apply sumn_ext. auto. Qed.
End F.
