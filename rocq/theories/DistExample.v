(* Running distributed systems inside Coq, and small concrete systems. *)
From Coq Require Import String List ZArith Bool PeanoNat Lia.
From Verif Require Import PyBase LoopModel LoopSpec LoopExample DistModel DistSpec DistConf.
Import ListNotations.

Section Drive.
Variables St Dt : Type.
Variable outs : St -> option string -> list Dt.
Variable gtime : Dt -> option Z.
Variable cod : string -> code St Dt.
Variable rank : string -> option nat.
Notation conf := (conf St Dt).
Notation exec := (exec St Dt outs gtime cod rank).
Notation step := (step St Dt outs gtime cod rank).

Definition at_barrier (p : nat -> list op) (r : nat) : bool :=
  match p r with Barrier :: _ => true | _ => false end.
Definition try_rank (s : conf) (r : nat) : option conf :=
  match snd s r with
  | x :: rest => match exec x (fst s) with Some (Ok k') => Some (k', pupd (snd s) r rest) | _ => None end
  | [] => None
  end.
Fixpoint try_ranks (s : conf) (l : list nat) : option conf :=
  match l with [] => None | r :: l => match try_rank s r with Some s' => Some s' | None => try_ranks s l end end.
Definition try_barrier (n : nat) (s : conf) : option conf :=
  if (0 <? n)%nat && forallb (at_barrier (snd s)) (seq 0 n)
  then Some (fst s, fun r => if (r <? n)%nat then tl (snd s r) else snd s r) else None.
Definition try_step (n : nat) (s : conf) : option conf :=
  match try_ranks s (seq 0 n) with Some s' => Some s' | None => try_barrier n s end.
(* run until nothing can be done *)
Fixpoint drive (n fuel : nat) (s : conf) : conf :=
  match fuel with
  | O => s
  | S f => match try_step n s with Some s' => drive n f s' | None => s end
  end.

Lemma try_ranks_step n s l s' : (forall r, In r l -> r < n) -> try_ranks s l = Some s' -> step n s s'.
Proof.
  induction l as [|r l IH]; cbn; [discriminate|]. intros Hl H.
  destruct (try_rank s r) as [s1|] eqn:E; [|apply IH; auto]. injection H as <-.
  unfold try_rank in E. destruct s as [k p]. cbn [fst snd] in E. destruct (p r) as [|x rest] eqn:Ep; [discriminate|].
  destruct (exec x k) as [[k'|]|] eqn:Ex; try discriminate. injection E as <-.
  eapply step_op; eauto. apply conf_eq_refl.
Qed.

Lemma try_step_ok n s s' : try_step n s = Some s' -> step n s s'.
Proof.
  unfold try_step. destruct (try_ranks s (seq 0 n)) as [s1|] eqn:E.
  - intros H. injection H as <-. eapply try_ranks_step; eauto. intros r Hr. apply in_seq in Hr. lia.
  - unfold try_barrier. destruct (_ && _) eqn:Eb; [|discriminate]. intros H. injection H as <-.
    apply andb_true_iff in Eb as [E1 E2]. apply Nat.ltb_lt in E1. rewrite forallb_forall in E2. destruct s as [k p].
    eapply step_barrier with (p' := fun r => if (r <? n)%nat then tl (p r) else p r); auto; [| |apply conf_eq_refl].
    + intros r Hr. assert (Hi : In r (seq 0 n)) by (apply in_seq; lia). specialize (E2 r Hi). unfold at_barrier in E2. cbn [snd] in E2.
      destruct (Nat.ltb_spec r n) as [|Hge]; [|exfalso; apply (Nat.lt_irrefl n); apply (Nat.le_lt_trans _ r); auto].
      destruct (p r) as [|[| | |] l]; try discriminate. reflexivity.
    + intros r Hr. destruct (Nat.ltb_spec r n) as [Hlt|]; [|reflexivity]. exfalso. apply (Nat.lt_irrefl r), (Nat.lt_le_trans _ n); auto.
Qed.

Lemma drive_reach n : forall fuel s, reachable St Dt outs gtime cod rank n s (drive n fuel s).
Proof.
  induction fuel as [|fuel IH]; intros s; cbn [drive].
  - exists 0. constructor. apply conf_eq_refl.
  - destruct (try_step n s) as [s1|] eqn:E.
    + destruct (IH s1) as (m & Hm). exists (S m). econstructor; eauto. apply try_step_ok; auto.
    + exists 0. constructor. apply conf_eq_refl.
Qed.

Lemma no_try_no_step n s : try_step n s = None -> forall s', ~ step n s s'.
Proof.
  unfold try_step. destruct (try_ranks s (seq 0 n)) as [|] eqn:E; [discriminate|]. intros Hb s' Hs.
  assert (T : forall r, r < n -> try_rank s r = None).
  { intros r Hr. assert (Hi : In r (seq 0 n)) by (apply in_seq; lia). clear - E Hi.
    induction (seq 0 n) as [|a l IH]; [destruct Hi|]. cbn in E. destruct (try_rank s a) eqn:Ea; [discriminate|].
    destruct Hi as [<-|Hi]; auto. }
  destruct Hs as [r x rest k p k' s' Hr Hp Ex HE|k p p' s' Hn Hp Hp' HE].
  - specialize (T r Hr). unfold try_rank in T. cbn [fst snd] in T. rewrite Hp, Ex in T. discriminate.
  - unfold try_barrier in Hb. cbn [fst snd] in Hb. destruct (Nat.ltb_spec 0 n); [|lia]. cbn [andb] in Hb.
    assert (F : forallb (at_barrier p) (seq 0 n) = true).
    { apply forallb_forall. intros r Hr. apply in_seq in Hr. unfold at_barrier. rewrite Hp by lia. reflexivity. }
    rewrite F in Hb. discriminate.
Qed.
(* process [r] is stopped by an exception *)
Definition raisesb (s : conf) (r : nat) : bool :=
  match snd s r with
  | x :: _ => match exec x (fst s) with Some (Err _) => true | _ => false end
  | [] => false
  end.
Lemma raisesb_ok s r : raisesb s r = false -> ~ raises St Dt outs gtime cod rank s r.
Proof. unfold raisesb. intros H (x & rest & e & Hp & He). rewrite Hp, He in H. discriminate. Qed.
End Drive.

Local Open Scope string_scope.
Local Open Scope Z_scope.

(* The closed loop of LoopExample.v, with the controller in a second process and the
   mirror in a third one. *)
Definition ao_rank (o : string) : option nat :=
  if String.eqb o "atm" then Some 0%nat else if String.eqb o "wfs" then Some 0%nat
  else if String.eqb o "ctl" then Some 1%nat else if String.eqb o "dm" then Some 2%nat else None.

(* Two processes: "p" in the first, read by "c" in the second with delay [d].  [su] is the
   setup() of "p"; "c" reads the sum of all values in setup() and in trigger(). *)
Definition tsum (v : view tS) : Z := fold_right Z.add 0 (map fst (flat_map (fun nv => ival_data tS (snd nv)) v)).
Definition pc (su : tS -> tS) (d : Z) (o : string) : code tS tS :=
  if String.eqb o "p" then mkCode tS tS [] (fun _ s => Ok (su s)) keep (calc (fun _ x => x + 1)) stamp (fun _ s => Ok s)
  else if String.eqb o "c" then
    mkCode tS tS [mkInput "a" false true [mkSrc "p" (Some "out") d]] (fun v s => v <- v ;; Ok (tsum v, snd s)) keep
           (calc (fun v x => 10 * x + tsum v)) stamp (fun _ s => Ok s)
  else mk [] (fun _ x => x).
Definition pc_rank (o : string) : option nat :=
  if String.eqb o "p" then Some 0%nat else if String.eqb o "c" then Some 1%nat else None.
(* undelayed: "p" first; delayed: "c" first *)
Definition pc_ord (d : Z) : order := if d <? 0 then [("c", 0%nat); ("p", 0%nat)] else [("p", 0%nat); ("c", 1%nat)].
(* an output that is a list of two data objects *)
Definition touts2 (s : tS) (_ : option string) : list tS := [s; (fst s + 100, snd s)].
Definition pc_run (outs : tS -> option string -> list tS) su d its : conf tS tS :=
  drive tS tS outs tgtime (pc su d) pc_rank 2 300
        (start tS tS (pc su d) pc_rank (w_st tS w0) (w_chg tS w0) (pc_ord d) its).
