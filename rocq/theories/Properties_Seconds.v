(* C23: times in nanoseconds and in seconds. *)
From Coq Require Import ZArith QArith Lia Lqa.
From Verif Require Import PyBase LoopModel SecondsModel SecondsSpec SecondsProofs.
Local Open Scope Z_scope.

(* The number of seconds is the nearest float. *)
Theorem C23_seconds t : 0 < t < 2 ^ 52 -> rounds_to (inject_Z t / inject_Z 1000000000) (t_to_seconds t).
Proof. exact (seconds_bounds t). Qed.

(* Converting back gives the time, or one nanosecond less. *)
Theorem C23_within_one t : 0 <= t < 2 ^ 52 -> seconds_to_t (t_to_seconds t) = t \/ seconds_to_t (t_to_seconds t) = t - 1.
Proof.
  intros Ht. destruct (Z.eq_dec t 0) as [->|N]; [now left|]. destruct (round_bounds (t_to_seconds t) t ltac:(lia) (seconds_bounds t ltac:(lia))) as [A B].
  rewrite (seconds_to_t_near _ t ltac:(lia) A B). now apply back_within.
Qed.
(* The same for seconds written with up to nine decimals, or computed with an error below half
   a nanosecond. *)
Theorem C23_near x t : 0 <= t < 2 ^ 52 -> (-1 < 2 * (value x * inject_Z 1000000000 - inject_Z t))%Q -> (2 * (value x * inject_Z 1000000000 - inject_Z t) < 1)%Q ->
  seconds_to_t x = t \/ seconds_to_t x = t - 1.
Proof. intros Ht A B. rewrite (seconds_to_t_near x t ltac:(lia) A B). now apply back_within. Qed.
(* and all such numbers of seconds give the same time *)
Theorem C23_same x y t : 0 <= t -> (-1 < 2 * (value x * inject_Z 1000000000 - inject_Z t))%Q -> (2 * (value x * inject_Z 1000000000 - inject_Z t) < 1)%Q ->
  (-1 < 2 * (value y * inject_Z 1000000000 - inject_Z t))%Q -> (2 * (value y * inject_Z 1000000000 - inject_Z t) < 1)%Q -> seconds_to_t x = seconds_to_t y.
Proof. intros Ht A B C D. rewrite (seconds_to_t_near x t Ht A B). symmetry. exact (seconds_to_t_near y t Ht C D). Qed.

(* Times from a power of two up to 10^9 / 2^29 = 1.86... times this power are exact; only the
   times in the last 7% below the next power of two can change. *)
Theorem C23_exact t k : 0 <= k < 52 -> 2 ^ k <= t -> t * 2 ^ 29 < 1000000000 * 2 ^ k -> seconds_to_t (t_to_seconds t) = t.
Proof.
  intros Hk L U. assert (P : 0 < 2 ^ k) by (apply Z.pow_pos_nonneg; lia). assert (K : 2 ^ k <= 2 ^ 51) by (apply Z.pow_le_mono_r; lia).
  destruct (round_bounds (t_to_seconds t) t ltac:(lia) (seconds_bounds t ltac:(lia))) as [A B].
  rewrite (seconds_to_t_near _ t ltac:(lia) A B). now apply back_exact with k.
Qed.
Theorem C23_literal_exact t k : 0 <= k < 52 -> 2 ^ k <= t -> t * 2 ^ 29 < 1000000000 * 2 ^ k -> seconds_to_t (literal t) = t.
Proof.
  intros Hk L U. assert (P : 0 < 2 ^ k) by (apply Z.pow_pos_nonneg; lia). assert (K : 2 ^ k <= 2 ^ 51) by (apply Z.pow_le_mono_r; lia).
  destruct (literal_bounds t ltac:(lia)) as (R & _). destruct (round_bounds (literal t) t ltac:(lia) R) as [A B].
  rewrite (seconds_to_t_near _ t ltac:(lia) A B). now apply back_exact with k.
Qed.

(* 15 ns become 14 ns; a time step of 0.0157 s is taken as 15699999 ns, a total time of
   1.001 s as 1000999999 ns. *)
Theorem C23_refuted : exists t, 0 <= t < 2 ^ 52 /\ seconds_to_t (t_to_seconds t) <> t.
Proof. exists 15. split; [lia|]. vm_compute. discriminate. Qed.
Theorem C23_time_step_refuted : seconds_to_t (literal 15700000) = 15699999 /\ seconds_to_t (literal 1001000000) = 1000999999.
Proof. split; vm_compute; reflexivity. Qed.

(* If the time step is exact, a run of n steps has n iterations: the k-th time is before the end
   if and only if k < n. *)
Theorem C23_iterations dt n : 2 <= dt -> 0 <= n -> n * dt < 2 ^ 52 -> seconds_to_t (literal dt) = dt ->
  forall k, 0 <= k -> (k * seconds_to_t (literal dt) < seconds_to_t (literal (n * dt)) <-> k < n).
Proof.
  intros Hd Hn Hb E k Hk. rewrite E. destruct (Z.eq_dec n 0) as [->|N].
  - change (seconds_to_t (literal (0 * dt))) with 0. nia.
  - assert (R : 0 < n * dt < 2 ^ 52) by nia. destruct (literal_bounds (n * dt) R) as (B & _). destruct (round_bounds (literal (n * dt)) (n * dt) R B) as [A1 A2].
    destruct (C23_near (literal (n * dt)) (n * dt) ltac:(lia) A1 A2) as [-> | ->]; nia.
Qed.
(* But the number of iterations used to recognise the last one can be too small by one: a run of
   1.001 s in steps of 1 ms has 1001 iterations, and the 1000th is taken as the last one. *)
Theorem C23_last_iteration_refuted :
  let dt := seconds_to_t (literal 1000000) in let run := seconds_to_t (literal (1001 * 1000000)) in
  (forall k, 0 <= k -> (k * dt < run <-> k < 1001)) /\ niters run dt 0 = 1000.
Proof.
  split; [|vm_compute; reflexivity]. apply C23_iterations; try lia; vm_compute; reflexivity.
Qed.
(* An integration time of 1.001 s is not accepted as a multiple of a time step of 1 ms. *)
Theorem C23_multiple_refuted : seconds_to_t (literal (1001 * 1000000)) mod seconds_to_t (literal 1000000) <> 0.
Proof. vm_compute. discriminate. Qed.

(* 1 ms, 0.5 ms, 2 s and 0.001 as a literal are exact *)
Example C23_example : seconds_to_t (t_to_seconds 1000000) = 1000000 /\ seconds_to_t (t_to_seconds 500000) = 500000 /\
  seconds_to_t (t_to_seconds 2000000000) = 2000000000 /\ seconds_to_t (literal 1000000) = 1000000 /\ 2 ^ 19 <= 1000000 /\ ~ 1000000 * 2 ^ 29 < 1000000000 * 2 ^ 19 /\
  2 ^ 18 <= 300000 /\ 300000 * 2 ^ 29 < 1000000000 * 2 ^ 18.
Proof. repeat split; vm_compute; congruence. Qed.

Print Assumptions C23_seconds.
Print Assumptions C23_within_one.
Print Assumptions C23_near.
Print Assumptions C23_same.
Print Assumptions C23_exact.
Print Assumptions C23_literal_exact.
Print Assumptions C23_refuted.
Print Assumptions C23_time_step_refuted.
Print Assumptions C23_iterations.
Print Assumptions C23_last_iteration_refuted.
Print Assumptions C23_multiple_refuted.
