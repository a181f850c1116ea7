From Coq Require Import ZArith QArith Qpower Qfield Lia Lqa Bool.
From Verif Require Import PyBase SecondsModel SecondsSpec.
Local Open Scope Q_scope.

Lemma pow_pos e : 0 < 2 ^ e.
Proof. apply Qpower_0_lt. reflexivity. Qed.
Lemma two_neq : ~ 2 == 0.
Proof. discriminate. Qed.
Lemma pow_nat k : (0 <= k)%Z -> inject_Z (2 ^ k) == 2 ^ k.
Proof. intros H. rewrite Zpower_Qpower by exact H. reflexivity. Qed.
Lemma pow_split e : inject_Z (p2n e) == inject_Z (p2d e) * 2 ^ e.
Proof.
  unfold p2n, p2d. rewrite !pow_nat by lia. rewrite <- Qpower_plus by exact two_neq. replace (Z.max (- e) 0 + e)%Z with (Z.max e 0) by lia. reflexivity.
Qed.
Lemma p2n_pos e : (0 < p2n e)%Z.
Proof. unfold p2n. apply Z.pow_pos_nonneg; lia. Qed.
Lemma p2d_pos e : (0 < p2d e)%Z.
Proof. unfold p2d. apply Z.pow_pos_nonneg; lia. Qed.
Lemma pow_le a b : (a <= b)%Z -> 2 ^ a <= 2 ^ b.
Proof.
  intros H. replace b with (a + (b - a))%Z by lia. rewrite Qpower_plus by exact two_neq. rewrite <- (pow_nat (b - a)) by lia.
  assert (P := pow_pos a). assert (1 <= inject_Z (2 ^ (b - a))).
  { change 1 with (inject_Z 1). rewrite <- Zle_Qle. assert (0 < 2 ^ (b - a))%Z by (apply Z.pow_pos_nonneg; lia). lia. }
  rewrite <- (Qmult_1_r (2 ^ a)) at 1. rewrite !(Qmult_comm (2 ^ a)). apply Qmult_le_compat_r; lra.
Qed.
Lemma pow_lt_inv a b : 2 ^ a < 2 ^ b -> (a < b)%Z.
Proof. intros H. destruct (Z_lt_le_dec a b) as [L|L]; [exact L|]. apply pow_le in L. lra. Qed.
Lemma pow_succ e : 2 ^ (e + 1) == 2 * 2 ^ e.
Proof. rewrite Qpower_plus by exact two_neq. change (2 ^ 1) with 2. lra. Qed.

(* ---- rounding to integers ---- *)
Lemma half_even_near n d : (0 < d)%Z -> (- d <= 2 * (half_even n d * d - n) <= d)%Z.
Proof.
  intros H. unfold half_even. pose proof (Z.div_mod n d ltac:(lia)) as E. pose proof (Z.mod_pos_bound n d H) as B.
  set (q := (n / d)%Z) in *. replace (n - q * d)%Z with (n mod d)%Z by lia. destruct (Z.compare_spec (2 * (n mod d)) d); [destruct (Z.even q)| |]; nia.
Qed.
Lemma half_even_unique n d t : (0 < d)%Z -> (- d < 2 * (t * d - n) < d)%Z -> half_even n d = t.
Proof. intros H B. pose proof (half_even_near n d H). nia. Qed.

Lemma value_frac x : value x == inject_Z (fl_num x) / inject_Z (fl_den x).
Proof.
  unfold value, fl_num, fl_den. rewrite inject_Z_mult, pow_split. field. intros E. assert (P := p2d_pos (fl_e x)). 
  change 0 with (inject_Z 0) in E. rewrite inject_Z_injective in E. lia.
Qed.
Lemma den_pos x : (0 < fl_den x)%Z.
Proof. apply p2d_pos. Qed.

Lemma iz_pos z : (0 < z)%Z -> 0 < inject_Z z.
Proof. intros H. change 0 with (inject_Z 0). now rewrite <- Zlt_Qlt. Qed.

(* exponent found by rnd *)
Lemma log_bounds n d : (0 < n)%Z -> (0 < d)%Z ->
  2 ^ (Z.log2 n - Z.log2 d - 1) * inject_Z d < inject_Z n /\ inject_Z n < 2 ^ (Z.log2 n - Z.log2 d + 1) * inject_Z d.
Proof.
  intros Hn Hd. destruct (Z.log2_spec n Hn) as [A B], (Z.log2_spec d Hd) as [C D].
  assert (Pn := Z.log2_nonneg n). assert (Pd := Z.log2_nonneg d). set (a := Z.log2 n) in *. set (b := Z.log2 d) in *.
  rewrite Zle_Qle in A, C. rewrite Zlt_Qlt in B, D. rewrite pow_nat in A, B, C, D by lia.
  replace (Z.succ a) with (a + 1)%Z in B by lia. replace (Z.succ b) with (b + 1)%Z in D by lia.
  assert (E : forall u v, 2 ^ u == 2 ^ (u - v) * 2 ^ v) by (intros u v; rewrite <- Qpower_plus by exact two_neq; replace (u - v + v)%Z with u by lia; reflexivity).
  split.
  - replace (a - b - 1)%Z with (a - (b + 1))%Z by lia. rewrite (E a (b + 1)%Z) in A. assert (P := pow_pos (a - (b + 1))). nra.
  - replace (a - b + 1)%Z with (a + 1 - b)%Z by lia. rewrite (E (a + 1)%Z b) in B. assert (P := pow_pos (a + 1 - b)). nra.
Qed.

Theorem rnd_ok n d : (0 < n)%Z -> (0 < d)%Z -> rounds_to (inject_Z n / inject_Z d) (rnd n d).
Proof.
  intros Hn Hd. unfold rnd. replace (n =? 0)%Z with false by (symmetry; apply Z.eqb_neq; lia).
  set (e0 := (Z.log2 n - Z.log2 d - 52)%Z).
  set (e := (if 2 ^ 52 * (d * p2n e0) <=? n * p2d e0 then e0 else e0 - 1)%Z).
  destruct (log_bounds n d Hn Hd) as [LB UB].
  assert (Nd := iz_pos d Hd). set (q := inject_Z n / inject_Z d). assert (Q0 : inject_Z n == q * inject_Z d) by (unfold q; field; lra).
  assert (L2 : 2 ^ 51 * 2 ^ e0 < q).
  { rewrite Q0 in LB. replace (Z.log2 n - Z.log2 d - 1)%Z with (51 + e0)%Z in LB by (unfold e0; lia). rewrite Qpower_plus in LB by exact two_neq.
    apply (Qmult_lt_r _ _ (inject_Z d) Nd). exact LB. }
  assert (U2 : q < 2 ^ 53 * 2 ^ e0).
  { rewrite Q0 in UB. replace (Z.log2 n - Z.log2 d + 1)%Z with (53 + e0)%Z in UB by (unfold e0; lia). rewrite Qpower_plus in UB by exact two_neq.
    apply (Qmult_lt_r _ _ (inject_Z d) Nd). exact UB. }
  assert (C : 2 ^ 52 * 2 ^ e <= q /\ q < 2 ^ 53 * 2 ^ e).
  { assert (X : inject_Z (2 ^ 52 * (d * p2n e0)) == 2 ^ 52 * 2 ^ e0 * (inject_Z d * inject_Z (p2d e0))) by (rewrite !inject_Z_mult, pow_split, (pow_nat 52) by lia; ring).
    assert (Y : inject_Z (n * p2d e0) == q * (inject_Z d * inject_Z (p2d e0))) by (rewrite inject_Z_mult, Q0; ring).
    assert (P : 0 < inject_Z d * inject_Z (p2d e0)) by (apply Qmult_lt_0_compat; [exact Nd|apply iz_pos, p2d_pos]).
    unfold e. destruct (Z.leb_spec (2 ^ 52 * (d * p2n e0)) (n * p2d e0)) as [H|H].
    - rewrite Zle_Qle, X, Y in H. apply Qmult_le_r in H; [|exact P]. split; [exact H|exact U2].
    - rewrite Zlt_Qlt, X, Y in H. apply Qmult_lt_r in H; [|exact P].
      assert (S := pow_succ (e0 - 1)). replace (e0 - 1 + 1)%Z with e0 in S by lia. rewrite S in *.
      change (2 ^ 53) with (2 * 2 ^ 52). change (2 ^ 52) with (2 * 2 ^ 51) in *. split; lra. }
  unfold rounds_to. cbn [fl_e]. destruct C as [C1 C2]. split; [exact C1|]. split; [exact C2|].
  assert (H := half_even_near (n * p2d e) (d * p2n e) (Z.mul_pos_pos _ _ Hd (p2n_pos e))).
  unfold value. cbn [fl_e fl_m]. set (h := half_even (n * p2d e) (d * p2n e)) in *. destruct H as [H1 H2]. rewrite Zle_Qle in H1, H2.
  assert (Z1 : inject_Z (d * p2n e) == 2 ^ e * (inject_Z d * inject_Z (p2d e))) by (rewrite inject_Z_mult, pow_split; ring).
  assert (Z2 : inject_Z (2 * (h * (d * p2n e) - n * p2d e)) == 2 * (inject_Z h * 2 ^ e - q) * (inject_Z d * inject_Z (p2d e))).
  { unfold Z.sub. rewrite inject_Z_mult, inject_Z_plus, inject_Z_opp, !inject_Z_mult, pow_split, Q0. change (inject_Z 2) with 2. ring. }
  rewrite Z2, Z1 in H2. rewrite inject_Z_opp, Z2, Z1 in H1.
  assert (P : 0 < inject_Z d * inject_Z (p2d e)) by (apply Qmult_lt_0_compat; [exact Nd|apply iz_pos, p2d_pos]).
  split.
  - apply (Qmult_le_r _ _ _ P). apply Qle_trans with (2 := H1). apply Qle_lteq. right. ring.
  - apply (Qmult_le_r _ _ _ P). exact H2.
Qed.

Lemma num_pos_value x : 0 < value x -> (0 < fl_num x)%Z.
Proof.
  rewrite value_frac. intros H. assert (D := iz_pos _ (den_pos x)). rewrite Zlt_Qlt. change (inject_Z 0) with 0.
  assert (E : inject_Z (fl_num x) == inject_Z (fl_num x) / inject_Z (fl_den x) * inject_Z (fl_den x)) by (field; lra). rewrite E. now apply Qmult_lt_0_compat.
Qed.
Lemma floor_value x (t : Z) : inject_Z t <= value x -> value x < inject_Z (t + 1) -> (fl_num x / fl_den x)%Z = t.
Proof.
  intros A B. assert (D := den_pos x). assert (Dq := iz_pos _ D). rewrite value_frac in A, B.
  assert (E : inject_Z (fl_num x) == inject_Z (fl_num x) / inject_Z (fl_den x) * inject_Z (fl_den x)) by (field; lra).
  set (q := inject_Z (fl_num x) / inject_Z (fl_den x)) in *.
  assert (A' : (t * fl_den x <= fl_num x)%Z) by (rewrite Zle_Qle, inject_Z_mult, E; apply Qmult_le_compat_r; lra).
  assert (B' : (fl_num x < (t + 1) * fl_den x)%Z) by (rewrite Zlt_Qlt, inject_Z_mult, E; apply Qmult_lt_r; assumption).
  symmetry. apply Z.div_unique with (fl_num x - t * fl_den x)%Z; lia.
Qed.

(* Any number of seconds closer than half a nanosecond to t * 10^-9 is rounded to the same float. *)
Lemma round9_near x t : (0 <= t)%Z -> -1 < 2 * (value x * inject_Z resolution - inject_Z t) -> 2 * (value x * inject_Z resolution - inject_Z t) < 1 ->
  round9 x = rnd t resolution.
Proof.
  intros Ht A B. unfold round9. f_equal. assert (D := den_pos x). assert (Dq := iz_pos _ D). apply half_even_unique; [exact D|].
  rewrite value_frac in A, B.
  assert (E : inject_Z (fl_num x) == inject_Z (fl_num x) / inject_Z (fl_den x) * inject_Z (fl_den x)) by (field; lra).
  set (q := inject_Z (fl_num x) / inject_Z (fl_den x)) in *.
  assert (X : inject_Z (2 * (t * fl_den x - fl_num x * resolution)) == 2 * (inject_Z t - q * inject_Z resolution) * inject_Z (fl_den x)).
  { unfold Z.sub. rewrite inject_Z_mult, inject_Z_plus, inject_Z_opp, !inject_Z_mult, E. change (inject_Z 2) with 2. ring. }
  split; rewrite Zlt_Qlt, ?inject_Z_opp, X.
  - setoid_replace (- inject_Z (fl_den x)) with (-1 * inject_Z (fl_den x)) by ring. apply Qmult_lt_r; [exact Dq|lra].
  - rewrite <- (Qmult_1_l (inject_Z (fl_den x))) at 2. apply Qmult_lt_r; [exact Dq|lra].
Qed.

(* the float nearest to t * 10^-9 *)
Lemma literal_bounds t : (0 < t < 2 ^ 52)%Z ->
  let x := literal t in let T := inject_Z t in let p := value x * inject_Z resolution in
  rounds_to (T / inject_Z resolution) x /\ 0 < p /\ - T <= 2 ^ 53 * (p - T) /\ 2 ^ 53 * (p - T) <= T.
Proof.
  intros Ht x T p. assert (R := rnd_ok t resolution ltac:(lia) ltac:(reflexivity)). fold (literal t) in R. fold x T in R. split; [exact R|].
  destruct R as (R1 & R2 & R3 & R4). set (E := 2 ^ fl_e x) in *. assert (PE : 0 < E) by apply pow_pos.
  unfold p. change (inject_Z resolution) with (1000000000#1) in *.
  assert (Q0 : T == T / (1000000000#1) * (1000000000#1)) by field. set (q := T / (1000000000#1)) in *. set (v := value x) in *.
  change (2 ^ 52) with (4503599627370496#1) in *. change (2 ^ 53) with (9007199254740992#1) in *. rewrite Q0.
  repeat split; lra.
Qed.

(* int(r * 10^9) for the float r nearest to t * 10^-9 *)
Definition back (t : Z) : Z := let r := literal t in let p := rnd (fl_num r * resolution) (fl_den r) in (fl_num p / fl_den p)%Z.

Lemma product_ok t : (0 < t < 2 ^ 52)%Z -> let r := literal t in
  rounds_to (value r * inject_Z resolution) (rnd (fl_num r * resolution) (fl_den r)).
Proof.
  intros Ht r. destruct (literal_bounds t Ht) as (_ & P & _). fold r in P.
  assert (Pr : 0 < value r). { change (inject_Z resolution) with (1000000000#1) in P. lra. }
  assert (N := num_pos_value r Pr). assert (D := den_pos r). assert (Dq := iz_pos _ D).
  assert (R := rnd_ok (fl_num r * resolution) (fl_den r) ltac:(unfold resolution; lia) D).
  assert (E : inject_Z (fl_num r * resolution) / inject_Z (fl_den r) == value r * inject_Z resolution).
  { rewrite value_frac, inject_Z_mult. field. lra. }
  unfold rounds_to in *. rewrite E in R. exact R.
Qed.

Lemma back_within t : (0 <= t < 2 ^ 52)%Z -> back t = t \/ back t = (t - 1)%Z.
Proof.
  intros Ht. destruct (Z.eq_dec t 0) as [->|N0]; [now left|]. assert (Ht' : (0 < t < 2 ^ 52)%Z) by lia.
  destruct (literal_bounds t Ht') as (_ & P & B1 & B2). destruct (product_ok t Ht') as (R1 & R2 & R3 & R4).
  unfold back. set (r := literal t) in *. set (y := rnd (fl_num r * resolution) (fl_den r)) in *. set (p := value r * inject_Z resolution) in *. set (E := 2 ^ fl_e y) in *.
  assert (TB : inject_Z t <= 4503599627370495#1) by (change (4503599627370495#1) with (inject_Z 4503599627370495); rewrite <- Zle_Qle; lia).
  assert (T1 : 1 <= inject_Z t) by (change 1 with (inject_Z 1); rewrite <- Zle_Qle; lia).
  change (2 ^ 52) with (4503599627370496#1) in *. change (2 ^ 53) with (9007199254740992#1) in *.
  assert (PE : 0 < E) by apply pow_pos.
  assert (Lo : inject_Z t - 1 < value y) by lra. assert (Hi : value y < inject_Z t + 1) by lra.
  destruct (Qlt_le_dec (value y) (inject_Z t)) as [C|C].
  - right. apply floor_value.
    + replace (t - 1)%Z with (t + -1)%Z by lia. rewrite inject_Z_plus. change (inject_Z (-1)) with (-1). lra.
    + replace (t - 1 + 1)%Z with t by lia. exact C.
  - left. apply floor_value; [exact C|]. rewrite inject_Z_plus. exact Hi.
Qed.

Lemma pow_shift k a : 2 ^ (k + a) == 2 ^ k * 2 ^ a.
Proof. apply Qpower_plus. exact two_neq. Qed.

Lemma back_powers : forall k, (0 <= k < 52)%Z -> back (2 ^ k) = (2 ^ k)%Z.
Proof.
  assert (H : List.forallb (fun k => Z.eqb (back (2 ^ Z.of_nat k)) (2 ^ Z.of_nat k)) (List.seq 0 52) = true) by (vm_compute; reflexivity).
  intros k Hk. rewrite List.forallb_forall in H. specialize (H (Z.to_nat k)). rewrite Z2Nat.id in H by lia. apply Z.eqb_eq, H, List.in_seq. lia.
Qed.

Lemma back_exact t k : (0 <= k < 52)%Z -> (2 ^ k <= t)%Z -> (t * 2 ^ 29 < resolution * 2 ^ k)%Z -> back t = t.
Proof.
  intros Hk Lt Ut. destruct (Z.eq_dec t (2 ^ k)) as [->|NE]; [now apply back_powers|].
  assert (K1 : (0 < 2 ^ k)%Z) by (apply Z.pow_pos_nonneg; lia).
  assert (K2 : (2 ^ k <= 2 ^ 51)%Z) by (apply Z.pow_le_mono_r; lia).
  assert (Ht : (0 < t < 2 ^ 52)%Z) by (unfold resolution in Ut; lia).
  destruct (literal_bounds t Ht) as ((Q1 & Q2 & Q3 & Q4) & P & _). destruct (product_ok t Ht) as (R1 & R2 & R3 & R4).
  unfold back. set (r := literal t) in *. set (y := rnd (fl_num r * resolution) (fl_den r)) in *.
  set (K := 2 ^ k) in *. assert (KE : inject_Z (2 ^ k) == K) by (apply pow_nat; lia).
  assert (T1 : K + 1 <= inject_Z t). { rewrite <- KE. change 1 with (inject_Z 1). rewrite <- inject_Z_plus, <- Zle_Qle. lia. }
  assert (T2 : inject_Z t * (536870912#1) < (1000000000#1) * K).
  { rewrite <- KE. change (536870912#1) with (inject_Z (2 ^ 29)). change (1000000000#1) with (inject_Z resolution). rewrite <- !inject_Z_mult, <- Zlt_Qlt. exact Ut. }
  assert (K51 : K <= 2251799813685248#1). { rewrite <- KE. change (2251799813685248#1) with (inject_Z (2 ^ 51)). now rewrite <- Zle_Qle. }
  assert (PK : 0 < K) by apply pow_pos.
  change (inject_Z resolution) with (1000000000#1) in *. set (T := inject_Z t) in *.
  assert (Q0 : T == T / (1000000000#1) * (1000000000#1)) by field. set (q := T / (1000000000#1)) in *.
  (* exponent of r *)
  assert (Er : (fl_e r <= k - 82)%Z).
  { assert (S : 2 ^ (fl_e r + 52) < 2 ^ (k - 29)).
    { rewrite pow_shift. unfold Z.sub. rewrite pow_shift. fold K. change (2 ^ (- (29))) with (1 # 536870912). 
      change (2 ^ 52) with (4503599627370496#1) in *. lra. }
    apply pow_lt_inv in S. lia. }
  assert (Er' : 2 ^ fl_e r <= K * (1 # 4835703278458516698824704)).
  { apply Qle_trans with (2 ^ (k - 82)); [now apply pow_le|]. unfold Z.sub. rewrite pow_shift. fold K. apply Qle_lteq. right. reflexivity. }
  set (E := 2 ^ fl_e r) in *. assert (PE : 0 < E) by apply pow_pos.
  set (v := value r) in *. set (p := v * (1000000000#1)) in *.
  assert (D1 : - (K * (1#9007199254740992)) < p - T) by (unfold p; rewrite Q0; lra).
  assert (D2 : p - T < K * (1#9007199254740992)) by (unfold p; rewrite Q0; lra).
  (* exponent of y *)
  assert (Ey1 : (k < fl_e y + 53)%Z).
  { apply pow_lt_inv. rewrite pow_shift. fold K. change (2 ^ 53) with (9007199254740992#1) in *. lra. }
  assert (Ey2 : (fl_e y + 52 < k + 1)%Z).
  { apply pow_lt_inv. rewrite !pow_shift. fold K. change (2 ^ 52) with (4503599627370496#1) in *. change (2 ^ 1) with 2. lra. }
  assert (Ey : fl_e y = (k - 52)%Z) by lia.
  assert (F : 2 ^ fl_e y == K * (1 # 4503599627370496)).
  { rewrite Ey. unfold Z.sub. rewrite pow_shift. fold K. reflexivity. }
  set (U := 2 ^ fl_e y) in *. assert (PU : 0 < U) by apply pow_pos.
  assert (TT : T == inject_Z (t * 2 ^ (52 - k)) * U).
  { rewrite inject_Z_mult, pow_nat by lia. fold T. unfold U. rewrite Ey, <- Qmult_assoc, <- Qpower_plus by exact two_neq. replace (52 - k + (k - 52))%Z with 0%Z by lia. change (2 ^ 0) with 1. ring. }
  assert (VV : value y == inject_Z (fl_m y) * U) by reflexivity.
  assert (G1 : - U < value y - T) by lra. assert (G2 : value y - T < U) by lra.
  assert (M : fl_m y = (t * 2 ^ (52 - k))%Z).
  { rewrite VV, TT in G1, G2. set (a := fl_m y) in *. set (b := (t * 2 ^ (52 - k))%Z) in *.
    assert (A1 : -1 < inject_Z (a - b)). { unfold Z.sub. rewrite inject_Z_plus, inject_Z_opp. nra. }
    assert (A2 : inject_Z (a - b) < 1). { unfold Z.sub. rewrite inject_Z_plus, inject_Z_opp. nra. }
    change (-1) with (inject_Z (-1)) in A1. change 1 with (inject_Z 1) in A2. rewrite <- Zlt_Qlt in A1, A2. lia. }
  assert (VT : value y == T) by (rewrite VV, TT, M; reflexivity).
  apply floor_value; [rewrite VT; apply Qle_refl|]. rewrite VT. unfold T. rewrite <- Zlt_Qlt. lia.
Qed.

(* float(t) is exact below 2^53 *)
Lemma float_exact t : (0 < t < 2 ^ 52)%Z -> value (rnd t 1) == inject_Z t.
Proof.
  intros Ht. assert (R := rnd_ok t 1 ltac:(lia) ltac:(lia)). set (x := rnd t 1) in *. assert (Q1 : inject_Z t / inject_Z 1 == inject_Z t) by field.
  unfold rounds_to in R. rewrite Q1 in R. destruct R as (R1 & R2 & R3 & R4).
  assert (E0 : (fl_e x < 0)%Z).
  { assert (S : 2 ^ (fl_e x + 52) < 2 ^ 52).
    { rewrite pow_shift. apply Qle_lt_trans with (inject_Z t); [lra|]. rewrite <- (pow_nat 52) by lia. rewrite <- Zlt_Qlt. lia. }
    apply pow_lt_inv in S. lia. }
  set (U := 2 ^ fl_e x) in *. assert (PU : 0 < U) by apply pow_pos.
  assert (TT : inject_Z t == inject_Z (t * 2 ^ (- fl_e x)) * U).
  { rewrite inject_Z_mult, pow_nat by lia. unfold U. rewrite <- Qmult_assoc, <- Qpower_plus by exact two_neq. replace (- fl_e x + fl_e x)%Z with 0%Z by lia. change (2 ^ 0) with 1. ring. }
  assert (VV : value x == inject_Z (fl_m x) * U) by reflexivity.
  assert (M : fl_m x = (t * 2 ^ (- fl_e x))%Z).
  { rewrite VV, TT in R3, R4. set (a := fl_m x) in *. set (b := (t * 2 ^ (- fl_e x))%Z) in *.
    assert (A1 : -1 < inject_Z (a - b)). { unfold Z.sub. rewrite inject_Z_plus, inject_Z_opp. nra. }
    assert (A2 : inject_Z (a - b) < 1). { unfold Z.sub. rewrite inject_Z_plus, inject_Z_opp. nra. }
    change (-1) with (inject_Z (-1)) in A1. change 1 with (inject_Z 1) in A2. rewrite <- Zlt_Qlt in A1, A2. lia. }
  rewrite VV, TT, M. reflexivity.
Qed.

Lemma seconds_bounds t : (0 < t < 2 ^ 52)%Z -> rounds_to (inject_Z t / inject_Z resolution) (t_to_seconds t).
Proof.
  intros Ht. unfold t_to_seconds. set (x := rnd t 1). assert (V : value x == inject_Z t) by now apply float_exact.
  assert (PT : 0 < inject_Z t) by (apply iz_pos; lia).
  assert (N : (0 < fl_num x)%Z) by (apply num_pos_value; rewrite V; exact PT). assert (D := den_pos x). assert (Dq := iz_pos _ D).
  assert (R := rnd_ok (fl_num x) (fl_den x * resolution) N ltac:(unfold resolution; lia)).
  assert (E : inject_Z (fl_num x) / inject_Z (fl_den x * resolution) == inject_Z t / inject_Z resolution).
  { rewrite <- V, value_frac, inject_Z_mult. change (inject_Z resolution) with (1000000000#1). field. lra. }
  unfold rounds_to in *. rewrite E in R. exact R.
Qed.

Lemma seconds_to_t_near x t : (0 <= t)%Z -> -1 < 2 * (value x * inject_Z resolution - inject_Z t) -> 2 * (value x * inject_Z resolution - inject_Z t) < 1 ->
  seconds_to_t x = back t.
Proof. intros Ht A B. unfold seconds_to_t. now rewrite (round9_near x t Ht A B). Qed.

Lemma round_bounds x t : (0 < t < 2 ^ 52)%Z -> rounds_to (inject_Z t / inject_Z resolution) x ->
  -1 < 2 * (value x * inject_Z resolution - inject_Z t) /\ 2 * (value x * inject_Z resolution - inject_Z t) < 1.
Proof.
  intros Ht (R1 & R2 & R3 & R4). assert (TB : inject_Z t < 4503599627370496#1) by (change (4503599627370496#1) with (inject_Z (2 ^ 52)); rewrite <- Zlt_Qlt; lia).
  set (E := 2 ^ fl_e x) in *. assert (PE : 0 < E) by apply pow_pos. change (inject_Z resolution) with (1000000000#1) in *.
  set (T := inject_Z t) in *. assert (Q0 : T == T / (1000000000#1) * (1000000000#1)) by field. set (q := T / (1000000000#1)) in *. set (v := value x) in *.
  change (2 ^ 52) with (4503599627370496#1) in *. split; lra.
Qed.
