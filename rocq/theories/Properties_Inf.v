(* C95, C96, C97: phase screens without end and layers of atmosphere made with them. *)
From Coq Require Import List ZArith Bool Arith QArith Qcanon Lqa Lia Znumtheory.
From Verif Require Import PyBase PyLemmas Arith ArithLemmas FilterSpec SumLemmas OpticalModel ExtModel QcTac InterpModel InterpProofs AtmoModel AtmoSpec AtmoProofs SlopecSpec.
From Verif Require Import InfModel InfSpec InfProofs InfProofs2 InfProofs3 InfProofs4 InfStencil.
From Verif Require Import Properties_Filter.
Import ListNotations.
Local Open Scope nat_scope.

(* =============================================================================== C95 *)

(* The side of a screen is a power of two plus one, at least 257, not less than what is shown. *)
Theorem C95_sizes m : exists K, 8 <= K /\ stencil_size m = 2 ^ K + 1 /\ m <= screen_size m <= stencil_size m.
Proof.
  destruct (sizes m) as (k & K & H1 & H2 & H3 & H4 & _ & H6). exists K. split; [auto|]. split; [auto|]. split; [auto|]. rewrite H3, H4.
  assert (2 ^ k <= 2 ^ K) by (apply Nat.pow_le_mono_r; lia). lia.
Qed.
Print Assumptions C95_sizes.
Example C95_sizes_example : stencil_size 300 = 513 /\ stencil_size 20 = 257 /\ screen_size 20 = 33. Proof. vm_compute. auto. Qed.

(* Points of the stencil: at distances 0, 1, 2, 4, ... from the side where the line is added, one point every 1, 2,
   4, 8, ... columns, and the central point of the last row needed.  The stencil of the other side is its mirror image. *)
Theorem C95_stencil m after r c : let N := stencil_size m in
  In (r, c) (stencil_coords N (screen_size m) after) <->
  r < N /\ c < N /\ let d := if after then N - 1 - r else r in
  ((exists n, 2 ^ n <= N - 1 /\ d = 2 ^ n / 2 /\ Nat.divide (2 ^ n) c) \/ (d = screen_size m - 1 /\ 2 * c = N - 1)).
Proof.
  intros N. destruct (sizes m) as (k & K & H1 & H2 & H3 & H4 & _ & _). assert (Hmx : 1 <= screen_size m <= 2 ^ K + 1).
  { rewrite H3. assert (2 ^ k <= 2 ^ K) by (apply Nat.pow_le_mono_r; lia). lia. }
  unfold N. rewrite H4, (coords_iff K (screen_size m) ltac:(lia) Hmx). unfold is_point. replace (2 ^ K + 1 - 1) with (2 ^ K) by lia.
  assert (Hh : 2 ^ K = 2 * 2 ^ (K - 1)) by (rewrite <- Nat.pow_succ_r'; f_equal; lia).
  assert (Hl : forall n, 2 ^ n / 2 = stencil_line n). { intros [|n]; [reflexivity|]. rewrite Nat.pow_succ_r', Nat.mul_comm, Nat.div_mul by lia. reflexivity. }
  assert (Hp : forall n, 2 ^ n <= 2 ^ K <-> n <= K) by (intros n; symmetry; apply Nat.pow_le_mono_r_iff; lia).
  split.
  - intros (R & C & D). split; [auto|]. split; [auto|]. cbv zeta. destruct D as [(n & D1 & D2 & D3)|[D1 D2]]; [left|right; split; [auto|lia]]. exists n. rewrite Hl, Hp. auto.
  - intros (R & C & D). split; [auto|]. split; [auto|]. destruct D as [(n & D1 & D2 & D3)|[D1 D2]]; [left|right; split; [auto|lia]]. rewrite Hp in D1. rewrite Hl in D2. eauto.
Qed.
Print Assumptions C95_stencil.
Example C95_stencil_example : stencil_coords 5 5 false = [(0,0);(0,1);(0,2);(0,3);(0,4);(1,0);(1,2);(1,4);(2,0);(2,4);(4,2)].
Proof. vm_compute. reflexivity. Qed.

(* With matrices of the right sizes the screen is well formed. *)
Theorem C95_geometry m A B : let N := stencil_size m in
  shape (A:=qc) A N (length (stencil_coords N (screen_size m) false)) -> shape (A:=qc) B N N -> geom_ok (geometry m A B).
Proof.
  intros N HA HB. destruct (sizes m) as (k & K & H1 & H2 & H3 & H4 & _ & _). assert (Hmx : 1 <= screen_size m <= 2 ^ K + 1).
  { rewrite H3. assert (2 ^ k <= 2 ^ K) by (apply Nat.pow_le_mono_r; lia). lia. }
  unfold geom_ok, geometry. cbn [g_n g_at g_A g_B]. unfold N in *. rewrite H4 in *. split; [lia|]. split; [exact HB|]. intros after. split.
  - destruct after; [|exact HA]. rewrite (coords_length K (screen_size m) ltac:(lia) Hmx). now apply flipped_shape.
  - intros r c Hrc. exact (coords_inside K (screen_size m) ltac:(lia) Hmx after r c Hrc).
Qed.
Print Assumptions C95_geometry.

(* A small screen for the examples: 2 x 2 pixels; the new line is made of the two corners on its side. *)
Definition toy (A B : list (list Qc)) : geom := mkGeom 2 (fun after => if after then [(1, 0); (1, 1)] else [(0, 0); (0, 1)]) (fun after => if after then flipped A else A) B.
Definition toyA : list (list Qc) := [[qf 1 2; qi 0]; [qi 0; qi 1]].
Definition unit2 : list (list Qc) := [[qi 1; qi 0]; [qi 0; qi 1]].
Definition none2 : list (list Qc) := [[qi 0; qi 0]; [qi 0; qi 0]].
Definition toynoise (k : nat) : list Qc := [qnat (10 * k + 10); qnat (10 * k + 15)].
Definition toyscreen : list (list Qc) := [[qi 1; qi 2]; [qi 3; qi 4]].
Lemma toy_ok A B : shape (A:=qc) A 2 2 -> shape (A:=qc) B 2 2 -> geom_ok (toy A B).
Proof.
  intros HA HB. split; [cbn; lia|]. split; [exact HB|]. intros [|]; cbn [toy g_A g_at g_n].
  - split; [|intros r c H; cbn in H; intuition; repeat match goal with X : (_, _) = _ |- _ => injection X as <- <- end; lia].
    destruct HA as [L W]. unfold flipped. split; [now rewrite rev_length, map_length|]. intros r Hr. apply in_rev, in_map_iff in Hr as (x & <- & Hx). rewrite rev_length. auto.
  - split; [exact HA|]. intros r c H; cbn in H; intuition; repeat match goal with X : (_, _) = _ |- _ => injection X as <- <- end; lia.
Qed.
Ltac shape2 := split; [reflexivity|let r := fresh "r" in intros r [<-|[<-|[]]]; reflexivity].
Definition see (a : list (list Qc)) : list (list Q) := map (map this) a.

(* One line is added: every pixel takes the value of its neighbour on the side of the new line; the new line is made of
   the old values at the points of the stencil and of one vector of random numbers: the one prepared, or else a new one. *)
Theorem C95_line g noise (s : inf) (row after flush : bool) f (v : list Qc) : geom_ok g -> square_of (g_n g) f (i_full s) ->
  v = match (if row then i_row s else i_col s) with Some v => v | None => noise (i_drawn s) end -> length v = g_n g ->
  let s' := add_line g noise s row after flush in
  exists f', square_of (g_n g) f' (i_full s') /\
    (forall i j i' j', i < g_n g -> j < g_n g -> i' < g_n g -> j' < g_n g -> across row i' j' = across row i j -> depth row after (g_n g) i' j' = S (depth row after (g_n g) i j) -> f' i j = f i' j') /\
    (forall i j, i < g_n g -> j < g_n g -> depth row after (g_n g) i j = g_n g - 1 ->
      f' i j = (given g after (fun r c => if row then f c r else f r c) (across row i j) + chance g v (across row i j))%Qc).
Proof.
  intros Hg Sq Hv Lv s'. assert (U : upcoming noise s row = v) by (rewrite Hv; reflexivity).
  eexists. split; [apply (add_line_square g Hg noise s row after flush f Sq); now rewrite U|]. rewrite U. pose proof (proj1 Hg) as HN. split.
  - intros i j i' j' Hi Hj Hi' Hj' Ea Ed. unfold moved. unfold across, depth in *. destruct row, after.
    + destruct (Nat.ltb_spec (j + 1) (g_n g)); [|lia]. subst i'. f_equal; lia.
    + destruct (Nat.eqb_spec j 0); [lia|]. subst i'. f_equal; lia.
    + destruct (Nat.ltb_spec (i + 1) (g_n g)); [|lia]. subst j'. f_equal; lia.
    + destruct (Nat.eqb_spec i 0); [lia|]. subst j'. f_equal; lia.
  - intros i j Hi Hj Ed. unfold moved. unfold across, depth in *. destruct row, after.
    + destruct (Nat.ltb_spec (j + 1) (g_n g)); [lia|]. reflexivity.
    + destruct (Nat.eqb_spec j 0); [|lia]. reflexivity.
    + destruct (Nat.ltb_spec (i + 1) (g_n g)); [lia|]. reflexivity.
    + destruct (Nat.eqb_spec i 0); [|lia]. reflexivity.
Qed.
Print Assumptions C95_line.
Example C95_line_example :
  see (i_full (add_line (toy toyA unit2) toynoise (fresh toyscreen) false false true)) = [[21 # 2; 17 # 1]; [1 # 1; 2 # 1]] /\
  see (i_full (add_line (toy toyA unit2) toynoise (fresh toyscreen) true true true)) = [[2 # 1; 12 # 1]; [4 # 1; 17 # 1]].
Proof. vm_compute. auto. Qed.

(* A line added without flush can be withdrawn, keeping the random numbers: the next line added along the same axis is
   then the same, and is the one that would have been added at once. *)
Theorem C95_preview g noise s row after : let s1 := add_line g noise s row after false in
  i_full (add_line g noise (mkInf (i_full s) (i_col s1) (i_row s1) (i_drawn s1)) row after true) = i_full s1 /\ i_full s1 = i_full (add_line g noise s row after true) /\
  i_drawn (add_line g noise (mkInf (i_full s) (i_col s1) (i_row s1) (i_drawn s1)) row after true) = i_drawn s1 /\ i_drawn s1 <= S (i_drawn s).
Proof.
  cbv zeta. rewrite !add_line_eq. cbn [i_full i_col i_row i_drawn]. unfold upcoming at 1, after_draw, pending. cbn [i_row i_col i_drawn].
  destruct row; cbn; (split; [reflexivity|]); (split; [reflexivity|]); (split; [reflexivity|]); [destruct (i_row s)|destruct (i_col s)]; lia.
Qed.
Print Assumptions C95_preview.
Example C95_preview_example : let g := toy toyA unit2 in let s1 := add_line g toynoise (fresh toyscreen) true true false in
  map this (match i_row s1 with Some v => v | None => [] end) = [10 # 1; 15 # 1] /\ i_drawn s1 = 1 /\ i_row (add_line g toynoise s1 true true true) = None.
Proof. vm_compute. auto. Qed.

(* A line added after the screen is the line added before the screen turned by 180 degrees. *)
Theorem C95_half_turn m A B (row : bool) (v w : list Qc) (s s' : inf) f noise : let N := stencil_size m in let g := geometry m A B in
  shape (A:=qc) A N (length (stencil_coords N (screen_size m) false)) -> shape (A:=qc) B N N -> length v = N -> length w = N ->
  (forall a, a < N -> chance g v a = chance g w (N - 1 - a)) ->
  (if row then i_row s else i_col s) = Some v -> (if row then i_row s' else i_col s') = Some w ->
  square_of N f (i_full s) -> square_of N (fun i j => f (N - 1 - i) (N - 1 - j)) (i_full s') ->
  exists h, square_of N h (i_full (add_line g noise s row true true)) /\ square_of N (fun i j => h (N - 1 - i) (N - 1 - j)) (i_full (add_line g noise s' row false true)).
Proof.
  intros N g HA HB Lv Lw Hc Ev Ew Sq Sq'. assert (Hg : geom_ok g) by now apply C95_geometry.
  assert (U : upcoming noise s row = v) by (unfold upcoming, pending; now rewrite Ev). assert (U' : upcoming noise s' row = w) by (unfold upcoming, pending; now rewrite Ew).
  eexists. split; [apply (add_line_square g Hg noise s row true true f Sq); now rewrite U|].
  eapply square_ext; [apply (add_line_square g Hg noise s' row false true _ Sq'); now rewrite U'|]. rewrite U, U'.
  assert (HN : 0 < N) by apply Hg. change (g_n g) with N.
  assert (T : forall val a, a < N -> given g true val a = given g false (fun r c => val (N - 1 - r) (N - 1 - c)) (N - 1 - a)).
  { intros val a Ha. destruct (sizes m) as (k & K & H1 & H2 & H3 & H4 & _ & _). assert (Hmx : 1 <= screen_size m <= 2 ^ K + 1).
    { rewrite H3. assert (2 ^ k <= 2 ^ K) by (apply Nat.pow_le_mono_r; lia). lia. }
    unfold g, geometry, N in *. rewrite H4 in *. apply (given_turn K (screen_size m) ltac:(lia) Hmx A B val a HA Ha). }
  intros i j Hi Hj. unfold moved. change (g_n g) with N. destruct row.
  - destruct (Nat.eqb_spec j 0), (Nat.ltb_spec (N - 1 - j + 1) N); try lia; [|f_equal; lia].
    rewrite T, Hc by lia. replace (N - 1 - (N - 1 - i)) with i by lia. reflexivity.
  - destruct (Nat.eqb_spec i 0), (Nat.ltb_spec (N - 1 - i + 1) N); try lia; [|f_equal; lia].
    rewrite T, Hc by lia. replace (N - 1 - (N - 1 - j)) with j by lia. reflexivity.
Qed.
Print Assumptions C95_half_turn.

(* Adding a row to a screen is adding a column to the transposed screen. *)
Theorem C95_transpose g noise (s s' : inf) after f (v : list Qc) : geom_ok g -> length v = g_n g -> i_row s = Some v -> i_col s' = Some v ->
  square_of (g_n g) f (i_full s) -> square_of (g_n g) (fun i j => f j i) (i_full s') ->
  exists h, square_of (g_n g) h (i_full (add_line g noise s true after true)) /\ square_of (g_n g) (fun i j => h j i) (i_full (add_line g noise s' false after true)).
Proof.
  intros Hg Lv Ev Ew Sq Sq'. assert (U : upcoming noise s true = v) by (unfold upcoming, pending; now rewrite Ev). assert (U' : upcoming noise s' false = v) by (unfold upcoming, pending; now rewrite Ew).
  eexists. split; [apply (add_line_square g Hg noise s true after true f Sq); now rewrite U|].
  eapply square_ext; [apply (add_line_square g Hg noise s' false after true _ Sq'); now rewrite U'|]. rewrite U, U'. intros i j Hi Hj. unfold moved. now destruct after.
Qed.
Print Assumptions C95_transpose.
Example C95_transpose_example : let g := toy toyA unit2 in let v := [qi 7; qi 8] in
  see (i_full (add_line g toynoise (mkInf toyscreen None (Some v) 0) true true true)) = [[2 # 1; 9 # 1]; [4 # 1; 10 # 1]] /\
  see (i_full (add_line g toynoise (mkInf [[qi 1; qi 3]; [qi 2; qi 4]] (Some v) None 0) false true true)) = [[2 # 1; 4 # 1]; [9 # 1; 10 # 1]].
Proof. vm_compute. auto. Qed.

(* A screen defines one strip of turbulence in each direction, and shows it line after line. *)
Theorem C95_strip g noise row after f a0 : geom_ok g -> (forall k, length (noise k) = g_n g) -> square_of (g_n g) f a0 ->
  exists P, strip g noise row after f P /\ (forall Q, strip g noise row after f Q -> forall a q, a < g_n g -> Q a q = P a q) /\
  forall k, square_of (g_n g) (fun i j => P (across row i j) (k + depth row after (g_n g) i j)) (i_full (add_lines g noise k (fresh a0) row after)).
Proof.
  intros Hg Hn Sq. destruct (strip_exists g Hg noise Hn row after f a0 Sq) as [P HP]. exists P. split; [exact HP|]. split.
  - intros Q HQ a q Ha. exact (strip_unique g Hg noise row after f Q P HQ HP q a Ha).
  - intros k. apply (add_lines_strip g Hg noise Hn row after P k 0 (fresh a0)).
    + eapply square_ext; [exact Sq|]. intros i j Hi Hj. symmetry. now apply HP.
    + split; [destruct row; reflexivity|]. left. destruct row; auto.
    + intros n a. apply HP.
Qed.
Print Assumptions C95_strip.
Example C95_strip_example : see (i_full (add_lines (toy toyA unit2) toynoise 3 (fresh toyscreen) true false)) = [[341 # 8; 101 # 4]; [78 # 1; 43 # 1]].
Proof. vm_compute. reflexivity. Qed.

(* =============================================================================== C96 *)
Section C96.
Variables cosd sind root : Qc -> Qc.
Variable pitch : Qc.
Variable strength : Qc -> Qc.
Notation evolution := (evolution_inf cosd sind root pitch strength).
Notation place := (place pitch).
Notation forward := (forward cosd sind pitch).
Notation coeff := (coeff strength).
(* the phase of layer k after the triggers *)
Definition layer_phase (st : sky) (k : nat) : option (list (list Qc)) := v_phase (nth k (snd (fst st)) still).

Lemma some_inj {X} (a b : X) : Some a = Some b -> a = b. Proof. now intros [= ->]. Qed.

(* A simulation with at least one trigger runs when every layer has a wind and an element of Cn2. *)
Theorem C96_runs ls cn2 sc hist : length sc = length ls -> hist <> [] ->
  ((exists st, evolution ls cn2 sc hist = Ok st) <-> length ls <= length cn2 /\ forall w, In w hist -> length (we_wind w) = length ls).
Proof.
  intros Hs. induction hist as [|w h IH] using rev_ind; [congruence|]. intros _. rewrite evolution_inf_snoc. split.
  - intros [st H]. inv_bind H. destruct a as [[ss vs] t]. destruct (evolution_inf_state cosd sind root pitch strength ls cn2 sc h ss vs t Hs E) as (L1 & L2 & _).
    unfold evolve_inf in H. cbn [fst snd] in H. inv_bind H. destruct (waft_all_nth _ _ _ _ _ _ _ _ _ _ _ _ E0) as (_ & _ & Lw & Lc & _).
    split; [exact Lc|]. intros x Hx. apply in_app_or in Hx as [Hx|[<-|[]]]; [|exact Lw]. destruct h as [|y h]; [destruct Hx|]. destruct IH as [I _]; [discriminate|]. destruct I as [_ I]; [eauto|]. now apply I.
  - intros [Lc Hw]. assert (X : exists st, evolution ls cn2 sc h = Ok st).
    { destruct h as [|y h]; [eexists; reflexivity|]. apply IH; [discriminate|]. split; [exact Lc|]. intros x Hx. apply Hw. apply in_or_app. auto. }
    destruct X as [[[ss vs] t] E]. rewrite E. cbn [bind]. destruct (evolution_inf_state cosd sind root pitch strength ls cn2 sc h ss vs t Hs E) as (L1 & L2 & _).
    unfold evolve_inf. cbn [fst snd]. destruct (waft_all_ok cosd sind root pitch ls ss vs (we_wind w) cn2 (seconds (we_t w - t)) (coeff (we_seeing w))) as [r Er]; auto.
    { apply Hw. apply in_or_app. cbn. auto. }
    rewrite Er. cbn. eauto.
Qed.

(* Without seeing there is no turbulence. *)
Theorem C96_no_seeing ls cn2 sc h w st k ph : length sc = length ls -> evolution ls cn2 sc (h ++ [w]) = Ok st -> k < length ls -> (we_seeing w <= 0)%Qc -> layer_phase st k = Some ph ->
  forall r x, In r ph -> In x r -> x = 0%Qc.
Proof.
  intros Hs H Hk Hz Hp r x Hr Hx. rewrite evolution_inf_snoc in H. inv_bind H. destruct a as [[ss vs] t]. unfold evolve_inf in H. cbn [fst snd] in H. inv_bind H. injection H as <-.
  destruct (waft_all_nth _ _ _ _ _ _ _ _ _ _ _ _ E0) as (_ & _ & _ & _ & _ & _ & X). destruct (X k Hk) as [_ X2]. unfold layer_phase in Hp. cbn [fst snd] in Hp. rewrite X2 in Hp. cbn [v_phase] in Hp. apply some_inj in Hp. rewrite <- Hp in Hr. clear Hp X2 X.
  unfold scaled in Hr. apply in_map_iff in Hr as (r0 & <- & _). apply in_map_iff in Hx as (x0 & <- & _).
  unfold InfModel.coeff. destruct (qlt 0 (we_seeing w)) eqn:Q; [qclra|]. ring.
Qed.

(* The square root of a square is used for the fraction of a line. *)
Hypothesis Hroot : forall x, (0 <= x)%Qc -> root (x * x)%Qc = x.
Section F.
Variables row after : bool.
Variables (ls : list leaf) (sc : list (list (list Qc))) (k : nat) (f : nat -> nat -> Qc).
Hypothesis Hk : k < length ls.
Hypothesis Hs : length sc = length ls.
Notation l := (nth k ls leaf0).
Hypothesis Hg : geom_ok (l_geom l).
Hypothesis Hn : forall j, length (l_noise l j) = g_n (l_geom l).
Hypothesis Hm : l_size l <= g_n (l_geom l).
Hypothesis Hf : square_of (g_n (l_geom l)) f (nth k sc []).

(* A layer whose wind always blows along one axis, in one sense, is a strip of turbulence carried rigidly by the wind:
   after every trigger it shows the strip at the distance covered, plus the one of the extra time. *)
Theorem C96_frozen cn2 h w st P m q : strip (l_geom l) (l_noise l) row after f P -> evolution ls cn2 sc (h ++ [w]) = Ok st -> forward row after (l_extra l) k (h ++ [w]) ->
  let x := (path pitch 0 (moments k (h ++ [w])) + fst (nth k (we_wind w) (0, 0)%Qc) * l_extra l / pitch)%Qc in
  x = (qnat m + q)%Qc -> (0 <= q)%Qc /\ (q < 1)%Qc -> exists ph, layer_phase st k = Some ph /\
  square_of (l_size l) (fun i j => glimpse veps P m q (across row i j) (depth row after (g_n (l_geom l)) i j) * (coeff (we_seeing w) * root (nth k cn2 0%Qc)))%Qc ph.
Proof.
  intros HP E F x Ex Eq. destruct st as [[ss vs] t]. pose proof (run_strip cosd sind root pitch strength Hroot row after ls sc k Hk Hs Hg Hn Hm f Hf P HP cn2 (h ++ [w]) ss vs t F E) as (_ & _ & R).
  apply (R h w m q eq_refl). rewrite place_snoc. split; [exact Ex|exact Eq].
Qed.

(* Two simulations that have carried a layer to the same distance show the same layer, whatever the triggers. *)
Theorem C96_sampling cn2 h w st h' w' st' x : evolution ls cn2 sc (h ++ [w]) = Ok st -> evolution ls cn2 sc (h' ++ [w']) = Ok st' ->
  forward row after (l_extra l) k (h ++ [w]) -> forward row after (l_extra l) k (h' ++ [w']) -> (0 <= x)%Qc ->
  place (l_extra l) k (h ++ [w]) = x -> place (l_extra l) k (h' ++ [w']) = x -> we_seeing w = we_seeing w' ->
  exists u ph ph', layer_phase st k = Some ph /\ layer_phase st' k = Some ph' /\ square_of (l_size l) u ph /\ square_of (l_size l) u ph'.
Proof.
  intros E E' F F' Hx Px Px' Se. destruct (strip_exists _ Hg _ Hn row after f _ Hf) as [P HP]. destruct (whole_ex x Hx) as (m & q & W). pose proof W as (W1 & W2). rewrite place_snoc in Px, Px'.
  destruct (C96_frozen cn2 h w st P m q HP E F) as (ph & A & B); [congruence|auto|]. destruct (C96_frozen cn2 h' w' st' P m q HP E' F') as (ph' & A' & B'); [congruence|auto|].
  eexists. exists ph, ph'. split; [exact A|]. split; [exact A'|]. split; [exact B|]. now rewrite Se.
Qed.

(* A displacement by a whole number n of lines moves the picture rigidly by n pixels. *)
Theorem C96_rigid cn2 h w st h' w' st' n : evolution ls cn2 sc (h ++ [w]) = Ok st -> evolution ls cn2 sc (h' ++ [w']) = Ok st' ->
  forward row after (l_extra l) k (h ++ [w]) -> forward row after (l_extra l) k (h' ++ [w']) -> (0 <= place (l_extra l) k (h ++ [w]))%Qc ->
  place (l_extra l) k (h' ++ [w']) = (place (l_extra l) k (h ++ [w]) + qnat n)%Qc -> we_seeing w = we_seeing w' ->
  exists u u' ph ph', layer_phase st k = Some ph /\ layer_phase st' k = Some ph' /\ square_of (l_size l) u ph /\ square_of (l_size l) u' ph' /\
  forall i j i' j', across row i' j' = across row i j -> depth row after (g_n (l_geom l)) i j = depth row after (g_n (l_geom l)) i' j' + n -> u' i' j' = u i j.
Proof.
  intros E E' F F' Hx Px Se. destruct (strip_exists _ Hg _ Hn row after f _ Hf) as [P HP]. destruct (whole_ex _ Hx) as (m & q & W1 & W2). rewrite !place_snoc in *.
  destruct (C96_frozen cn2 h w st P m q HP E F W1 W2) as (ph & A & B). destruct (C96_frozen cn2 h' w' st' P (m + n) q HP E' F') as (ph' & A' & B'); [|auto|].
  { rewrite Px, W1, qnat_add. ring. }
  do 2 eexists. exists ph, ph'. split; [exact A|]. split; [exact A'|]. split; [exact B|]. split; [exact B'|]. intros i j i' j' Ea Ed. cbv beta. rewrite Se, Ea, Ed. f_equal. unfold glimpse.
  replace (m + (depth row after (g_n (l_geom l)) i' j' + n)) with (m + n + depth row after (g_n (l_geom l)) i' j') by lia. reflexivity.
Qed.
End F.
End C96.
Print Assumptions C96_runs.
Print Assumptions C96_no_seeing.
Print Assumptions C96_frozen.
Print Assumptions C96_sampling.
Print Assumptions C96_rigid.

(* What the constructor and the setup refuse. *)
Theorem C96_refused n nL0 seed cn2 : check_inf n nL0 seed cn2 = Ok tt <->
  (match nL0 with Some k => k = n | None => True end) /\ (0 < seed)%Z /\ (qabs (vsum (A:=qc) cn2 - 1) <= 1 / qz 1000000 + 1 / qz 100000)%Qc.
Proof.
  unfold check_inf. assert (Q : forall a b, qlt a b = false <-> (b <= a)%Qc). { intros a b. split; [intros E; qclra|]. intros H. destruct (qlt a b) eqn:E; [exfalso; qclra|reflexivity]. }
  destruct nL0 as [k|]; [destruct (Nat.eqb_spec k n); cbn [negb]|].
  2: { split; [discriminate|]. intros (H & _). congruence. }
  all: destruct (Z.leb_spec seed 0); [split; [discriminate|]; intros (_ & H1 & _); lia|].
  all: destruct (qlt _ _) eqn:E; [split; [discriminate|]; intros (_ & _ & H1); apply Q in H1; congruence|]; apply Q in E; tauto.
Qed.
Print Assumptions C96_refused.
Theorem C96_inputs n seeing speeds dirs : (setup_inf n seeing speeds dirs = Ok tt <-> length seeing = 1 /\ length speeds = n /\ length dirs = n) /\
  (setup_inf n seeing speeds dirs <> Ok tt -> setup_inf n seeing speeds dirs = Err ValueError).
Proof.
  unfold setup_inf. destruct (Nat.eqb_spec (length seeing) 1), (Nat.eqb_spec (length speeds) n), (Nat.eqb_spec (length dirs) n); cbn [negb]; (split; [split; [discriminate || auto|]|congruence]); try tauto; intros; intuition congruence.
Qed.
Print Assumptions C96_inputs.
Example C96_refused_example : check_inf 2 (Some 1) 5 [qf 1 2; qf 1 2] = Err ValueError /\ check_inf 2 None 0 [qf 1 2; qf 1 2] = Err ValueError /\
  check_inf 2 None 5 [qf 1 2; qf 1 3] = Err ValueError /\ check_inf 2 (Some 2) 5 [qf 1 2; qf 1 2] = Ok tt /\ setup_inf 2 [qi 1] [qi 1] [qi 1; qi 2] = Err ValueError.
Proof. vm_compute. auto 6. Qed.

(* ------------------------------------------------------------------------- examples *)
(* cosine and sine of 0, 90, 180, 270 degrees and of an angle of the triangle 3, 4, 5 *)
Definition turn (d : Qc) : Qc * Qc :=
  if Qc_eq_dec d (qi 0) then (qi 1, qi 0) else if Qc_eq_dec d (qi 90) then (qi 0, qi 1) else if Qc_eq_dec d (qi 180) then (qi (-1), qi 0)
  else if Qc_eq_dec d (qi 270) then (qi 0, qi (-1)) else (qf 3 5, qf 4 5).
Definition cosx (d : Qc) : Qc := fst (turn d).
Definition sinx (d : Qc) : Qc := snd (turn d).
Definition rootx (x : Qc) : Qc := Q2Qc (Z.sqrt (Qnum x) # Z.to_pos (Z.sqrt (Zpos (Qden x)))).
Lemma turn_circle d : (cosx d * cosx d + sinx d * sinx d = 1)%Qc.
Proof. unfold cosx, sinx, turn. repeat destruct (Qc_eq_dec _ _); apply Qc_is_canon; reflexivity. Qed.
Lemma rootx_square x : (0 <= x)%Qc -> rootx (x * x)%Qc = x.
Proof.
  intros H. destruct x as [[p q] C]. unfold Qcle in H. cbn in H. unfold Qle in H. cbn in H.
  assert (G : Z.gcd p (Zpos q) = 1%Z) by (apply Qred_iff in C; exact C).
  assert (R : Qred ((p # q) * (p # q)) = (p * p # q * q)).
  { apply Qred_iff. cbn [Qmult Qnum Qden]. rewrite Pos2Z.inj_mul. apply Zgcd_1_rel_prime. apply Zgcd_1_rel_prime in G. apply rel_prime_mult; apply rel_prime_sym, rel_prime_mult; apply rel_prime_sym; exact G. }
  assert (E : this (Qcmult (Qcmake (p # q) C) (Qcmake (p # q) C)) = (p * p # q * q)) by exact R.
  unfold rootx. rewrite E. cbn [Qnum Qden]. rewrite Pos2Z.inj_mul, !Z.sqrt_square by lia. cbn [Z.to_pos]. apply Qc_is_canon. cbn [this Q2Qc]. now rewrite Qred_correct.
Qed.
Definition view (r : res sky) : list (list (list Q)) := match r with Ok (_, vs, _) => map (fun v => match v_phase v with Some a => see a | None => [] end) vs | Err _ => [] end.
Definition toyleaf (A B : list (list Qc)) (extra : Qc) : leaf := mkLeaf (toy A B) toynoise 2 extra.
Definition blows (t : Z) (v dir : Qc) : weather := mkWeather t (qi 1) [(v, dir)].
Definition one_s : Z := 1000000000.
Notation toyrun ls sc hist := (evolution_inf cosx sinx rootx 1%Qc (fun s => s) ls [qi 1] sc hist).

(* wind of one and a half pixels per second along the rows, in the two senses *)
Example C96_frozen_example :
  view (toyrun [toyleaf toyA unit2 (qi 0)] [toyscreen] [blows 0 (qf 3 2) (qi 0); blows one_s (qf 3 2) (qi 0)]) = [[[7 # 1; 22 # 1]; [21 # 2; 101 # 4]]] /\
  view (toyrun [toyleaf toyA unit2 (qi 0)] [toyscreen] [blows 0 (qf 3 2) (qi 180); blows one_s (qf 3 2) (qi 180)]) = [[[143 # 8; 23 # 4]; [61 # 2; 21 # 2]]] /\
  view (toyrun [toyleaf toyA unit2 (qi 0)] [toyscreen] [blows 0 (qf 1 2) (qi 0); blows one_s (qf 1 2) (qi 0); blows (2 * one_s) (qi 1) (qi 0)]) = [[[7 # 1; 22 # 1]; [21 # 2; 101 # 4]]].
Proof. vm_compute. auto. Qed.
(* the hypotheses of the theorems hold for it *)
Example C96_frozen_applies : exists P ph, strip (toy toyA unit2) toynoise true true (fun i j => nth j (nth i toyscreen []) 0%Qc) P /\
  (forall st, toyrun [toyleaf toyA unit2 (qi 0)] [toyscreen] ([blows 0 (qf 3 2) (qi 0)] ++ [blows one_s (qf 3 2) (qi 0)]) = Ok st -> layer_phase st 0 = Some ph) /\
  square_of 2 (fun i j => glimpse veps P 1 (qf 1 2) i j * (qi 1 * rootx (qi 1)))%Qc ph.
Proof.
  assert (Hg : geom_ok (toy toyA unit2)) by (apply toy_ok; shape2). assert (Hn : forall j, length (toynoise j) = 2) by reflexivity.
  assert (Hf : square_of 2 (fun i j => nth j (nth i toyscreen []) 0%Qc) toyscreen) by (split; [reflexivity|split; [|auto]]; intros [|[|i]] H; [reflexivity|reflexivity|lia]).
  destruct (strip_exists _ Hg toynoise Hn true true _ _ Hf) as [P HP]. exists P.
  set (L := [toyleaf toyA unit2 (qi 0)]). set (H := [blows 0 (qf 3 2) (qi 0)] ++ [blows one_s (qf 3 2) (qi 0)]).
  destruct (proj2 (C96_runs cosx sinx rootx 1%Qc (fun s => s) L [qi 1] [toyscreen] H eq_refl ltac:(discriminate))) as [st E].
  { split; [cbn; lia|]. intros w [<-|[<-|[]]]; reflexivity. }
  destruct (C96_frozen cosx sinx rootx 1%Qc (fun s => s) rootx_square true true L [toyscreen] 0 _ ltac:(cbn; lia) eq_refl Hg Hn (le_n 2) Hf [qi 1] [blows 0 (qf 3 2) (qi 0)] (blows one_s (qf 3 2) (qi 0)) st P 1 (qf 1 2) HP E) as (ph & A & B).
  - intros h w r X. destruct h as [|x [|y [|]]]; cbn in X; try discriminate; injection X as; subst.
    + split; [split; apply Qc_is_canon; reflexivity|]. intros Y; vm_compute in Y; discriminate.
    + split; [split; apply Qc_is_canon; reflexivity|]. intros Y; vm_compute in Y; discriminate.
  - apply Qc_is_canon. reflexivity.
  - split; [intros Y; vm_compute in Y; discriminate|reflexivity].
  - exists ph. split; [exact HP|]. split; [intros st' E'; assert (st' = st) by congruence; now subst|].
    eapply square_ext; [exact B|]. intros i j Hi Hj. reflexivity.
Qed.

(* "When the wind turns back the layer comes back": it does not. *)
Theorem C96_reversal_refuted : exists ls sc h1 h2, place 1%Qc 0 0 h2 = place 1%Qc 0 0 h1 /\
  (forall l, In l ls -> geom_ok (l_geom l) /\ g_B (l_geom l) = none2) /\ map we_seeing h2 = [qi 1; qi 1; qi 1] /\ map we_seeing h1 = [qi 1] /\
  (exists t, h2 = h1 ++ t) /\ view (toyrun ls sc h1) = map see sc /\ length (view (toyrun ls sc h2)) = 1 /\ view (toyrun ls sc h2) <> view (toyrun ls sc h1).
Proof.
  exists [toyleaf toyA none2 (qi 0)], [toyscreen], [blows 0 (qi 1) (qi 0)], [blows 0 (qi 1) (qi 0); blows one_s (qi 1) (qi 0); blows (2 * one_s) (qi (-1)) (qi 0)].
  split; [apply Qc_is_canon; reflexivity|]. split; [intros l [<-|[]]; split; [apply toy_ok; shape2|reflexivity]|]. do 2 (split; [reflexivity|]). split; [eexists; reflexivity|].
  vm_compute. split; [reflexivity|]. split; [reflexivity|]. discriminate.
Qed.
Print Assumptions C96_reversal_refuted.

(* "The phase of a layer is between the smallest and the largest value of its screen": not with a wind along neither
   axis, where a fraction of a line is taken with a weight above one.  Here every new value is a mean of old ones. *)
Definition means : list (list Qc) := [[qf 1 2; qf 1 2]; [qi 1; qi 0]].
Theorem C96_range_refuted : exists ls sc w, (forall l, In l ls -> geom_ok (l_geom l) /\ g_B (l_geom l) = none2 /\
    forall after r, In r (g_A (l_geom l) after) -> (forall x, In x r -> (0 <= x)%Qc) /\ vsum (A:=qc) r = 1%Qc) /\
  (forall a r x, In a sc -> In r a -> In x r -> (0 <= x)%Qc /\ (x <= 1)%Qc) /\ we_seeing w = 1%Qc /\
  exists st ph r x, toyrun ls sc [w] = Ok st /\ layer_phase st 0 = Some ph /\ In r ph /\ In x r /\ (1 < x)%Qc.
Proof.
  exists [toyleaf means none2 (qi 0)], [[[qi 0; qi 0]; [qi 0; qi 1]]], (blows one_s (qf 6 5) (qi 53)).
  split; [|split; [|split; [apply Qc_is_canon; reflexivity|]]].
  - intros l [<-|[]]. split; [apply toy_ok; shape2|]. split; [reflexivity|].
    intros [|] r Hr; cbn in Hr; destruct Hr as [<-|[<-|[]]]; (split; [intros x [<-|[<-|[]]]; intros Y; vm_compute in Y; discriminate|apply Qc_is_canon; reflexivity]).
  - intros a r x [<-|[]] [<-|[<-|[]]] [<-|[<-|[]]]; split; intros Y; vm_compute in Y; discriminate.
  - eexists. eexists. eexists. eexists. split; [vm_compute; reflexivity|]. split; [reflexivity|]. split; [left; reflexivity|]. split; [left; reflexivity|]. reflexivity.
Qed.
Print Assumptions C96_range_refuted.

(* "A layer does not depend on the number of triggers": it does with a wind along neither axis. *)
Theorem C96_diagonal_sampling_refuted : exists ls sc t v dir t1, (0 < t1 < t)%Z /\ (forall l, In l ls -> geom_ok (l_geom l) /\ g_B (l_geom l) = none2) /\
  length (view (toyrun ls sc [blows t v dir])) = 1 /\ view (toyrun ls sc [blows t v dir]) <> view (toyrun ls sc [blows t1 v dir; blows t v dir]).
Proof.
  exists [toyleaf toyA none2 (qi 0)], [toyscreen], (2 * one_s)%Z, (qf 5 2), (qi 53), one_s. split; [split; reflexivity|]. split; [intros l [<-|[]]; split; [apply toy_ok; shape2|reflexivity]|].
  vm_compute. split; [reflexivity|]. discriminate.
Qed.
Print Assumptions C96_diagonal_sampling_refuted.

(* "What the constructor and the setup accept runs": a list Cn2 shorter than the list of heights is accepted. *)
Theorem C96_cn2_refuted : exists ls sc seed cn2 w, check_inf (length ls) None seed cn2 = Ok tt /\ setup_inf (length ls) [we_seeing w] (map fst (we_wind w)) (map snd (we_wind w)) = Ok tt /\ length sc = length ls /\
  evolution_inf cosx sinx rootx 1%Qc (fun s => s) ls cn2 sc [w] = Err IndexError.
Proof.
  exists [toyleaf toyA none2 (qi 0); toyleaf toyA none2 (qi 0)], [toyscreen; toyscreen], 7%Z, [qi 1], (mkWeather one_s (qi 1) [(qi 1, qi 0); (qi 1, qi 0)]).
  vm_compute. auto.
Qed.
Print Assumptions C96_cn2_refuted.

(* =============================================================================== C97 *)
Section C97.
Variables cosd sind root : Qc -> Qc.
Variable pitch : Qc.
Variable strength : Qc -> Qc.
Notation evolution := (evolution_inf cosd sind root pitch strength).
Notation evolution2 := (evolution_inf2 cosd sind root pitch strength).

Lemma moments_alone k hist : moments 0 (map (alone k) hist) = moments k hist.
Proof. unfold moments. rewrite map_map. apply map_ext. reflexivity. Qed.

(* When no upward extra time is smaller than the downward one, every downward layer is what a simulation without upward
   layers would give, with some of the random numbers of its generator, in their order. *)
Theorem C97_down downs ups cn2 sc hist ss dv uv t k : length sc = length downs -> length ups = length downs -> k < length downs ->
  (forall i, i < length downs -> (l_extra (nth i downs leaf0) <= l_extra (nth i ups leaf0))%Qc) ->
  evolution2 downs ups cn2 sc hist = Ok (ss, dv, uv, t) ->
  exists phi, (forall i, phi i < phi (S i)) /\
  exists s1, evolution [with_noise (nth k downs leaf0) (fun i => l_noise (nth k downs leaf0) (phi i))] [nth k cn2 0%Qc] [nth k sc []] (map (alone k) hist) = Ok ([s1], [nth k dv still], t).
Proof.
  intros Hs Hu Hk Hx H.
  assert (F : down_first downs ups = true).
  { unfold down_first. apply forallb_forall. intros [a b] I. cbn [fst snd]. apply (In_nth _ _ (leaf0, leaf0)) in I as (i & Hi & E). rewrite combine_length in Hi. rewrite combine_nth in E by lia. injection E as <- <-.
    specialize (Hx i ltac:(lia)). destruct (qlt _ _) eqn:Q; [qclra|reflexivity]. }
  assert (E1 : nth k (map fresh sc) inf0 = fresh (nth k sc [])) by (rewrite (nth_indep _ inf0 (fresh [])) by (rewrite map_length; lia); apply map_nth).
  assert (E2 : nth k (map (fun _ => still) sc) still = still) by apply (map_nth (fun _ => still) sc []).
  destruct (down_follows cosd sind root pitch strength downs ups cn2 k Hk Hu F hist _ _ _ _ _ _ _ _ (fresh (nth k sc [])) H) as (phi & _ & P1 & P2).
  { rewrite E1. repeat split. }
  exists phi. split; [exact P1|]. destruct (P2 (fun i => l_noise (nth k downs leaf0) (phi i))) as (s1 & X & _); [reflexivity|]. exists s1. rewrite E2 in X. exact X.
Qed.

(* So it is carried by the wind as in C96. *)
Theorem C97_down_frozen downs ups cn2 sc h w ss dv uv t k row after f : length sc = length downs -> length ups = length downs -> k < length downs ->
  (forall x, (0 <= x)%Qc -> root (x * x)%Qc = x) ->
  (forall i, i < length downs -> (l_extra (nth i downs leaf0) <= l_extra (nth i ups leaf0))%Qc) ->
  evolution2 downs ups cn2 sc (h ++ [w]) = Ok (ss, dv, uv, t) ->
  let l := nth k downs leaf0 in let N := g_n (l_geom l) in
  geom_ok (l_geom l) -> (forall j, length (l_noise l j) = N) -> l_size l <= N -> square_of N f (nth k sc []) ->
  forward cosd sind pitch row after (l_extra l) k (h ++ [w]) ->
  exists phi P, (forall i, phi i < phi (S i)) /\ strip (l_geom l) (fun i => l_noise l (phi i)) row after f P /\
  forall m q, place pitch (l_extra l) k (h ++ [w]) = (qnat m + q)%Qc -> (0 <= q)%Qc /\ (q < 1)%Qc ->
  exists ph, v_phase (nth k dv still) = Some ph /\
  square_of (l_size l) (fun i j => glimpse veps P m q (across row i j) (depth row after N i j) * (coeff strength (we_seeing w) * root (nth k cn2 0%Qc)))%Qc ph.
Proof.
  intros Hs Hu Hk Hroot Hx H l N Hg Hn Hm Hf F. destruct (C97_down downs ups cn2 sc (h ++ [w]) ss dv uv t k Hs Hu Hk Hx H) as (phi & P1 & s1 & X). fold l in X.
  destruct (strip_exists _ Hg (fun i => l_noise l (phi i)) (fun i => Hn (phi i)) row after f _ Hf) as [P HP]. exists phi, P. split; [exact P1|]. split; [exact HP|]. intros m q Ex Eq.
  assert (Pl : forall h', place pitch (l_extra l) 0 (map (alone k) h') = place pitch (l_extra l) k h').
  { intros h'. destruct h' as [|w' h' _] using rev_ind; [reflexivity|]. rewrite map_app. cbn [map]. rewrite !place_snoc. f_equal. change (map (alone k) h' ++ [alone k w']) with (map (alone k) h' ++ map (alone k) [w']). now rewrite <- map_app, moments_alone. }
  rewrite map_app in X. cbn [map] in X.
  destruct (C96_frozen cosd sind root pitch strength Hroot row after [with_noise l (fun i => l_noise l (phi i))] [nth k sc []] 0 f ltac:(cbn; lia) eq_refl Hg (fun i => Hn (phi i)) Hm Hf [nth k cn2 0%Qc] (map (alone k) h) (alone k w) _ P m q HP X) as (ph & A & B).
  - change (map (alone k) h ++ [alone k w]) with (map (alone k) h ++ map (alone k) [w]). rewrite <- map_app.
    intros h1 w1 r E. apply map_eq_app in E as (u & v & E & <- & Ev). destruct v as [|w2 v]; [discriminate|]. injection Ev as <- <-.
    destruct (F u w2 v E) as [F1 F2]. split; [exact F1|]. change (map (alone k) u ++ [alone k w2]) with (map (alone k) u ++ map (alone k) [w2]). rewrite <- map_app. cbn [nth with_noise l_extra]. rewrite !Pl. exact F2.
  - rewrite <- Ex, <- Pl, map_app. cbn [map]. rewrite place_snoc. reflexivity.
  - exact Eq.
  - exists ph. split; [exact A|exact B].
Qed.
End C97.
Print Assumptions C97_down.
Print Assumptions C97_down_frozen.

Definition both (r : res sky2) : list (list (list Q)) * list (list (list Q)) :=
  match r with Ok (ss, dv, uv, t) => (view (Ok (ss, dv, t)), view (Ok (ss, uv, t))) | Err _ => ([], []) end.
Notation toyrun2 ds us sc hist := (evolution_inf2 cosx sinx rootx 1%Qc (fun s => s) ds us [qi 1] sc hist).
(* the upward layers have used the second vector of random numbers; the second step of the downward ones uses the third *)
Example C97_down_example :
  fst (both (toyrun2 [toyleaf toyA unit2 (qi 0)] [toyleaf toyA unit2 (qi 0)] [toyscreen] [blows one_s (qi 1) (qi 0); blows (2 * one_s) (qi 1) (qi 0)])) =
  view (toyrun [with_noise (toyleaf toyA unit2 (qi 0)) (fun i => toynoise (2 * i))] [toyscreen] [blows one_s (qi 1) (qi 0); blows (2 * one_s) (qi 1) (qi 0)]) /\
  fst (both (toyrun2 [toyleaf toyA unit2 (qi 0)] [toyleaf toyA unit2 (qi 0)] [toyscreen] [blows one_s (qi 1) (qi 0); blows (2 * one_s) (qi 1) (qi 0)])) = [[[12 # 1; 42 # 1]; [17 # 1; 87 # 2]]].
Proof. vm_compute. auto. Qed.

(* "With equal extra times the upward and the downward layers are the same": the upward ones start from the screens
   already moved, and are one step ahead. *)
Theorem C97_up_refuted : exists ls sc w, (forall l, In l ls -> geom_ok (l_geom l) /\ g_B (l_geom l) = none2) /\
  length (snd (both (toyrun2 ls ls sc [w]))) = 1 /\ fst (both (toyrun2 ls ls sc [w])) <> snd (both (toyrun2 ls ls sc [w])) /\ fst (both (toyrun2 ls ls sc [w])) = view (toyrun ls sc [w]).
Proof.
  exists [toyleaf toyA none2 (qi 0)], [toyscreen], (blows one_s (qi 1) (qi 0)). split; [intros l [<-|[]]; split; [apply toy_ok; shape2|reflexivity]|]. vm_compute. split; [reflexivity|]. split; [discriminate|reflexivity].
Qed.
Print Assumptions C97_up_refuted.

(* "The upward layers are those of a simulation with the upward extra times": not even when all steps are equal. *)
Theorem C97_ahead_refuted : exists downs ups sc hist, (forall l, In l (downs ++ ups) -> geom_ok (l_geom l) /\ g_B (l_geom l) = none2) /\ down_first downs ups = true /\ length hist = 3 /\
  length (snd (both (toyrun2 downs ups sc hist))) = 1 /\ snd (both (toyrun2 downs ups sc hist)) <> view (toyrun ups sc hist).
Proof.
  exists [toyleaf toyA none2 (qi 0)], [toyleaf toyA none2 (qi 2)], [toyscreen], [blows one_s (qi 1) (qi 0); blows (2 * one_s) (qi 1) (qi 0); blows (3 * one_s) (qi 1) (qi 0)].
  split; [intros l [<-|[<-|[]]]; split; try reflexivity; apply toy_ok; shape2|]. vm_compute. do 3 (split; [reflexivity|]). discriminate.
Qed.
Print Assumptions C97_ahead_refuted.

(* "The downward layers do not depend on the upward ones": they do when an upward extra time is smaller. *)
Theorem C97_down_second_refuted : exists downs ups sc w, (forall l, In l (downs ++ ups) -> geom_ok (l_geom l) /\ g_B (l_geom l) = none2) /\ down_first downs ups = false /\
  length (fst (both (toyrun2 downs ups sc [w]))) = 1 /\ fst (both (toyrun2 downs ups sc [w])) <> view (toyrun downs sc [w]).
Proof.
  exists [toyleaf toyA none2 (qi 1)], [toyleaf toyA none2 (qi 0)], [toyscreen], (blows one_s (qi 1) (qi 0)).
  split; [intros l [<-|[<-|[]]]; split; try reflexivity; apply toy_ok; shape2|]. vm_compute. do 2 (split; [reflexivity|]). discriminate.
Qed.
Print Assumptions C97_down_second_refuted.
