(* C115: number of photons (n_phot). *)
From Coq Require Import String Reals List Bool Arith Lia Lra.
From Verif Require Import PyBase PyLemmas PhotModel PhotSpec PhotProofs.
Import ListNotations.
Local Open Scope R_scope.

Definition no_row := mkRow "" 0 0 0 0.
Definition table_of (m : table_name) : list row := match m with Maory => maory_table | _ => default_table end.

(* errors *)
Theorem C115_errors m mag band surf t lambda width e0 back e :
  n_phot m mag band surf t lambda width e0 back = Err e <->
    (m = OtherTable /\ e = RuntimeError) \/
    (m <> OtherTable /\ ((band = None /\ lambda = None /\ e = ValueError) \/ exists b, band = Some b /\ ~ In b (map b_name (table_of m)) /\ e = RuntimeError)).
Proof.
  destruct m eqn:M; [| |split; [intros H; left; split; [reflexivity|cbn in H; congruence]|intros [[_ ->]|[H _]]; [reflexivity|now destruct H]]]; rewrite <- M;
    (assert (T : get_model m = Ok (table_of m)) by now rewrite M); (assert (O : m <> OtherTable) by (rewrite M; discriminate)); clear M;
    unfold n_phot; rewrite T; cbn [bind]; unfold find_band; (destruct band as [b|]; [|destruct lambda as [l|]]).
  1,4: destruct (position (fun r => String.eqb (b_name r) b) (table_of m)) as [k|] eqn:P; cbn [bind]; (split; [intros H; try discriminate|intros [[? _]|[_ [(? & _)|(b' & E & N & ->)]]]; try contradiction; try discriminate]);
    [exfalso; injection E as <-; apply (position_some _ _ _ no_row) in P; destruct P as (A & B & _); apply String.eqb_eq in B; apply N; rewrite <- B; now apply in_map, nth_In
    |injection H as <-; right; split; [exact O|]; right; exists b; repeat split; rewrite position_none in P; intros I; apply in_map_iff in I; destruct I as (r & E & I); specialize (P r I); rewrite E, String.eqb_refl in P; discriminate
    |reflexivity].
  1,3: split; [intros H; exfalso|intros [[? _]|[_ [(_ & ? & _)|(b' & E & _)]]]; try contradiction; discriminate];
    match type of H with context [map b_lambda ?t] => destruct (nearest_spec l (map b_lambda t)) as (i & P & _); [destruct m; [| |now destruct O]; destruct (_ && _); discriminate|rewrite P in H; discriminate] end.
  all: split; [intros H; injection H as <-; right; split; [exact O|]; left; now repeat split|intros [[? _]|[_ [(_ & _ & ->)|(b' & E & _)]]]; try contradiction; try discriminate; reflexivity].
Qed.
Print Assumptions C115_errors.

(* with a band: its entry, and the given wavelength *)
Theorem C115_band m mag b surf t lambda width e0 back i : m <> OtherTable -> (i < length (table_of m))%nat -> b_name (nth i (table_of m) no_row) = b -> or_else lambda (b_lambda (nth i (table_of m) no_row)) <> 0 ->
  let r := nth i (table_of m) no_row in let l := or_else lambda (b_lambda r) in let w := or_else width (b_width r) * 10 ^ 6 in let e := or_else e0 (b_e0 r) in
  n_phot m mag (Some b) surf t lambda width e0 back = Ok (flux l t surf w e mag, flux l t surf w e (or_else back (b_back r))).
Proof.
  intros M Hi Hb L r l w e. assert (P : position (fun r => String.eqb (b_name r) b) (table_of m) = Some i).
  { assert (D : NoDup (map b_name (table_of m))). { destruct m; cbn; repeat (constructor; [cbn; intuition discriminate|]); constructor. }
    destruct (position (fun r => String.eqb (b_name r) b) (table_of m)) as [k|] eqn:E.
    - apply (position_some _ _ _ no_row) in E. destruct E as (A & B & _). apply String.eqb_eq in B. f_equal. rewrite (NoDup_nth _ ""%string) in D. apply D; rewrite ?map_length; try assumption.
      change ""%string with (b_name no_row). rewrite !map_nth. now rewrite B, Hb.
    - exfalso. rewrite position_none in E. specialize (E (nth i (table_of m) no_row) ltac:(now apply nth_In)). rewrite Hb, String.eqb_refl in E. discriminate. }
  assert (T : get_model m = Ok (table_of m)) by (destruct m; try reflexivity; now destruct M). unfold n_phot. rewrite T. cbn [bind]. unfold find_band. rewrite P. cbn [bind fst snd]. fold no_row. fold r.
  assert (Ll : match lambda with Some l => l | None => nth i (map b_lambda (table_of m)) 0 end = l). { unfold l, or_else. destruct lambda; [reflexivity|]. change 0 with (b_lambda no_row). apply map_nth. }
  rewrite Ll. rewrite !flux_eq by exact L. reflexivity.
Qed.
Print Assumptions C115_band.
(* without a band: the entry with the nearest wavelength, the first of equals; the sodium entry only within 0.1 nm *)
Theorem C115_wavelength m mag l surf t width e0 back : m <> OtherTable -> l <> 0 ->
  let lams := map b_lambda (match m with Default => if Rlt_dec (Rabs (l - 589 / 1000 / 10 ^ 6)) (1 / 10000 / 10 ^ 6) then default_table else removelast default_table | _ => removelast maory_table end) in
  exists i, nearest l lams i /\ let r := nth i (table_of m) no_row in let w := or_else width (b_width r) * 10 ^ 6 in let e := or_else e0 (b_e0 r) in
    n_phot m mag None surf t (Some l) width e0 back = Ok (flux l t surf w e mag, flux l t surf w e (or_else back (b_back r))).
Proof.
  intros M L lams. assert (N : lams <> []) by (unfold lams; destruct m; [destruct (Rlt_dec _ _)| |]; cbn; discriminate). destruct (nearest_spec l lams N) as (i & P & Ni). exists i. split; [exact Ni|]. cbv zeta.
  assert (T : get_model m = Ok (table_of m)) by (destruct m; try reflexivity; now destruct M).
  assert (F : find_band m (table_of m) None (Some l) = Ok (i, l)).
  { unfold find_band. destruct m; [| |now destruct M]; cbn [table_of].
    - unfold lams in P. destruct (Rlt_dec (Rabs (l - 589 / 1000 / 10 ^ 6)) (1 / 10000 / 10 ^ 6)); cbn [andb]; now rewrite P.
    - rewrite andb_false_r. unfold lams in P. now rewrite P. }
  unfold n_phot. rewrite T. cbn [bind]. rewrite F. cbn [bind fst snd]. fold no_row. now rewrite !flux_eq by exact L.
Qed.
Print Assumptions C115_wavelength.

(* magnitudes *)
Theorem C115_five_magnitudes m mag band surf t lambda width e0 back a b : n_phot m mag band surf t lambda width e0 back = Ok (a, b) -> n_phot m (mag + 5) band surf t lambda width e0 back = Ok (a / 100, b).
Proof.
  unfold n_phot. intros H. apply bind_ok in H as (tb & E & H). rewrite E. cbn [bind]. apply bind_ok in H as (il & E2 & H). rewrite E2. cbn [bind]. injection H as <- <-. f_equal. f_equal.
  replace (- (mag + 5) / (5 / 2)) with (- mag / (5 / 2) + - (2)) by field. rewrite Rpower_plus, (Rpower_Ropp 10 2). replace (Rpower 10 2) with 100; [field; unfold planck, light; lra|].
  change 2 with (INR 2). rewrite Rpower_pow by lra. cbn [pow INR]. ring.
Qed.
Print Assumptions C115_five_magnitudes.
(* the sky is a star of its magnitude *)
Theorem C115_background m mag band surf t lambda width e0 back any a b : n_phot m mag band surf t lambda width e0 (Some back) = Ok (a, b) -> exists c, n_phot m back band surf t lambda width e0 any = Ok (b, c).
Proof.
  unfold n_phot. intros H. apply bind_ok in H as (tb & E & H). rewrite E. cbn [bind]. apply bind_ok in H as (il & E2 & H). rewrite E2. cbn [bind]. injection H as <- <-. now eexists.
Qed.
Print Assumptions C115_background.
(* proportional to the surface and to the time, and positive *)
Theorem C115_proportional m mag band surf t lambda width e0 back k j a b : n_phot m mag band surf t lambda width e0 back = Ok (a, b) -> n_phot m mag band (k * surf) (j * t) lambda width e0 back = Ok (k * j * a, k * j * b).
Proof.
  unfold n_phot. intros H. apply bind_ok in H as (tb & E & H). rewrite E. cbn [bind]. apply bind_ok in H as (il & E2 & H). rewrite E2. cbn [bind]. injection H as <- <-. f_equal. f_equal; unfold planck, light; field.
Qed.
Print Assumptions C115_proportional.
Lemma tables_positive m r : In r (table_of m) -> 0 < b_lambda r /\ 0 < b_width r /\ 0 < b_e0 r.
Proof.
  intros H. assert (A : forall n l w e b, 0 < l -> 0 < w -> 0 < e -> 0 < b_lambda (entry n l w e b) /\ 0 < b_width (entry n l w e b) /\ 0 < b_e0 (entry n l w e b)) by (intros; cbn [entry b_lambda b_width b_e0]; repeat split; apply Rdiv_lt_0_compat; try assumption; apply pow_lt; lra).
  destruct m; cbn in H; repeat (destruct H as [<-|H]; [apply A; lra|]); destruct H.
Qed.
Theorem C115_positive m mag band surf t lambda width e0 back a b : 0 < surf -> 0 < t -> (forall l, lambda = Some l -> 0 < l) -> (forall w, width = Some w -> 0 < w) -> (forall e, e0 = Some e -> 0 < e) ->
  n_phot m mag band surf t lambda width e0 back = Ok (a, b) -> 0 < a /\ 0 < b.
Proof.
  intros S T L W E H. unfold n_phot in H. apply bind_ok in H as (tb & E1 & H). apply bind_ok in H as (il & E2 & H). injection H as <- <-.
  assert (Tb : tb = table_of m) by (clear - E1; destruct m; [injection E1 as <-|injection E1 as <-|discriminate E1]; reflexivity). subst tb.
  assert (I : (fst il < length (table_of m))%nat /\ 0 < snd il).
  { unfold find_band in E2. destruct band as [bd|], lambda as [l|]; try discriminate.
    - destruct (position _ _) as [i|] eqn:P; [|discriminate]. injection E2 as <-. apply (position_some _ _ _ no_row) in P. split; [apply P|]. now apply L.
    - destruct (position _ _) as [i|] eqn:P; [|discriminate]. injection E2 as <-. apply (position_some _ _ _ no_row) in P. split; [apply P|]. cbn [snd]. change 0 with (b_lambda no_row) at 2. rewrite map_nth. apply (tables_positive m), nth_In, P.
    - destruct (position _ _) as [i|] eqn:P; [|discriminate]. injection E2 as <-. apply (position_some _ _ _ 0) in P. destruct P as (P & _). rewrite !map_length in P. split; [|now apply L]. cbn [fst].
      destruct (_ && _) in P; [exact P|]. apply (Nat.lt_trans _ _ _ P). destruct m; cbn; lia. }
  destruct I as [I1 I2]. assert (Tp := tables_positive m (nth (fst il) (table_of m) no_row) ltac:(now apply nth_In)). fold no_row. set (r := nth (fst il) (table_of m) no_row) in *.
  assert (Pw : 0 < or_else width (b_width r)) by (destruct width as [w|]; [now apply W|apply Tp]). assert (Pe : 0 < or_else e0 (b_e0 r)) by (destruct e0 as [e|]; [now apply E|apply Tp]).
  assert (Pc : 0 < planck * light) by (unfold planck, light; apply Rmult_lt_0_compat; [apply Rdiv_lt_0_compat; [lra|apply pow_lt; lra]|apply Rmult_lt_0_compat; [lra|apply pow_lt; lra]]).
  assert (P0 : 0 < snd il * t * surf * (or_else width (b_width r) * 10 ^ 6) * or_else e0 (b_e0 r) / (planck * light)).
  { apply Rdiv_lt_0_compat; [|exact Pc]. assert (P6 : 0 < 10 ^ 6) by (apply pow_lt; lra). generalize dependent (10 ^ 6). intros v Hv. repeat apply Rmult_lt_0_compat; assumption. }
  split; apply Rmult_lt_0_compat; try exact P0; apply Rpower10_pos.
Qed.
Print Assumptions C115_positive.
Example C115_example : n_phot Default 0 (Some "V"%string) 1 1 None None None None = Ok (flux (55 / 100 / 10 ^ 6) 1 1 (89 / 1000) (392 / 10 ^ 10) 0, flux (55 / 100 / 10 ^ 6) 1 1 (89 / 1000) (392 / 10 ^ 10) 21).
Proof.
  rewrite (C115_band Default 0 "V" 1 1 None None None None 2); [|discriminate|cbn; lia|reflexivity|cbn; lra]. cbn [table_of nth default_table entry or_else b_width b_lambda b_e0 b_back]. replace (89 / 1000 / 10 ^ 6 * 10 ^ 6) with (89 / 1000) by field. reflexivity.
Qed.

(* bands of the second table *)
Theorem C115_J_refuted : exists b, In (String.append " " b) (map b_name maory_table) /\ forall mag surf t lambda width e0 back, n_phot Maory mag (Some b) surf t lambda width e0 back = Err RuntimeError.
Proof. exists "J"%string. split; [cbn; tauto|]. reflexivity. Qed.
Print Assumptions C115_J_refuted.
(* the wavelength of its last band is taken for the one before *)
Theorem C115_last_refuted : exists r, In r maory_table /\ forall mag surf t, exists r', In r' maory_table /\ b_name r' <> b_name r /\
  n_phot Maory mag None surf t (Some (b_lambda r)) None None None = n_phot Maory mag (Some (b_name r')) surf t (Some (b_lambda r)) None None None.
Proof.
  exists (entry "K" (220 / 100) (400 / 1000) (379 / 100) 13). split; [cbn; tauto|]. intros mag surf t. exists (entry "H" (165 / 100) (350 / 1000) (108 / 10) (144 / 10)). split; [cbn; tauto|]. split; [discriminate|].
  set (l := b_lambda (entry "K" (220 / 100) (400 / 1000) (379 / 100) 13)). assert (L : l <> 0) by (unfold l; cbn; lra).
  destruct (C115_wavelength Maory mag l surf t None None None ltac:(discriminate) L) as (i & N & ->).
  assert (N4 : nearest l (map b_lambda (removelast maory_table)) 4).
  { unfold l. cbn [b_lambda entry maory_table removelast map]. assert (K : forall a, a < 220 / 100 / 10 ^ 6 -> Rabs (a - 220 / 100 / 10 ^ 6) = 220 / 100 / 10 ^ 6 - a) by (intros a A; rewrite Rabs_left by lra; lra).
    split; [cbn; lia|]. split.
    - intros j J. cbn [length] in J. destruct j as [|[|[|[|[|j]]]]]; [| | | | |lia]; cbn [nth]; rewrite !K by lra; lra.
    - intros j J. destruct j as [|[|[|[|j]]]]; [| | | |lia]; cbn [nth]; rewrite !K by lra; lra. }
  rewrite (nearest_unique _ _ _ _ N N4). cbn [b_name entry]. rewrite (C115_band Maory mag "H" surf t (Some l) None None None 4); [|discriminate|cbn; lia|reflexivity|exact L]. reflexivity.
Qed.
Print Assumptions C115_last_refuted.
