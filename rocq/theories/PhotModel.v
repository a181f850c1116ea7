(* specula/lib/n_phot.py: number of photons of a star and of the sky.

   Real numbers, no rounding; exceptions of the class Exception are RuntimeError here. *)
From Coq Require Import String Reals List Bool.
From Verif Require Import PyBase.
Import ListNotations.
Local Open Scope R_scope.

Record row := mkRow { b_name : string; b_lambda : R; b_width : R; b_e0 : R; b_back : R }.
(* one column of the tables: wavelength and width in um, brightness in 1e-10 J/s/m2/um, as written *)
Definition entry (name : string) (lam wid e0 back : R) : row := mkRow name (lam / 10 ^ 6) (wid / 10 ^ 6) (e0 / 10 ^ 10) back.
(* n_phot.py:212-246 DefaultModel *)
Definition default_table : list row :=
  [ entry "U" (36 / 100) (68 / 1000) 435 23; entry "B" (44 / 100) (98 / 1000) 720 22; entry "V" (55 / 100) (89 / 1000) 392 21;
    entry "R" (70 / 100) (220 / 1000) 176 20; entry "I" (90 / 100) (240 / 1000) 83 (195 / 10); entry "J" (125 / 100) (300 / 1000) 34 14;
    entry "H" (165 / 100) (350 / 1000) 7 (135 / 10); entry "K" (220 / 100) (400 / 1000) (39 / 10) (125 / 10); entry "L" (340 / 100) (550 / 1000) (81 / 100) 3;
    entry "M" 5 (300 / 1000) (22 / 100) 0; entry "Na" (589 / 1000) (10 / 1000) 392 23 ].
(* n_phot.py:249-262 Maory1Model; the name of the fourth band starts with a space *)
Definition maory_table : list row :=
  [ entry "V" (54 / 100) (90 / 1000) 368 (214 / 10); entry "R" (65 / 100) (130 / 1000) 177 (206 / 10); entry "I" (80 / 100) (200 / 1000) 119 (197 / 10);
    entry " J" (125 / 100) (300 / 1000) (286 / 10) (165 / 10); entry "H" (165 / 100) (350 / 1000) (108 / 10) (144 / 10); entry "K" (220 / 100) (400 / 1000) (379 / 100) 13 ].
Inductive table_name := Default | Maory | OtherTable.
(* n_phot.py:271-280 get_model *)
Definition get_model (m : table_name) : res (list row) :=
  match m with Default => Ok default_table | Maory => Ok maory_table | OtherTable => Err RuntimeError end.

(* list.index *)
Fixpoint position {X} (p : X -> bool) (l : list X) : option nat :=
  match l with [] => None | x :: r => if p x then Some 0%nat else option_map S (position p r) end.
Definition least (l : list R) : R := match l with [] => 0 | x :: r => fold_left Rmin r x end.
Definition same (x y : R) : bool := if Req_EM_T x y then true else false.
(* n_phot.py:160-183: position in the table, and wavelength *)
Definition find_band (m : table_name) (table : list row) (band : option string) (lambda : option R) : res (nat * R) :=
  match band, lambda with
  | None, None => Err ValueError
  | Some b, _ =>
      match position (fun r => String.eqb (b_name r) b) table with
      | None => Err RuntimeError
      | Some i => Ok (i, match lambda with Some l => l | None => nth i (map b_lambda table) 0 end)
      end
  | None, Some l =>
      let na := (if Rlt_dec (Rabs (l - 589 / 1000 / 10 ^ 6)) (1 / 10000 / 10 ^ 6) then true else false) && (match m with Maory => false | _ => true end) in
      let lams := map b_lambda (if na then table else removelast table) in
      let values := map (fun x => Rabs (x - l)) lams in
      match position (same (least values)) values with
      | None => Err ValueError
      | Some i => Ok (i, l)
      end
  end.
Definition planck : R := 6626 / 10 ^ 37.
Definition light : R := 3 * 10 ^ 8.
Definition or_else {X} (o : option X) (d : X) : X := match o with Some x => x | None => d end.
(* n_phot.py:8-207 n_phot *)
Definition n_phot (m : table_name) (mag : R) (band : option string) (surf delta_t : R) (lambda width e0 back : option R) : res (R * R) :=
  table <- get_model m ;;
  il <- find_band m table band lambda ;;
  let r := nth (fst il) table (mkRow "" 0 0 0 0) in
  let l := snd il in
  let w := or_else width (b_width r) in
  let bm := or_else back (b_back r) in
  let e := or_else e0 (b_e0 r) in
  Ok (l * delta_t * surf * (w * 10 ^ 6) * e / (planck * light) * Rpower 10 (- mag / (5 / 2)),
      l * delta_t * surf * (w * 10 ^ 6) * e / (planck * light) * Rpower 10 (- bm / (5 / 2))).
