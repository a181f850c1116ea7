(* Two-dimensional interpolation. *)
From Coq Require Import List ZArith Bool Arith QArith Qcanon Qround.
From Verif Require Import PyBase Arith OpticalModel NpModel FitsModel RebinModel VecModel SlopecModel.
Import ListNotations.

Definition qz (z : Z) : Qc := Q2Qc (inject_Z z).
Definition qfloor (x : Qc) : Z := Qfloor (this x).

(* specula/lib/interp2d.py:115-246.  The attributes used by interpolate on the CPU: the shapes
   and the coordinates (yy, xx), absent when there is nothing to do (do_interp=False).
   Coordinates are exact rationals. *)
Record interp := mkInterp { ip_in : nat * nat; ip_out : nat * nat; ip_grid : option (arr2 Qc * arr2 Qc) }.

(* interp2d.py:226-229: values below 0, then above n-1 *)
Definition limit (n : nat) (x : Qc) : Qc :=
  let y := if qlt x 0%Qc then 0%Qc else x in
  if qlt (qz (Z.of_nat n - 1)) y then qz (Z.of_nat n - 1) else y.
(* interp2d.py:202-220: rotation (cos, sin) of (x, y), giving (y, x), and magnification about the centre.  A
   magnification of zero (infinite coordinates) is not represented. *)
Definition turn (rot : option (Qc * Qc)) (p : Qc * Qc) : Qc * Qc :=
  match rot with None => (snd p, fst p) | Some (c, s) => (fst p * s + snd p * c, fst p * c - snd p * s)%Qc end.
Definition centre (n : nat) : Qc := (qn n / (1 + 1) - 1 / (1 + 1))%Qc.
Definition is_none {X} (o : option X) : bool := match o with None => true | Some _ => false end.
Definition is1 (x : Qc) : bool := if Qc_eq_dec x 1%Qc then true else false.
(* a point (x, y) of the initial grid gives (y, x) *)
Definition about (inr inc : nat) (rot : option (Qc * Qc)) (mag : Qc) (x y : Qc) : Qc * Qc :=
  if is_none rot && is1 mag then (y, x) else
  let yx := turn rot ((x - centre inc) / mag, (y - centre inr) / mag)%Qc in
  (fst yx + centre inr, snd yx + centre inc)%Qc.
Definition coords (inr inc : nat) (rot : option (Qc * Qc)) (mag rs cs : Qc) (x y : Qc) : Qc * Qc :=
  let yx := about inr inc rot mag x y in
  (limit inr (fst yx + rs)%Qc, limit inc (snd yx + cs)%Qc).
(* interp2d.py:184-200: the initial grid *)
Definition scaled (n m k : nat) : Qc := (qn k * (qz (Z.of_nat n - 1) / qn m))%Qc.
Definition shape_is (r c : nat) (a : arr2 Qc) : bool := Nat.eqb (a_r a) r && Nat.eqb (a_c a) c.
Definition interp_init (inr inc outr outc : nat) (rot : option (Qc * Qc)) (rs cs mag : Qc) (yy xx : option (arr2 Qc)) : res interp :=
  if Nat.eqb inr outr && Nat.eqb inc outc && is_none rot && ExtModel.is0 rs && ExtModel.is0 cs && is1 mag && is_none xx && is_none yy then
    Ok (mkInterp (inr, inc) (outr, outc) None)
  else
    g <- match yy, xx with
         | Some y, Some x => if shape_is outr outc y && shape_is outr outc x then Ok (ent qc y, ent qc x) else Err ValueError
         | _, _ => if Nat.eqb outr 0 || Nat.eqb outc 0 then Err ZeroDivisionError
                   else Ok ((fun a _ => scaled inr outr a), (fun _ b => scaled inc outc b))
         end ;;
    let p a b := coords inr inc rot mag rs cs (snd g a b) (fst g a b) in
    Ok (mkInterp (inr, inc) (outr, outc) (Some (tab qc outr outc (fun a b => fst (p a b)), tab qc outr outc (fun a b => snd (p a b))))).

(* scipy RegularGridInterpolator, method 'linear', on the grid 0, 1, ... n-1: the last cell is
   closed.  An axis of one point has a single value (the second weight is zero). *)
Definition cell (n : nat) (x : Qc) : nat := Z.to_nat (Z.min (qfloor x) (Z.of_nat n - 2)).
Definition bilinear (v : arr2 Qc) (y x : Qc) : Qc :=
  let i := cell (a_r v) y in let j := cell (a_c v) x in
  let dy := (y - qn i)%Qc in let dx := (x - qn j)%Qc in
  (ent qc v i j * ((1 - dy) * (1 - dx)) + ent qc v i (S j) * ((1 - dy) * dx)
   + ent qc v (S i) j * (dy * (1 - dx)) + ent qc v (S i) (S j) * (dy * dx))%Qc.
(* interp2d.py:248-327 interpolate on the CPU *)
Definition interpolate (ip : interp) (v : arr2 Qc) : res (arr2 Qc) :=
  if negb (shape_is (fst (ip_in ip)) (snd (ip_in ip)) v) then Err ValueError else
  match ip_grid ip with
  | None => Ok v
  | Some (yy, xx) => Ok (tab qc (fst (ip_out ip)) (snd (ip_out ip)) (fun a b => bilinear v (ent qc yy a b) (ent qc xx a b)))
  end.
(* a new interpolator used once *)
Definition resample (outr outc : nat) (rot : option (Qc * Qc)) (rs cs mag : Qc) (yy xx : option (arr2 Qc)) (v : arr2 Qc) : res (arr2 Qc) :=
  ip <- interp_init (a_r v) (a_c v) outr outc rot rs cs mag yy xx ;; interpolate ip v.

(* ------------------------------------------------------------------------------ kernels *)
(* interp2d.py:10-35 bilinear_interp.  The input is in row order; [mem] is the memory after
   the address of the array, of which the first in_dx * in_dy values are the array. *)
Definition gpu_bilinear (mem : Z -> Qc) (dx dy : nat) (xc yc : Qc) : Qc :=
  let xin := qfloor xc in let yin := qfloor yc in
  let xd := (xc - qz xin)%Qc in let yd := (yc - qz yin)%Qc in
  let w := Z.of_nat dx in
  let a := mem (yin * w + xin)%Z in let b := mem (yin * w + (xin + 1))%Z in
  let c := mem ((yin + 1) * w + xin)%Z in let d := mem ((yin + 1) * w + (xin + 1))%Z in
  (if (yin + 1 <? Z.of_nat dy)%Z
   then a * (1 - xd) * (1 - yd) + b * xd * (1 - yd) + c * yd * (1 - xd) + d * xd * yd
   else a * (1 - xd) * (1 - yd) + b * xd * (1 - yd))%Qc.
(* the addresses read *)
Definition gpu_reads (dx dy : nat) (xc yc : Qc) : list Z :=
  let xin := qfloor xc in let yin := qfloor yc in let w := Z.of_nat dx in
  [(yin * w + xin)%Z; (yin * w + (xin + 1))%Z] ++
  (if (yin + 1 <? Z.of_nat dy)%Z then [((yin + 1) * w + xin)%Z; ((yin + 1) * w + (xin + 1))%Z] else []).
(* interp2d.py:57-100 interp2_kernel_onthefly: the coordinates (x, y) of an output pixel; the
   angle is given by its cosine and sine, 1 and 0 without rotation *)
Definition gpu_coords (inr inc outr outc : nat) (cs_ : Qc * Qc) (mag rs cs : Qc) (a b : nat) : Qc * Qc :=
  let xc := (qn b * (qz (Z.of_nat inc - 1) / qn outc) - centre inc)%Qc in
  let yc := (qn a * (qz (Z.of_nat inr - 1) / qn outr) - centre inr)%Qc in
  let xm := if is1 mag then xc else (xc / mag)%Qc in
  let ym := if is1 mag then yc else (yc / mag)%Qc in
  let r := if is1 (fst cs_) && ExtModel.is0 (snd cs_) then (xm, ym)
           else (xm * fst cs_ - ym * snd cs_, xm * snd cs_ + ym * fst cs_)%Qc in
  let x := (fst r + centre inc + cs)%Qc in let y := (snd r + centre inr + rs)%Qc in
  (limit inc x, limit inr y).
