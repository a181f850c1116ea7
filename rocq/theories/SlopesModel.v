(* Slope vectors with their X and Y parts and two-dimensional maps. *)
From Coq Require Import String List ZArith Bool Arith.
From Verif Require Import PyBase Arith NpModel VecModel.
Import ListNotations.

Section Slopes.
Variable A : arith.
Notation V := (car A).

(* specula/data_objects/slopes.py:17-36
   Simplification: of the mask only the number of pixels matters (get2d takes zeros_like of
   it), so [sl_mask] is that number and a frame is the list of its pixels in row order; the
   display map is the one-dimensional array of flattened positions (the two-row form is not
   modelled). *)
Record slopes := mkSlopes {
  sl_val : list V;
  sl_inter : bool;
  sl_ix : list Z;
  sl_iy : list Z;
  sl_mask : option nat;
  sl_map : option (list Z);
  sl_pup : option string;
  sl_sub : option string }.

(* xp.arange(a, b) *)
Definition arange (a b : nat) : list Z := map Z.of_nat (seq a (b - a)).
(* slopes.py:31-33, 70-72 *)
Definition inter_x (n : nat) : list Z := map (fun i => (i * 2)%Z) (arange 0 (n / 2)).
Definition inter_y (n : nat) : list Z := map (fun i => (i + 1)%Z) (inter_x n).

(* slopes.py:17-36 Slopes(slopes=v, interleave=inter) *)
Definition new_slopes (v : list V) (inter : bool) : slopes :=
  let n := length v in
  mkSlopes v inter (if inter then inter_x n else arange 0 (n / 2)) (if inter then inter_y n else arange (n / 2) n)
    None None None None.
(* slopes.py:23-25 Slopes(length=n, interleave=inter) *)
Definition new_slopes_len (n : nat) (inter : bool) : slopes := new_slopes (zeros n) inter.

Definition with_val (s : slopes) (v : list V) : slopes :=
  mkSlopes v (sl_inter s) (sl_ix s) (sl_iy s) (sl_mask s) (sl_map s) (sl_pup s) (sl_sub s).

(* slopes.py:38-42, 78-83 *)
Definition s_size (s : slopes) : nat := length (sl_val s).

(* slopes.py:44-52 set_value *)
Definition set_value (s : slopes) (v : list V) : res slopes :=
  if Nat.eqb (length v) (s_size s) then w <- assign_all (sl_val s) v ;; Ok (with_val s w) else Err AssertionError.

(* slopes.py:56-76 resize: in the sequential layout the Y positions are the X positions
   shifted by half of the size *)
Definition resize (s : slopes) (n : nat) : slopes :=
  mkSlopes (zeros n) (sl_inter s) (if sl_inter s then inter_x n else arange 0 (n / 2))
    (if sl_inter s then inter_y n else map (fun i => (i + Z.of_nat (n / 2))%Z) (arange 0 (n / 2)))
    (sl_mask s) (sl_map s) (sl_pup s) (sl_sub s).

(* slopes.py:85-111 *)
Definition xslopes (s : slopes) : res (list V) := take_list (sl_val s) (sl_ix s).
Definition yslopes (s : slopes) : res (list V) := take_list (sl_val s) (sl_iy s).
Definition set_xslopes (s : slopes) (v : list V) : res slopes :=
  w <- assign_list (sl_val s) (sl_ix s) v ;; Ok (with_val s w).
Definition set_yslopes (s : slopes) (v : list V) : res slopes :=
  w <- assign_list (sl_val s) (sl_iy s) v ;; Ok (with_val s w).

(* in-place addition: the right side is repeated if it has one element, and must not enlarge
   the left side *)
Definition iop (f : V -> V -> V) (u v : list V) : res (list V) :=
  match v with
  | [x] => Ok (map (fun a => f a x) u)
  | _ => if Nat.eqb (length u) (length v) then Ok (map2 f u v) else Err ValueError
  end.
(* slopes.py:124-128 sum *)
Definition sum_slopes (s : slopes) (s2 : slopes) (factor : V) : res slopes :=
  w <- iop add (sl_val s) (map (fun x => mul x factor) (sl_val s2)) ;; Ok (with_val s w).
(* slopes.py:130-143 subtract; [v] is the array of the other object *)
Definition subtract (s : slopes) (v : list V) : res slopes :=
  match v with
  | [] => Ok s
  | _ => w <- iop sub (sl_val s) v ;; Ok (with_val s w)
  end.

(* np.put(frame, idx, v): values are repeated if there are fewer of them than indices, and
   nothing happens if there are none *)
Definition np_put (frame : list V) (idx : list Z) (v : list V) : res (list V) :=
  match v with
  | [] => Ok frame
  | _ => assign_list frame idx (map (fun k => nth (k mod length v) v zer) (seq 0 (length idx)))
  end.
(* slopes.py:145-165 x_remap2d, y_remap2d, one-dimensional positions *)
Definition x_remap2d (s : slopes) (frame : list V) (idx : list Z) : res (list V) :=
  x <- xslopes s ;; np_put frame idx x.
Definition y_remap2d (s : slopes) (frame : list V) (idx : list Z) : res (list V) :=
  y <- yslopes s ;; np_put frame idx y.

(* slopes.py:167-191 get2d: one frame, or the X and the Y frame *)
Definition get2d (s : slopes) : res (list (list V)) :=
  match sl_mask s, sl_map s with
  | None, _ | _, None => Err ValueError
  | Some np, Some idx =>
      if Nat.eqb (s_size s) (length idx) then
        f <- np_put (zeros np) idx (sl_val s) ;; Ok [f]
      else
        fx <- x_remap2d s (zeros np) idx ;;
        fy <- y_remap2d s (zeros np) idx ;;
        Ok [fx; fy]
  end.
End Slopes.
Arguments mkSlopes {A}. Arguments sl_val {A}. Arguments sl_inter {A}. Arguments sl_ix {A}. Arguments sl_iy {A}.
Arguments sl_mask {A}. Arguments sl_map {A}. Arguments sl_pup {A}. Arguments sl_sub {A}.
