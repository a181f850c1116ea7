(* What a mirror shows after a history of commands. *)
From Coq Require Import List Bool PeanoNat.
From Verif Require Import PyBase Arith DmModel.
Import ListNotations.
Local Open Scope ar_scope.

Section S.
Context {A : arith}.
(* The most recent command with an i-th element, of which only the first [k] elements
   count. *)
Definition last_command (k : nat) (hist : list (vec A)) (i : nat) : option A :=
  match find (fun c => i <? Nat.min k (length c)) (rev hist) with
  | Some c => Some (nth i c 0)
  | None => None
  end.
(* modes not commanded yet are at rest *)
Definition signed (sign : A) (o : option A) : A := match o with Some x => sign * x | None => 0 end.
Definition plain (o : option A) : A := match o with Some x => x | None => 0 end.
(* pixel [j] of a combination of modes: sum of coefficient times influence function *)
Definition pixel (coeffs : vec A) (modes : mat A) (j : nat) : A := dot coeffs (map (fun r => nth j r 0) modes).
End S.
