(* Vocabulary for the modal reconstructor properties. *)
From Coq Require Import List ZArith Bool PeanoNat.
From Verif Require Import PyBase Arith FilterSpec RecModel.
Import ListNotations.
Local Open Scope ar_scope.

Section S.
Context {A : arith}.

(* element of a matrix *)
Definition entry (M : mat A) (i j : nat) : A := nth j (nth i M []) 0.

(* the slopes, their time, and the commands presented to a reconstructor *)
Definition slopes_of (i : rec_in A) : vec A :=
  match ri_slopes i with Some (v, _) => v | None => concat (map fst (ri_list i)) end.
Definition time_of (i : rec_in A) : option Z :=
  match ri_slopes i, ri_list i with Some (_, g), _ => Some g | None, (_, g) :: _ => Some g | None, [] => None end.
Definition commands_of (nm : nat) (i : rec_in A) : vec A :=
  match ri_cmd i with Some (Some v) => v | _ => zeros nm end.

(* inputs of the right sizes: [ns] slopes, and [nm] commands connected to in_commands *)
Definition good_in (ns nm : nat) (i : rec_in A) : Prop :=
  time_of i <> None /\ length (slopes_of i) = ns /\ ri_cmd i <> None /\ length (commands_of nm i) = nm.

(* pseudo open loop mode [j] and output mode [k] of the POLC scheme: reconstruct the
   slopes seen without correction, project, remove the commands *)
Definition open_loop_mode (R D : mat A) (ns nm : nat) (s c : vec A) (j : nat) : A :=
  sumn ns (fun m => entry R j m * (nth m s 0 + sumn nm (fun q => entry D m q * nth q c 0))).
Definition polc_mode (P R D : mat A) (nl ns nm : nat) (s c : vec A) (k : nat) : A :=
  sumn nl (fun j => entry P k j * open_loop_mode R D ns nm s c j) - nth k c 0.

(* slopes of all the sensors, zero for the sensors not refreshed at [t] *)
Definition refreshed (t : Z) (ins : list (vec A * Z)) : vec A :=
  concat (map (fun p => if (snd p =? t)%Z then fst p else zeros (length (fst p))) ins).
End S.
