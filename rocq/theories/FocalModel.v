(* Coronagraphs and focal plane filters: specula/processing_objects/abstract_coronagraph.py and its subclasses.

   Numbers are real, Fourier transforms exact.  The field at the entrance is the one after interpolation
   (abstract_coronagraph.py:139-140, not modelled here); the output array has the size of the field, so that toccd
   (abstract_coronagraph.py:168) returns it unchanged (toccd.py:58-60). *)
From Coq Require Import Reals List ZArith Bool Arith.
From Verif Require Import PyBase Fourier PsfModel.
Import ListNotations.
Local Open Scope R_scope.

Definition field : Type := nat -> nat -> C.

(* apodizer, focal plane mask (as made, before fftshift), pupil stop; side of the field, padding, total size
   (abstract_coronagraph.py:76-89) *)
Record coronagraph := mkCoronagraph { g_size : nat; g_padding : nat; g_total : nat; g_on_pixel : bool; g_apod : field; g_mask : field; g_stop : field }.

(* abstract_coronagraph.py:213-225 and utils.py:315-336: make_xy(2*tot, tot, quarter, zero_sampled) gives 0, 1, ..., tot-1
   (make_xy.py:139-160), so the ramp is exp(-2j pi (x + y) / (2 tot)) *)
Definition phase_shift (g : coronagraph) (i j : nat) : C :=
  if g_on_pixel g then c1 else cis (- 2 * PI * (INR j / INR (2 * g_total g) * 1 + INR i / INR (2 * g_total g) * 1)).
(* abstract_coronagraph.py:125-128 *)
Definition pad_start (g : coronagraph) : nat := (g_padding g / 2)%nat.
Definition padded (g : coronagraph) (u : field) : field := fun i j =>
  if (pad_start g <=? i)%nat && (i <? pad_start g + g_size g)%nat && (pad_start g <=? j)%nat && (j <? pad_start g + g_size g)%nat
  then u (i - pad_start g)%nat (j - pad_start g)%nat else c0.
(* abstract_coronagraph.py:124-134 *)
Definition to_focal (g : coronagraph) (u : field) : field := dft2 (g_total g) (g_total g) (fun i j => cmul (padded g u i j) (phase_shift g i j)).
(* abstract_coronagraph.py:142-162 trigger_code; ValueError when the field does not fit the padded array *)
Definition pupil_after (g : coronagraph) (u : field) : field :=
  let fp := to_focal g (fun i j => cmul (u i j) (g_apod g i j)) in
  let masked := fun k l => cmul (fp k l) (fftshift (g_total g) (g_total g) (g_mask g) k l) in
  fun i j => cmul (idft2 (g_total g) (g_total g) masked i j) (cconj (phase_shift g i j)).
Definition fits (g : coronagraph) : bool := (pad_start g + g_size g <=? g_total g)%nat.
Definition coro_out (g : coronagraph) (u : field) : res field :=
  if fits g then Ok (fun i j => cmul (pupil_after g u (i + pad_start g)%nat (j + pad_start g)%nat) (g_stop g i j)) else Err ValueError.
(* abstract_coronagraph.py:172-174 *)
Definition light (g : coronagraph) (u : field) : R := rsum2 (g_total g) (g_total g) (fun k l => abs2 (to_focal g u k l)).
Definition transmission (g : coronagraph) (u v : field) : R := light g v / light g u.
(* abstract_coronagraph.py:164-185 post_trigger: amplitude, phase in nm, S0.  [angle] is numpy.angle. *)
Record ef := mkEf { e_amp : image; e_nm : image; e_s0 : R }.
Definition ef_of (angle : C -> R) (lambda : R) (g : coronagraph) (u v : field) (s0 : R) : ef :=
  mkEf (fun i j => sqrt (abs2 (v i j))) (fun i j => angle (v i j) / (2 * PI) * lambda) (s0 * transmission g u v).
(* electric_field.py:161-188 ef_at_lambda: A * exp(1j * phi_at_lambda), electric_field.py:137-159 *)
Definition field_at (lambda : R) (e : ef) : field := fun i j => cmul (creal (e_amp e i j)) (cis (e_nm e i j * (2 * PI / lambda))).
(* electric_field.py:211-213, sh.py:523: the photons of a field, with square pixels of unit area *)
Definition photons (n : nat) (e : ef) : R := e_s0 e * rsum2 n n (e_amp e).

(* ------------------------------------------------------------------------------- the subclasses *)

(* a mask of zeros and ones (focal_plane_filter.py:44-51, lyot_coronagraph.py:63-80, make_mask.py:73-74) *)
Definition binary (b : nat -> nat -> bool) : field := fun i j => if b i j then c1 else c0.
(* four_quadrant_coronagraph.py:50-64 [exp(iu * quad_mask * phase_delay)] *)
Definition quadrants (b : nat -> nat -> bool) (delay : R) : field := fun i j => cis ((if b i j then 1 else 0) * delay).
(* vortex_coronagraph.py:57-72 and apodizer_coronagraph.py:45: a phase only *)
Definition phase_only (p : image) : field := fun i j => cis (p i j).
(* make_apodizer, abstract_coronagraph.py:109-112; focal_plane_filter.py:44-45; apodizer_coronagraph.py:79-83 *)
Definition ones : field := fun _ _ => c1.

(* apodizer_coronagraph.py:112-140 PAPLCoronagraph.__init__, up to the point where the superclass divides iwa by owa
   (apodizer_coronagraph.py:60); the arguments are None or not *)
Definition papl_init (inner outer : R) (knife_edge : bool) (owa : option R) : res unit :=
  if Rlt_dec (Rmin inner outer) 0 then Err ValueError else if Rlt_dec outer inner then Err ValueError else
  if knife_edge && (match owa with Some _ => true | None => false end) then Err ValueError else
  match owa with None => Err TypeError | Some _ => Ok tt end.
