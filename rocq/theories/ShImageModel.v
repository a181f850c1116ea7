(* The image of a Shack-Hartmann sensor: SH.trigger_code, SH.post_trigger and the arrays shared by all sensors
   (specula/processing_objects/sh.py), and DistributedSH (specula/processing_objects/distributed_sh.py).

   Numbers are real, Fourier transforms exact.  The field is the interpolated one, at the wavelength of the sensor
   (sh.py:457-461), square, with [x_sub] pixels for each subaperture.  There is no convolution kernel (sh.py:473-484 is not
   modelled).  The kept part of the focal plane has a number of pixels that is a multiple of those of the sensor, so that the
   resampling adds squares of pixels (toccd.py; C72 is about the general case).  [psf] and [psf_shifted] are the same array
   (sh.py:564-567 ask for the same shape), which does not matter because fftshift makes a copy; they and [ef_row] are
   overwritten before they are read. *)
From Coq Require Import Reals List ZArith Bool Arith.
From Verif Require Import PyBase Fourier PsfModel.
Import ListNotations.
Local Open Scope R_scope.

Definition field : Type := nat -> nat -> C.
(* device, precision, subapertures on a side, pixels of a subaperture, size of the transforms, pixels cut away, focal plane
   mask, rows of subapertures to process, pixels of the kept part for each pixel of the sensor *)
Record sh := mkSh { x_dev : Z; x_double : bool; x_n : nat; x_sub : nat; x_fft : nat; x_cut : nat; x_mask : image; x_start : nat; x_stop : nat; x_bin : nat }.
Definition x_cutsize (x : sh) : nat := (x_fft x - x_cut x)%nat.
(* sh.py:73-96 the cache of arrays, by device, type and shape.  [h_pad] holds the arrays of n x fft x fft complex numbers,
   [h_img] the square arrays of real numbers. *)
Definition key : Type := (Z * bool * nat * nat)%type.
Definition key_eqb (a b : key) : bool :=
  match a, b with (d, p, n, m), (d', p', n', m') => Z.eqb d d' && Bool.eqb p p' && Nat.eqb n n' && Nat.eqb m m' end.
Definition pad_key (x : sh) : key := (x_dev x, x_double x, x_n x, x_fft x).
Definition img_key (x : sh) : key := (x_dev x, x_double x, (x_cutsize x * x_n x)%nat, (x_cutsize x * x_n x)%nat).
Record heap := mkHeap { h_pad : key -> nat -> field; h_img : key -> image }.
(* sh.py:94-95 zeros *)
Definition new_heap : heap := mkHeap (fun _ _ _ _ => c0) (fun _ _ _ => 0).
Definition upd {X} (f : key -> X) (k : key) (v : X) : key -> X := fun k' => if key_eqb k' k then v else f k'.

(* sh.py:575-583 _get_tlt_f, called with p + c = fft (sh.py:375) *)
Definition half_tilt (x : sh) (a b : nat) : C :=
  let o := (- Z.of_nat (x_sub x) / 2)%Z in
  cis (- (2 * PI * IZR ((Z.of_nat b + o) + (Z.of_nat a + o)) / (2 * INR (x_fft x)))).
(* sh.py:458-467: row i of subapertures, in the corner of the padded arrays *)
Definition fill (x : sh) (u : field) (i : nat) (pad : nat -> field) : nat -> field := fun j a b =>
  if (j <? x_n x)%nat && (a <? x_sub x)%nat && (b <? x_sub x)%nat then cmul (u (i * x_sub x + a)%nat (j * x_sub x + b)%nat) (half_tilt x a b) else pad j a b.
(* sh.py:469-470, 487, 490 *)
Definition spots (x : sh) (pad : nat -> field) (j k l : nat) : R :=
  fftshift (x_fft x) (x_fft x) (fun k l => abs2 (dft2 (x_fft x) (x_fft x) (pad j) k l)) k l * x_mask x k l.
(* sh.py:497-509: the kept part of the spots of row i *)
Definition place (x : sh) (i : nat) (s : nat -> image) (img : image) : image := fun r c =>
  let cs := x_cutsize x in
  if (i * cs <=? r)%nat && (r <? (i + 1) * cs)%nat && (c <? x_n x * cs)%nat
  then s (c / cs)%nat (x_cut x / 2 + (r - i * cs))%nat (x_cut x / 2 + c mod cs)%nat else img r c.
Definition row (x : sh) (u : field) (st : (nat -> field) * image) (i : nat) : (nat -> field) * image :=
  let pad := fill x u i (fst st) in (pad, place x i (spots x pad) (snd st)).
(* sh.py:515-516: squares of pixels *)
Definition binned (k : nat) (img : image) : image := fun r c => rsum2 k k (fun a b => img (r * k + a)%nat (c * k + b)%nat).
(* sh.py:450-516 trigger_code *)
Definition trigger (x : sh) (u : field) (h : heap) : heap * image :=
  let st := fold_left (row x u) (seq (x_start x) (x_stop x - x_start x)) (h_pad h (pad_key x), h_img h (img_key x)) in
  (mkHeap (upd (h_pad h) (pad_key x) (fst st)) (upd (h_img h) (img_key x) (snd st)), binned (x_bin x) (snd st)).
Definition side (x : sh) : nat := (x_n x * (x_cutsize x / x_bin x))%nat.
(* sh.py:519-527 post_trigger: [photons] is S0 times the area of the pupil.  0/0 is not modelled. *)
Definition scaled (n : nat) (photons : R) (i : image) : image := fun r c => i r c * (photons / rsum2 n n i).
(* sensors triggered one after the other; their images *)
Fixpoint run (l : list (sh * field)) (h : heap) : list image :=
  match l with [] => [] | (x, u) :: r => let hi := trigger x u h in snd hi :: run r (fst hi) end.

(* ------------------------------------------------------------------------------- DistributedSH *)

Definition with_rows (x : sh) (a b : nat) : sh := mkSh (x_dev x) (x_double x) (x_n x) (x_sub x) (x_fft x) (x_cut x) (x_mask x) a b (x_bin x).
(* distributed_sh.py:42, 49-62: the slices of rows and the sensors, on the same device *)
Definition parts (x : sh) (m : nat) : list sh := map (fun i => with_rows x (i * (x_n x / m)) ((i + 1) * (x_n x / m))) (seq 0 m).
(* distributed_sh.py:135-138: their images are gathered, rows of pixels [npx * start : npx * stop].  The array starts at
   zero; what is in rows outside of the slices stays (scaled). *)
Definition gather (npx : nat) (out : image) (l : list (sh * image)) : image :=
  fold_left (fun o si r c => if (npx * x_start (fst si) <=? r)%nat && (r <? npx * x_stop (fst si))%nat then snd si r c else o r c) l out.
Definition distributed (x : sh) (m : nat) (u : field) (h : heap) (out : image) : image :=
  gather (x_cutsize x / x_bin x) out (combine (parts x m) (run (map (fun y => (y, u)) (parts x m)) h)).
