(* Images of a point: calc_psf (specula/lib/calc_psf.py), PSF (specula/processing_objects/psf.py) and PsfCoronagraph
   (specula/processing_objects/psf_coronagraph.py).

   Numbers are the real numbers of the standard library; sums, exponentials and Fourier transforms are exact.  A quotient
   by zero is not modelled (it is nan or inf in the program): the theorems exclude it.  Arrays are functions of the two
   indices, with their numbers of rows and columns. *)
From Coq Require Import Reals List ZArith Bool Arith QArith Qcanon.
From Verif Require Import PyBase Fourier InterpModel ScreenModel.
Import ListNotations.
Local Open Scope R_scope.

Definition image : Type := nat -> nat -> R.

(* calc_psf.py:48 [amp * exp(1j * phase)] *)
Definition pupil_field (amp phase : image) (i j : nat) : C := cmul (creal (amp i j)) (cis (phase i j)).
(* calc_psf.py:46-50: the field in the corner of an array of zeros *)
Definition corner (n m : nat) (u : nat -> nat -> C) (i j : nat) : C := if (i <? n)%nat && (j <? m)%nat then u i j else c0.
(* numpy.fft.fftshift: element k comes from k - n // 2, modulo n *)
Definition fftshift {X} (n m : nat) (a : nat -> nat -> X) (k l : nat) : X := a ((k + (n - n / 2)) mod n)%nat ((l + (m - m / 2)) mod m)%nat.

Record psf := mkPsf { p_rows : nat; p_cols : nat; p_val : image; p_total : R }.
(* calc_psf.py:53-69, from the array [u] of n rows and m columns *)
Definition psf_of (n m : nat) (u : nat -> nat -> C) (normalize nocenter : bool) : psf :=
  let f := dft2 n m u in
  let f := if nocenter then f else fftshift n m f in
  let v := fun k l => abs2 (f k l) in
  let total := rsum2 n m v in
  mkPsf n m (if normalize then fun k l => v k l / total else v) total.
(* calc_psf.py:15-69; the array is too small when imwidth is less than the size of the pupil (ValueError of numpy) *)
Definition calc_psf (n m : nat) (phase amp : image) (imwidth : option nat) (normalize nocenter : bool) : res psf :=
  match imwidth with
  | Some w => if (n <=? w)%nat && (m <=? w)%nat then Ok (psf_of w w (corner n m (pupil_field amp phase)) normalize nocenter) else Err ValueError
  | None => Ok (psf_of n m (pupil_field amp phase) normalize nocenter)
  end.

(* ------------------------------------------------------------------------------- PSF *)

(* psf.py:165 [int(np.around(dim * self.nd/2)*2)], with a rational [nd] *)
Definition out_size (nd : Qc) (dim : nat) : nat := Z.to_nat (2 * qround (qz (Z.of_nat dim) * nd / qz 2)%Qc).

(* One electric field: amplitude, phase in nm; and the time of the trigger *)
Record frame := mkFrame { f_amp : image; f_nm : image; f_t : Z }.
(* electric_field.py:137-159 phi_at_lambda *)
Definition phi_at (lambda : R) (e : frame) : image := fun i j => f_nm e i j * (2 * PI / lambda).

Record psfo := mkPsfo { o_ref : option image; o_sr : R; o_psf : image; o_total : R; o_count : nat; o_int_sr : R; o_int_psf : image; o_sq : image; o_std : image }.
Section PSF.
(* rows and columns of the field, oversampling, wavelength in nm, start time in seconds *)
Variables (n m : nat) (nd : Qc) (lambda start : R).

(* psf.py:156-167 setup, and psf.py:114-116 *)
Definition psf_setup : psfo := mkPsfo None 0 (fun _ _ => 0) 0 0 0 (fun _ _ => 0) (fun _ _ => 0) (fun _ _ => 0).
(* psf.py:169-182 prepare_trigger: the image without aberrations, computed once.  [self.ref.i] has out_size[1] rows and
   out_size[0] columns. *)
Definition psf_prepare (s : psfo) (e : frame) : res psfo :=
  match o_ref s with
  | Some _ => Ok s
  | None =>
      r <- calc_psf n m (fun i j => f_amp e i j * 0) (f_amp e) (Some (out_size nd n)) true false ;;
      if Nat.eqb (out_size nd n) (out_size nd m)
      then Ok (mkPsfo (Some (p_val r)) (o_sr s) (o_psf s) (o_total s) (o_count s) (o_int_sr s) (o_int_psf s) (o_sq s) (o_std s))
      else Err ValueError
  end.
(* psf.py:184-192 trigger_code *)
Definition psf_trigger (s : psfo) (e : frame) : res psfo :=
  r <- calc_psf n m (phi_at lambda e) (f_amp e) (Some (out_size nd n)) true false ;;
  match o_ref s with
  | None => Err AttributeError
  | Some ref =>
      let c := (out_size nd n / 2)%nat in let d := (out_size nd m / 2)%nat in
      Ok (mkPsfo (Some ref) (p_val r c d / ref c d) (p_val r) (p_total r) (o_count s) (o_int_sr s) (o_int_psf s) (o_sq s) (o_std s))
  end.
(* psf.py:261-269 post_trigger; base_time_obj.py:72-73 t_to_seconds *)
Definition in_time (t : Z) : bool := if Rle_dec start (IZR t / 1000000000) then true else false.
Definition psf_post (s : psfo) (e : frame) : psfo :=
  if in_time (f_t e) then
    mkPsfo (o_ref s) (o_sr s) (o_psf s) (o_total s) (S (o_count s)) (o_int_sr s + o_sr s) (fun i j => o_int_psf s i j + o_psf s i j)
      (fun i j => o_sq s i j + o_psf s i j * o_psf s i j) (o_std s)
  else s.
Definition psf_step (s : psfo) (e : frame) : res psfo := s1 <- psf_prepare s e ;; s2 <- psf_trigger s1 e ;; Ok (psf_post s2 e).
(* psf.py:280-285 finalize *)
Definition psf_finalize (s : psfo) : psfo :=
  if (0 <? o_count s)%nat then
    let N := INR (o_count s) in
    let mean := fun i j => o_int_psf s i j / N in
    mkPsfo (o_ref s) (o_sr s) (o_psf s) (o_total s) (o_count s) (o_int_sr s / N) mean (o_sq s)
      (fun i j => sqrt (Rmax (o_sq s i j / N - mean i j * mean i j) 0))
  else s.
Definition psf_run (es : list frame) : res psfo := fold_res psf_step psf_setup es.

(* ------------------------------------------------------------------- perfect coronagraph *)

(* psf_coronagraph.py:123-188 calc_coronagraph_psf; [total] is the total of the image without coronagraph *)
Definition lit (amp : image) (i j : nat) : R := if Rlt_dec 0 (amp i j) then 1 else 0.
Definition removed (average : bool) (amp phase : image) : nat -> nat -> C :=
  let area := rsum2 n m (lit amp) in
  if Rlt_dec 0 area then
    if average then
      let avg := cmul (creal (/ area)) (csum2 n m (fun i j => cmul (pupil_field amp phase i j) (creal (lit amp i j)))) in
      fun i j => csub (pupil_field amp phase i j) (cmul avg (creal (lit amp i j)))
    else
      let mean := rsum2 n m (fun i j => phase i j * lit amp i j) / area in
      let var := rsum2 n m (fun i j => (phase i j - mean) * (phase i j - mean) * lit amp i j) / area in
      fun i j => csub (pupil_field amp phase i j) (cmul (cmul (cmul (creal (sqrt (exp (- var)))) (cis mean)) (creal (amp i j))) (creal (lit amp i j)))
  else pupil_field amp phase.
Definition coronagraph_psf (average : bool) (amp phase : image) (w : nat) (total : R) : res image :=
  if (n <=? w)%nat && (m <=? w)%nat
  then Ok (fun k l => p_val (psf_of w w (corner n m (removed average amp phase)) false false) k l / total)
  else Err ValueError.
(* psf_coronagraph.py:190-201 trigger_code *)
Definition coronagraph_of (average : bool) (s : psfo) (e : frame) : res image := coronagraph_psf average (f_amp e) (phi_at lambda e) (out_size nd n) (o_total s).
(* psf_coronagraph.py:116-121 setup, psf_coronagraph.py:190-201, psf_coronagraph.py:209-214 post_trigger.  The image of
   the coronagraph follows the one of the PSF object. *)
Record coro := mkCoro { c_psf : psfo; c_img : image; c_int : image; c_sq : image; c_std : image }.
Definition coro_setup : coro := mkCoro psf_setup (fun _ _ => 0) (fun _ _ => 0) (fun _ _ => 0) (fun _ _ => 0).
Definition coro_step (average : bool) (c : coro) (e : frame) : res coro :=
  s1 <- psf_prepare (c_psf c) e ;; s2 <- psf_trigger s1 e ;; im <- coronagraph_of average s2 e ;;
  Ok (if in_time (f_t e) then mkCoro (psf_post s2 e) im (fun i j => c_int c i j + im i j) (fun i j => c_sq c i j + im i j * im i j) (c_std c)
      else mkCoro (psf_post s2 e) im (c_int c) (c_sq c) (c_std c)).
(* psf_coronagraph.py:224-230 finalize *)
Definition coro_finalize (c : coro) : coro :=
  let s := psf_finalize (c_psf c) in
  if (0 <? o_count s)%nat then
    let N := INR (o_count s) in
    let mean := fun i j => c_int c i j / N in
    mkCoro s (c_img c) mean (c_sq c) (fun i j => sqrt (Rmax (c_sq c i j / N - mean i j * mean i j) 0))
  else mkCoro s (c_img c) (c_int c) (c_sq c) (c_std c).
Definition coro_run (average : bool) (es : list frame) : res coro := fold_res (coro_step average) coro_setup es.
End PSF.
