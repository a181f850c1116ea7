(* Slope computers: reference subtraction and filtering, accumulation of pixels, pyramid,
   Shack-Hartmann, Zernike and curvature sensors.

   Modelled code: specula/processing_objects/slopec.py, pyr_slopec.py, double_roof_slopec.py,
   sh_slopec.py, zwfs_slopec.py, cur_wfs_slopec.py.
   Not modelled: devices, data types (pixels are rational numbers), messages, the time
   dependent weighting radius of sh_slopec.py:169-175, and the construction of the circular
   and Gaussian masks (parameters). *)
From Coq Require Import String List ZArith Bool PeanoNat QArith Qcanon.
From Verif Require Import PyBase Arith NpModel VecModel SlopesModel RebinModel OpticalModel ExtModel.
Import ListNotations.

(* ------------------------------------------------ reference subtraction and filtering *)
Section Post.
Variable A : arith.

(* the reference, the matrix applied to the slopes, and the pair of matrices of the slope
   filter, each a list of rows *)
Record post := mkPost { po_sn : option (slopes A); po_rec : option (mat A); po_int : option (mat A); po_filt : option (mat A) }.

(* slopec.py:30, 47-61 *)
Definition post_init (sn : option (slopes A)) (rec fint frec : option (mat A)) (filtmat : option (mat A * mat A)) : res post :=
  match filtmat with
  | Some (i, r) =>
      match fint, frec with
      | None, None => Ok (mkPost sn rec (Some i) (Some r))
      | _, _ => Err ValueError
      end
  | None =>
      match fint, frec with
      | Some i, Some r => Ok (mkPost sn rec (Some i) (Some r))
      | None, None => Ok (mkPost sn rec None None)
      | _, _ => Err ValueError
      end
  end.

(* vector @ matrix, and matrix @ vector *)
Definition vm (v : vec A) (M : mat A) : res (vec A) :=
  if Nat.eqb (length v) (length M) then Ok (map (fun j => dot v (col j M)) (seq 0 (length (hd [] M)))) else Err ValueError.
Definition mvr (M : mat A) (v : vec A) : res (vec A) :=
  if forallb (fun r => Nat.eqb (length r) (length v)) M then Ok (mv M v) else Err ValueError.

(* slopec.py:135-137 *)
Definition sub_ref (s sn : slopes A) : res (slopes A) :=
  x <- xslopes A s ;; rx <- xslopes A sn ;; dx <- iop A sub x rx ;; s1 <- set_xslopes A s dx ;;
  y <- yslopes A s1 ;; ry <- yslopes A sn ;; dy <- iop A sub y ry ;; set_yslopes A s1 dy.
(* slopec.py:139-141 *)
Definition apply_rec (s : slopes A) (R : mat A) : res (slopes A) :=
  m <- vm (sl_val s) R ;; w <- assign_all (sl_val s) m ;; Ok (with_val A s w).
(* slopec.py:143-146: [m @ N.T] is [N @ m] *)
Definition apply_filter (s : slopes A) (N R : mat A) : res (slopes A) :=
  m <- vm (sl_val s) R ;; sl0 <- mvr N m ;; w <- iop A sub (sl_val s) sl0 ;; Ok (with_val A s w).
(* slopec.py:132-146 post_trigger *)
Definition post_trigger (p : post) (s : slopes A) : res (slopes A) :=
  s1 <- match po_sn p with Some sn => sub_ref s sn | None => Ok s end ;;
  s2 <- match po_rec p with Some R => apply_rec s1 R | None => Ok s1 end ;;
  match po_int p, po_filt p with Some N, Some R => apply_filter s2 N R | _, _ => Ok s2 end.
End Post.
Arguments mkPost {A}. Arguments po_sn {A}. Arguments po_rec {A}. Arguments po_int {A}. Arguments po_filt {A}.

(* ---------------------------------------------------------- accumulation of the pixels *)
Section Accumulation.
Variable A : arith.
(* the accumulated frame with its generation time, and the flag that asks for a reset *)
Record acc := mkAcc { ac_pix : option (vec A); ac_gt : Z; ac_reset : bool }.
(* slopec.py:68-69; the generation time of a new data object is -1 *)
Definition acc0 : acc := mkAcc None (-1) false.
(* slopec.py:96-127 do_accumulation; frames are flattened *)
Definition accumulate (dt : Z) (s : acc) (t : Z) (frame : vec A) : res acc :=
  if (dt <=? 0)%Z then Ok s
  else
    let p := match ac_pix s with Some p => p | None => zeros (length frame) end in
    let p := if ac_reset s then map (fun x => mul x zer) p else p in
    w <- iop A add p frame ;;
    if ((t mod dt =? 0) && (dt <=? t))%Z then Ok (mkAcc (Some w) t true) else Ok (mkAcc (Some w) (ac_gt s) false).
Definition accumulate_all (dt : Z) (frames : list (Z * vec A)) : res acc :=
  fold_res (fun s f => accumulate dt s (fst f) (snd f)) acc0 frames.
End Accumulation.
Arguments mkAcc {A}. Arguments ac_pix {A}. Arguments ac_gt {A}. Arguments ac_reset {A}.

(* ------------------------------------------------------------------------------ pyramid *)
Definition qn (n : nat) : Qc := Q2Qc (inject_Z (Z.of_nat n)).
(* pyr_slopec.py:101-103, sh_slopec.py:267-268: subtract the threshold, negative values
   become zero *)
Definition above (thr x : Qc) : Qc := let y := (x - thr)%Qc in if qlt y 0%Qc then 0%Qc else y.

(* column k of the index array of the pupils, data_objects/pupdata.py:73-74 *)
Definition pup_col (ind : list (list Z)) (k : nat) : res (list Z) :=
  map_res (fun r => match nth_error r k with Some i => Ok i | None => Err IndexError end) ind.
(* without the padding, pyr_slopec.py:60-64 *)
Definition valid_idx (l : list Z) : list Z := filter (fun i => (0 <=? i)%Z) l.

(* the slope computer: index array, options, the four index vectors and the vector of all
   indices *)
Record pyr := mkPyr {
  py_n : nat; py_shlike : bool; py_norm : option Qc; py_thr : Qc; py_sfi : bool; py_roof : bool;
  py_i0 : list Z; py_i1 : list Z; py_i2 : list Z; py_i3 : list Z; py_all : list Z;
  py_post : post extar }.
(* the outputs: slopes, flux per sub-aperture, total and mean counts *)
Record sl_out := mkOut { so_slopes : slopes extar; so_flux : list Qc; so_total : Qc; so_mean : ext }.

(* pyr_slopec.py:26-64, 81-88; slopec.py:30-75.  [roof] tells DoubleRoofSlopec from PyrSlopec *)
Definition pyr_init (roof : bool) (ind : list (list Z)) (p : post extar) (shlike : bool) (norm : option Qc) (thr : Qc)
    (sfi inter : bool) : res (pyr * sl_out) :=
  c0 <- pup_col ind 0 ;;
  let o := mkOut (new_slopes_len extar (length c0 * (if sfi then 4 else 2)) inter) (repeat 0%Qc (length ind)) 0%Qc (Fin 0%Qc) in
  if shlike && sfi then Err ValueError
  else if shlike && negb (match norm with Some k => is0 k | None => false end) then Err ValueError
  else
    c1 <- pup_col ind 1 ;; c2 <- pup_col ind 2 ;; c3 <- pup_col ind 3 ;;
    Ok (mkPyr (length ind) shlike norm thr sfi roof (valid_idx c0) (valid_idx c1) (valid_idx c2) (valid_idx c3)
          (valid_idx (c0 ++ c1 ++ c2 ++ c3)) p, o).

(* pyr_slopec.py:94-97, double_roof_slopec.py:48-59: the signals before normalisation *)
Definition signals (roof : bool) (a b c d : list Qc) : res (list Qc * list Qc) :=
  if roof then
    x <- bcast (A:=qc) sub a b ;; y <- bcast (A:=qc) sub d c ;; Ok (x, y)
  else
    ab <- bcast (A:=qc) add a b ;; abc <- bcast (A:=qc) sub ab c ;; x <- bcast (A:=qc) sub abc d ;;
    bc <- bcast (A:=qc) add b c ;; bca <- bcast (A:=qc) sub bc a ;; y <- bcast (A:=qc) sub bca d ;;
    Ok (x, y).

(* pyr_slopec.py:99-144 trigger_code; the counts divide by the number of sub-apertures *)
Definition pyr_code (c : pyr) (o : sl_out) (pix : list Qc) : res sl_out :=
  let p := map (above (py_thr c)) pix in
  a <- take_list p (py_i0 c) ;; b <- take_list p (py_i1 c) ;; cc <- take_list p (py_i2 c) ;; d <- take_list p (py_i3 c) ;;
  ab <- bcast (A:=qc) add a b ;; abc <- bcast (A:=qc) add ab cc ;; flux <- bcast (A:=qc) add abc d ;;
  fl <- assign_all (so_flux o) flux ;;
  let total : Qc := vsum (A:=qc) flux in
  let mean := ediv (Fin total) (Fin (qn (py_n c))) in
  r <- (if py_sfi c then
          let inv := ediv (Fin total) (Fin (qn (4 * py_n c))) in
          let f := ediv (Fin 1%Qc) inv in
          Ok (map (fun x => emul f (Fin x)) (a ++ b), map (fun x => emul f (Fin x)) (cc ++ d), inv)
        else
          inv <- match py_norm c with
                 | Some k => Ok (Fin k)
                 | None => if py_shlike c then q <- take_list p (py_all c) ;; Ok (Fin (vsum (A:=qc) q)) else Ok mean
                 end ;;
          let f := ediv (Fin 1%Qc) inv in
          g <- signals (py_roof c) a b cc d ;;
          Ok (map (fun x => emul (Fin x) f) (fst g), map (fun x => emul (Fin x) f) (snd g), inv)) ;;
  let '(sx, sy, inv) := r in
  let k := if eltb (Fin 0%Qc) inv then Fin 1%Qc else inv in
  s1 <- set_xslopes extar (so_slopes o) (map (fun x => emul x k) sx) ;;
  s2 <- set_yslopes extar s1 (map (fun x => emul x k) sy) ;;
  Ok (mkOut s2 fl total mean).
(* a trigger: trigger_code, then post_trigger (pyr_slopec.py:146-149) *)
Definition finish (p : post extar) (o : sl_out) : res sl_out :=
  s <- post_trigger extar p (so_slopes o) ;; Ok (mkOut s (so_flux o) (so_total o) (so_mean o)).
Definition pyr_trigger (c : pyr) (o : sl_out) (pix : list Qc) : res sl_out :=
  o1 <- pyr_code c o pix ;; finish (py_post c) o1.

(* ---------------------------------------------------------------------- Shack-Hartmann *)
(* specula/lib/make_xy.py:136-160, vector=True: the coordinates along one axis *)
Definition half (z : Z) : Qc := Q2Qc (z # 2).
Definition axis (n : nat) (ratio : Qc) (zero_sampled quarter : bool) : list Qc :=
  let even := Nat.even n in
  let size := if quarter then (if even then n / 2 else (n + 1) / 2)%nat else n in
  let x0 := if quarter then (if even && negb zero_sampled then half (-1) else 0%Qc)
            else if even && zero_sampled then half (Z.of_nat n) else half (Z.of_nat n - 1) in
  map (fun i => ((qn i - x0) / half (Z.of_nat n) * ratio)%Qc) (seq 0 size).
(* numpy.roll(v, -k) for 0 <= k < len(v) *)
Definition roll_left {V} (k : nat) (v : list V) : list V := skipn k v ++ firstn k v.
Definition make_axis (n : nat) (ratio : Qc) (zero_sampled quarter fft : bool) : res (list Qc) :=
  if (n <=? 1)%nat then Err ValueError
  else
    let x := axis n ratio zero_sampled quarter in
    Ok (if fft && negb quarter then (if Nat.even n then roll_left (n / 2) x else roll_left ((n - 1) / 2) x) else x).
(* make_xy.py:162-168 without polar coordinates: x varies along the rows, y is its
   transpose *)
Definition make_xy (n : nat) (ratio : Qc) (zero_sampled quarter fft : bool) : res (list (list Qc) * list (list Qc)) :=
  x <- make_axis n ratio zero_sampled quarter fft ;;
  Ok (repeat x (length x), map (fun v => repeat v (length x)) x).

Fixpoint qpow (x : Qc) (e : nat) : Qc := match e with O => 1%Qc | S e => (x * qpow x e)%Qc end.
(* sh_slopec.py:120-166 computeXYweights, without quadcell_mode, for a natural exponent; the
   mask of the weighted or windowed centroid is a parameter, with the values below 1e-6
   already set to zero.  The weights are flattened. *)
Definition sh_weights (np : nat) (e : nat) (mask : option (list Qc)) : res (list Qc * list Qc * list Qc) :=
  g <- make_xy np 1%Qc false false false ;;
  let w (v : Qc) : Qc := if qlt 0%Qc v then qpow v e else (- qpow (qabs v) e)%Qc in
  let x := map w (concat (fst g)) in
  let y := map w (concat (snd g)) in
  match mask with
  | Some m => x' <- bcast (A:=qc) mul x m ;; y' <- bcast (A:=qc) mul y m ;; Ok (x', y', m)
  | None => Ok (x, y, repeat 1%Qc (np * np))
  end.

(* in_pixels[row, col] *)
Definition take2d (frame : list (list Qc)) (rc : Z * Z) : res Qc := r <- take1 frame (fst rc) ;; take1 r (snd rc).
(* sh_slopec.py:199-200: the pixels of each sub-aperture *)
Definition sh_pixels (frame : list (list Qc)) (shape : list Z) (idxs : list (list Z)) : res (list (list Qc)) :=
  map_res (fun idx => rc <- unravel_index_2d idx shape ;; map_res (take2d frame) (combine (fst rc) (snd rc))) idxs.

Definition lmin (l : list Qc) : Qc := match l with x :: r => fold_left (fun a b => if qlt b a then b else a) r x | [] => 0%Qc end.
Definition lmax (l : list Qc) : Qc := match l with x :: r => fold_left (fun a b => if qlt a b then b else a) r x | [] => 0%Qc end.
(* sh_slopec.py:210-241: the weights of each sub-aperture from the accumulated pixels *)
Definition int_weights (window : option Qc) (acc : list (list Qc)) : list (list Qc) :=
  let d := map (fun w => map (fun x => (x - lmin w)%Qc) w) acc in
  if existsb (fun w => qlt 0%Qc (lmax w)) d then
    map (fun w =>
           if qlt 0%Qc (lmax w) then
             match window with
             | Some thr => map2 (fun a b => if negb (qlt a thr) || negb (qlt b thr) then 1%Qc else 0%Qc) w (rev w)
             | None => map (fun x => (x / lmax w)%Qc) w
             end
           else map (fun _ => 1%Qc) w) d
  else map (map (fun _ => 1%Qc)) d.

Record sh := mkSh {
  sh_idxs : list (list Z); sh_xw : list Qc; sh_yw : list Qc; sh_mask : list Qc; sh_thr : Qc;
  sh_dt : Z; sh_window : option Qc; sh_post : post extar }.
Record sh_st := mkShSt { ss_out : sl_out; ss_acc : acc qc; ss_w : option (list (list Qc)) }.

(* sh_slopec.py:32-87: np_sub is the integer square root of the number of pixels
   (data_objects/subap_data.py:58-60) *)
Definition sh_init (idxs : list (list Z)) (p : post extar) (thr : Qc) (e : nat) (mask : option (list Qc)) (dt : Z)
    (window : option Qc) (inter : bool) : res (sh * sh_st) :=
  w <- sh_weights (Nat.sqrt (length (hd [] idxs))) e mask ;;
  let '(x, y, m) := w in
  Ok (mkSh idxs x y m thr dt window p,
      mkShSt (mkOut (new_slopes_len extar (length idxs * 2) inter) (repeat 0%Qc (length idxs)) 0%Qc (Fin 0%Qc)) (acc0 qc) None).

(* sum(a * b, axis=0) of one sub-aperture *)
Definition wsum (p w : list Qc) : res Qc := q <- bcast (A:=qc) mul p w ;; Ok (vsum (A:=qc) q).
(* sh_slopec.py:285-286 *)
Definition centroid (p w : list Qc) (f : ext) : res ext :=
  q <- bcast (A:=qc) mul p w ;; Ok (vsum (A:=extar) (map (fun x => emul (Fin x) f) q)).

(* sh_slopec.py:204-246: new weights when the accumulation has just
   ended; the accumulated frame is flattened, so its pixels are taken with the flat indices *)
Definition sh_new_weights (c : sh) (s : sh_st) (t : Z) (pixels : list (list Qc)) : res (list (list Qc)) :=
  let w0 := match ss_w s with Some w => w | None => map (map (fun _ => 1%Qc)) pixels end in
  match ac_pix (ss_acc s) with
  | Some a =>
      if (ac_gt (ss_acc s) =? t)%Z then
        ap <- map_res (fun idx => take_list a idx) (sh_idxs c) ;; Ok (int_weights (sh_window c) ap)
      else Ok w0
  | None => Ok w0
  end.

(* sh_slopec.py:251-303 calc_slopes_nofor, from the flux on (thr_pedestal, thr_ratio_value
   and mult_factor have their initial values) *)
Definition sh_end (c : sh) (o : sl_out) (pixels : list (list Qc)) : res sl_out :=
  let flux := map (vsum (A:=qc)) pixels in
  if Nat.eqb (length flux) 0 then Err ValueError
  else
    let thr := if qlt 0%Qc (sh_thr c) then sh_thr c else 0%Qc in
    let p := map (map (above thr)) pixels in
    tot <- map_res (fun q => wsum q (sh_mask c)) p ;;
    let n := Fin (qn (length tot)) in
    let lim := ediv (Fin 1%Qc) (emul (ediv (Fin (vsum (A:=qc) tot)) n) (Fin (Q2Qc (1 # 1000)))) in
    let factor := map (fun x => let f := ediv (Fin 1%Qc) (Fin x) in if eltb lim f then Fin 0%Qc else f) tot in
    sx <- map_res (fun pf => centroid (fst pf) (sh_xw c) (snd pf)) (combine p factor) ;;
    sy <- map_res (fun pf => centroid (fst pf) (sh_yw c) (snd pf)) (combine p factor) ;;
    s1 <- set_xslopes extar (so_slopes o) sx ;;
    s2 <- set_yslopes extar s1 sy ;;
    fl <- assign_all (so_flux o) flux ;;
    Ok (mkOut s2 fl (vsum (A:=qc) flux) (ediv (Fin (vsum (A:=qc) flux)) (Fin (qn (length flux))))).

(* sh_slopec.py:182-303 calc_slopes_nofor *)
Definition sh_code (c : sh) (s : sh_st) (t : Z) (frame : list (list Qc)) (shape : list Z) : res sh_st :=
  pixels0 <- sh_pixels frame shape (sh_idxs c) ;;
  wp <- (if (0 <? sh_dt c)%Z then
           w <- sh_new_weights c s t pixels0 ;; Ok (Some w, map2 (map2 Qcmult) pixels0 w)
         else Ok (ss_w s, pixels0)) ;;
  let '(w, pixels) := wp in
  o <- sh_end c (ss_out s) pixels ;; Ok (mkShSt o (ss_acc s) w).

(* sh_slopec.py:168-180 trigger_code, then post_trigger *)
Definition sh_trigger (c : sh) (s : sh_st) (t : Z) (frame : list (list Qc)) (shape : list Z) : res sh_st :=
  a <- accumulate qc (sh_dt c) (ss_acc s) t (concat frame) ;;
  s1 <- sh_code c (mkShSt (ss_out s) a (ss_w s)) t frame shape ;;
  o <- finish (sh_post c) (ss_out s1) ;; Ok (mkShSt o (ss_acc s1) (ss_w s1)).

(* ------------------------------------------------------ Zernike and curvature sensors *)
(* zwfs_slopec.py:81-94 trigger_code; [idx] are the pixels of the pupil *)
Definition zwfs_code (idx : list Z) (thr : Qc) (o : sl_out) (pix : list Qc) : res sl_out :=
  let p := map (fun x => (x - thr)%Qc) pix in
  m <- take_list p (valid_idx idx) ;;
  fl <- assign_all (so_flux o) m ;;
  let total : Qc := vsum (A:=qc) m in
  let mean := ediv (Fin total) (Fin (qn (length idx))) in
  Ok (mkOut (with_val extar (so_slopes o) (map (fun x => ediv (Fin x) mean) m)) fl total mean).

(* cur_wfs_slopec.py:112-132 trigger_code *)
Definition nano : Qc := Q2Qc (1 # 1000000000).
Definition cur_code (idx : list Z) (o : sl_out) (pix1 pix2 : list Qc) : res sl_out :=
  let v := valid_idx idx in
  i1 <- take_list pix1 v ;; i2 <- take_list pix2 v ;;
  s <- bcast (A:=qc) add i1 i2 ;;
  let s := map (fun x => if qlt x nano then 1%Qc else x) s in
  d <- bcast (A:=qc) sub i1 i2 ;; sg <- bcast (A:=qc) dvd d s ;;
  w <- assign_all (sl_val (so_slopes o)) (map Fin sg) ;;
  fl <- assign_all (so_flux o) s ;;
  let total : Qc := vsum (A:=qc) s in
  Ok (mkOut (with_val extar (so_slopes o) w) fl total (ediv (Fin total) (Fin (qn (length v))))).

(* triggers one after the other *)
Definition pyr_run (c : pyr) (o : sl_out) (frames : list (list Qc)) : res sl_out := fold_res (pyr_trigger c) o frames.
Definition sh_run (c : sh) (s : sh_st) (shape : list Z) (frames : list (Z * list (list Qc))) : res sh_st :=
  fold_res (fun s f => sh_trigger c s (fst f) (snd f) shape) s frames.
(* construction, then triggers *)
Definition pyr_session (roof : bool) (ind : list (list Z)) (p : post extar) (shlike : bool) (norm : option Qc) (thr : Qc)
    (sfi inter : bool) (frames : list (list Qc)) : res sl_out :=
  co <- pyr_init roof ind p shlike norm thr sfi inter ;; pyr_run (fst co) (snd co) frames.
Definition sh_session (idxs : list (list Z)) (p : post extar) (thr : Qc) (e : nat) (mask : option (list Qc)) (dt : Z)
    (window : option Qc) (inter : bool) (shape : list Z) (frames : list (Z * list (list Qc))) : res sh_st :=
  cs <- sh_init idxs p thr e mask dt window inter ;; sh_run (fst cs) (snd cs) shape frames.
