(* Plots of values during a simulation: specula/display/base_display.py (trigger and errors), plot_display.py,
   plot_vector_display.py, data_plotter.py (histories), and the printing of values, processing_objects/data_print.py.

   Simplifications.
   - Values are of any type with a zero.  Times are in ns (they are shown in s).
   - What is drawn is the points of each line, whether the line is still on the axes, and the last message; not the
     colours, the limits of the axes and the figure.  Drawing itself does not fail.
   - The points of a line are those it was given last (it does not follow later changes of the history).
   - With a history of no elements the counter, which becomes -1, is 0 here: all updates fail in both cases. *)
From Coq Require Import String List Bool Arith ZArith.
From Verif Require Import PyBase NpModel.
Import ListNotations.

Section Plot.
Context {V : Type} (v0 : V).

(* a value that has one element or is a number, or an array of more elements *)
Inductive datum := Scalar (v : V) | Array.
(* l_on: still on the axes, which are cleared by messages (base_display.py:100-106) *)
Record line := mkLine { l_x : list Z; l_y : list V; l_on : bool }.
Inductive text := Error (e : exn) | NoIndices | NoData.
Definition off (l : line) : line := mkLine (l_x l) (l_y l) false.
Definition clear (ls : option (list line)) : option (list line) := match ls with Some l => Some (map off l) | None => None end.

(* a[:-1] = a[1:] *)
Definition scroll {A} (l : list A) : list A := match l with [] => [] | a :: r => r ++ [List.last l a] end.
Fixpoint set_at {A} (k : nat) (v : A) (l : list A) : list A :=
  match l, k with [], _ => [] | _ :: r, O => v :: r | a :: r, S k => a :: set_at k v r end.
Definition column (i : nat) (rows : list (list V)) : list V := map (fun r => nth i r v0) rows.
(* plot_display.py:77-80, plot_vector_display.py:210-213: by_time stands for x_axis == 'time' *)
Definition stamp (by_time : bool) (t : Z) (times : list Z) : list Z :=
  times ++ [if by_time then t else match rev times with x :: _ => (x + 1)%Z | [] => 1%Z end].
(* plot_display.py:114-125, plot_vector_display.py:230-239 *)
Definition draw (i : nat) (x : list Z) (y : list V) (ls : list line) : list line :=
  if length ls <=? i then ls ++ [mkLine x y true]
  else set_at i (mkLine x y (match nth_error ls i with Some l => l_on l | None => true end)) ls.

(* ---------------------------------------------------------------- PlotDisplay *)
(* two: the history has two dimensions; w: its columns *)
Record plot := mkPlot { p_two : bool; p_w : nat; p_rows : list (list V); p_count : nat; p_times : list Z; p_lines : option (list line); p_text : option text }.
(* plot_display.py:23-31 *)
Definition new_plot (histlen : nat) : plot := mkPlot false 1 (repeat [v0] histlen) 0 [] None None.
(* plot_display.py:61-74 *)
Definition resize (k : nat) (p : plot) : plot :=
  if (negb (p_two p) && (1 <? k)) || (p_two p && negb (p_w p =? k))
  then mkPlot true k (repeat (repeat v0 k) (length (p_rows p))) (p_count p) (p_times p) (p_lines p) (p_text p) else p.
Definition make_room (p : plot) : plot :=
  if length (p_rows p) <=? p_count p
  then mkPlot (p_two p) (p_w p) (scroll (p_rows p)) (length (p_rows p) - 1) (tl (p_times p)) (p_lines p) (p_text p) else p.
Definition set_rows (p : plot) rows := mkPlot (p_two p) (p_w p) rows (p_count p) (p_times p) (p_lines p) (p_text p).
Definition set_lines (p : plot) ls := mkPlot (p_two p) (p_w p) (p_rows p) (p_count p) (p_times p) ls (p_text p).
(* plot_display.py:86-131: the values from number i on; an exception leaves what was done *)
Fixpoint store (i : nat) (data : list datum) (p : plot) : plot * option exn :=
  match data with
  | [] => (p, None)
  | Array :: _ => (p, Some ValueError)
  | Scalar v :: r =>
      if length (p_rows p) <=? p_count p then (p, Some IndexError) else
      let rows := set_at (p_count p) (set_at i v (nth (p_count p) (p_rows p) [])) (p_rows p) in
      let y := column i (firstn (p_count p + 1) rows) in
      let ls := match p_lines p with Some l => l | None => [] end in
      let p := set_rows p rows in
      (* a new line needs as many abscissae as ordinates (matplotlib's plot); an old one is given both in turn *)
      if (length ls <=? i) && negb (length (p_times p) =? length y) then (set_lines p (Some ls), Some ValueError)
      else store (S i) r (set_lines p (Some (draw i (p_times p) y ls)))
  end.
(* plot_display.py:56-155: _update_display *)
Definition update (by_time : bool) (data : list datum) (t : Z) (p : plot) : plot * option exn :=
  let p := make_room (resize (length data) p) in
  let p := mkPlot (p_two p) (p_w p) (p_rows p) (p_count p) (stamp by_time t (p_times p)) (p_lines p) (p_text p) in
  let '(p, e) := store 0 data p in
  match e with
  | Some _ => (p, e)
  | None => match p_lines p with
            | None => (p, Some TypeError)
            | Some _ => (mkPlot (p_two p) (p_w p) (p_rows p) (S (p_count p)) (p_times p) (p_lines p) (p_text p), None)
            end
  end.
(* base_display.py:59-68, 100-106: trigger *)
Definition trigger (by_time : bool) (p : plot) (d : list datum * Z) : plot :=
  match update by_time (fst d) (snd d) p with
  | (p, None) => p
  | (p, Some e) => mkPlot (p_two p) (p_w p) (p_rows p) (p_count p) (p_times p) (clear (p_lines p)) (Some (Error e))
  end.
(* plot_display.py:37-44: the inputs value_list and value *)
Definition get_data (value_list : list datum) (value : option datum) : list datum :=
  match value_list with [] => match value with Some v => [v] | None => [] end | l => l end.
(* plot_display.py:46-54 *)
Inductive label := Given_label (s : string) | Input_label (i : nat).
Definition get_label (labels : option (list string)) (i : nat) : label :=
  match labels with Some l => match nth_error l i with Some s => Given_label s | None => Input_label i end | None => Input_label i end.

(* ---------------------------------------------------------------- PlotVectorDisplay *)
Inductive pick := All | Indices (l : list Z) | Sliced (s : pyslice).
(* plot_vector_display.py:56-84 *)
Definition make_slice (l : list (option Z)) : res pyslice :=
  match l with
  | [] => Err ValueError
  | [b] => Ok (mkSlice None b None)
  | [a; b] => Ok (mkSlice a b None)
  | [a; b; c] => Ok (mkSlice a b c)
  | _ => Err TypeError
  end.
Definition make_pick (indices : option (list Z)) (slice_args : option (list (option Z))) : res pick :=
  match indices, slice_args with
  | Some _, Some _ => Err ValueError
  | Some l, None => Ok (Indices l)
  | None, Some a => s <- make_slice a ;; Ok (Sliced s)
  | None, None => Ok All
  end.
(* plot_vector_display.py:132-160 *)
Definition plot_indices (k : pick) (most : option nat) (n : nat) : res (list nat) :=
  ix <- match k with
        | All => Ok (seq 0 n)
        | Indices l => Ok (map Z.to_nat (filter (fun i => (0 <=? i)%Z && (i <? Z.of_nat n)%Z) l))
        | Sliced s => ps <- slice_pos s (Z.of_nat n) ;; Ok (map Z.to_nat ps)
        end ;;
  Ok (match most with Some m => firstn m ix | None => ix end).
Record vplot := mkVP { v_rows : option (nat * list (list V)); v_count : nat; v_times : list Z; v_lines : option (list line); v_text : option text }.
Definition new_vplot : vplot := mkVP None 0 [] None None.
Definition say (m : text) (p : vplot) : vplot := mkVP (v_rows p) (v_count p) (v_times p) (clear (v_lines p)) (Some m).
(* plot_vector_display.py:224-239 *)
Fixpoint draw_all (i : nat) (ix : list nat) (x : list Z) (rows : list (list V)) (ls : list line) : list line :=
  match ix with [] => ls | k :: r => draw_all (S i) r x rows (draw i x (column k rows) ls) end.
(* plot_vector_display.py:94-100, 102-130 and 178-270 and base_display.py:59-68.  None: no vector. *)
Definition vtrigger (histlen : nat) (k : pick) (most : option nat) (by_time : bool) (p : vplot) (d : option (list V) * Z) : vplot :=
  match fst d with
  | None => say NoData p
  | Some vec =>
      let n := length vec in
      let '(w, rows) := match v_rows p with Some r => r | None => (n, repeat (repeat v0 n) histlen) end in
      if negb (w =? n) then say (Error ValueError) p else
      let p := mkVP (Some (w, rows)) (v_count p) (v_times p) (v_lines p) (v_text p) in
      match plot_indices k most n with
      | Err e => say (Error e) p
      | Ok [] => say NoIndices p
      | Ok ix =>
          let full := histlen <=? v_count p in
          let rows := if full then scroll rows else rows in
          let count := if full then histlen - 1 else v_count p in
          let times := if full then tl (v_times p) else v_times p in
          if length rows <=? count then say (Error IndexError) (mkVP (Some (w, rows)) count times (v_lines p) (v_text p)) else
          let rows := set_at count vec rows in
          let times := stamp by_time (snd d) times in
          let ls := match v_lines p with Some l => l | None => [] end in
          mkVP (Some (w, rows)) (S count) times (Some (draw_all 0 ix times (firstn (count + 1) rows) ls)) (v_text p)
      end
  end.

(* ---------------------------------------------------------------- DataPlotter *)
(* data_plotter.py:91-113: the history, the counter; then the points, numbered from 0 *)
Definition plot_history (st : list V * nat) (v : V) : res ((list V * nat) * (list nat * list V)) :=
  let '(h, c) := st in
  let n := length h in
  let '(h, c) := if n <=? c then (scroll h, n - 1) else (h, c) in
  if n <=? c then Err IndexError else
  let h := set_at c v h in
  Ok ((h, S c), (seq 0 (S c), firstn (S c) h)).
End Plot.
Arguments Array {V}. Arguments Scalar {V}.

(* ---------------------------------------------------------------- DataPrint *)
(* data_print.py:36, 48-50, 58, 74, 102: last time printed; whether something is printed *)
Definition print_start (dt : Z) : Z := (- dt)%Z.
Definition print_step (dt last t : Z) : bool * Z := if (dt <=? t - last)%Z then (true, t) else (false, last).
Fixpoint printed (dt last : Z) (ts : list Z) : list Z :=
  match ts with [] => [] | t :: r => let '(b, last) := print_step dt last t in if b then t :: printed dt last r else printed dt last r end.
(* data_print.py:61-98: values of an array, by its dimensions; the slice is on the first one.  Shape, then values, then
   whether dots follow. *)
Definition chunk {A} (n : nat) (l : list A) (i : nat) : list A := firstn n (skipn (i * n) l).
Definition shown_values {A} (shape : list nat) (data : list A) (s : pyslice) : res (list nat * list A * bool) :=
  match shape with
  | [] => Ok ([], data, false)
  | n :: rest =>
      ps <- slice_pos s (Z.of_nat n) ;;
      let size := fold_right Nat.mul 1 rest in
      let sel := flat_map (fun i => chunk size data (Z.to_nat i)) ps in
      match rest with
      | [] => Ok ([length ps], sel, false)
      | _ => Ok (length ps :: rest, firstn 10 sel, 10 <? length sel)
      end
  end.
