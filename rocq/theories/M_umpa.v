(** Model of the UMPA speckle tracking of algotom/util/correlation.py (3009-3387), exact real arithmetic (float32 not modelled). *)
From Coq Require Import Reals ZArith Bool.
From Verif Require Import Np M_phase_R M_corr M_local M_fresnel.
From Coq Require Import List. Import ListNotations.
Open Scope Z_scope.

(** np.round, half to even *)
Definition round_even (x : R) : Z :=
  let f := Int_part x in let d := (x - IZR f)%R in
  if Rltb d (1 / 2)%R then f else if Rltb (1 / 2)%R d then f + 1 else if Z.even f then f else f + 1.
(** scipy.signal.correlate(a, b, mode="valid") with a at least as large as b *)
Definition correlate_valid (a b : img R) : img R :=
  mkimg (nrow a - nrow b + 1) (ncol a - ncol b + 1) (fun i j => rsum2 (nrow b) (ncol b) (fun u v => px a (i + u) (j + v) * px b u v)%R).
(** scipy.signal.correlate(a, b, mode="same") with a window b of odd size; outside of a: 0 *)
Definition correlate_same (a b : img R) : img R :=
  mkimg (nrow a) (ncol a) (fun i j => rsum2 (nrow b) (ncol b) (fun u v =>
    let y := i + u - (nrow b - 1) / 2 in let x := j + v - (ncol b - 1) / 2 in
    if (0 <=? y) && (y <? nrow a) && (0 <=? x) && (x <? ncol a) then (px a y x * px b u v)%R else 0%R)).
Definition image (v : vol R) (k : Z) : img R := mkimg (hei v) (wid v) (vx v k).
(** np.sum(stack, axis=0) *)
Definition sum_stack (v : vol R) (f : R -> R) : img R := mkimg (hei v) (wid v) (fun i j => rsum (dep v) (fun k => f (vx v k i j))).

(** 3018-3028, 3181-3196: K, beta and the cost D of one displacement *)
Definition umpa_fit (dark : bool) (t1 t2 t3 t4 t5 t6 : R) : R * R * R :=
  let tmp := (t2 * t3 - t6 ^ 2)%R in
  let k := if dark then ((t2 * t5 - t4 * t6) / tmp)%R else (t5 / t3)%R in
  let beta := if dark then ((t3 * t4 - t5 * t6) / tmp)%R else 0%R in
  (k, beta, (t1 + beta ^ 2 * t2 + k ^ 2 * t3 - 2 * beta * t4 - 2 * k * t5 + 2 * beta * k * t6)%R).
(** x shift, y shift, transmission, dark signal of a pixel *)
Definition quad := (R * R * (R * R))%type.
(** the four maps *)
Definition maps := (img R * img R * (img R * img R))%type.
Definition to_maps (h w : Z) (f : Z -> Z -> quad) : maps :=
  (mkimg h w (fun i j => fst (fst (f i j))), mkimg h w (fun i j => snd (fst (f i j))),
   (mkimg h w (fun i j => fst (snd (f i j))), mkimg h w (fun i j => snd (snd (f i j))))).

Section umpa.
Context (polyfit2 : vec R -> R * R) (surface : img R -> R * R * R * R * R).
(** __calc_shift_umpa, 3009-3036; without dark signal the last two numbers are not used *)
Definition calc_shift_umpa (ref mat : vol R) (window : img R) (margin : Z) (t1 : R) (t3 : img R) (t2 t4 : R) (t6 : img R) (dark : bool)
    (meth : method) (size : Z) : res quad :=
  let n := 2 * margin + 1 in
  let t5 u v := rsum (dep ref) (fun k =>
     px (correlate_valid (image ref k) (mkimg (hei mat) (wid mat) (fun a b => px window a b * vx mat k a b)%R)) u v) in
  let fit u v := umpa_fit dark t1 t2 (px t3 u v) t4 (t5 u v) (px t6 u v) in
  do p <- locate_peak polyfit2 surface (mkimg n n (fun u v => snd (fit u v))) true meth false size false;
  let '(x_pos, y_pos) := p in
  let j := round_even x_pos in let i := round_even y_pos in
  do a <- rd2 (mkimg n n (fun u v => snd (fst (fit u v)) + fst (fst (fit u v)))%R) i j;
  do k <- rd2 (mkimg n n (fun u v => fst (fst (fit u v)))) i j;
  Ok (x_pos - IZR margin, y_pos - IZR margin, (if dark then (Rabs a, Rabs (k / a)) else (1, 1)))%R.
(** __get_2d_shift_multi_rows_3d_input_umpa_cpu, 3039-3086 *)
Definition umpa_rows_cpu (ref mat : vol R) (win_size margin : Z) (window l1 l3 : img R) (l2 : R) (l4 l6 : img R) (meth : method) (size : Z)
    (dark : bool) : res maps :=
  let height := hei ref in let width := wid ref in
  let win_size := 2 * (win_size / 2) + 1 in
  let radi := win_size / 2 in
  let start := radi + margin in
  let stop_col := width - start in let stop_row := height - start in
  do l <- mapr (fun i => mapr (fun j =>
     calc_shift_umpa (wslice ref (i - start) (i + (start + 1)) (j - start) (j + (start + 1)))
       (wslice mat (i - radi) (i + (radi + 1)) (j - radi) (j + (radi + 1))) window margin
       (px l1 i j) (islice l3 (i - margin) (i + (margin + 1)) (j - margin) (j + (margin + 1)))
       (if dark then l2 else 0%R) (if dark then px l4 i j else 0%R)
       (if dark then islice l6 (i - margin) (i + (margin + 1)) (j - margin) (j + (margin + 1)) else mkimg (2 * margin + 1) (2 * margin + 1) (fun _ _ => 0%R))
       dark meth size) (prange start stop_col)) (prange start stop_row);
  Ok (to_maps (stop_row - start) (stop_col - start) (fun i j => nth (Z.to_nat j) (nth (Z.to_nat i) l []) (0, 0, (0, 0))%R)).
(** __get_max_value and __inverse_values, 1755-1801 *)
Definition invert_values (m : img R) : img R :=
  let vals := map (fun k => px m (k / ncol m) (k mod ncol m)) (zrange 0 (nrow m * ncol m)) in
  let val_max := fold_left (fun s v => if Rltb s v then v else s) vals (px m 0 0) in
  mkimg (nrow m) (ncol m) (fun i j => val_max - px m i j)%R.
(** __accu_correlate and __sum_multiply_no_norm_2d, 3089-3147: what is added to coef_mat *)
Definition accu_correlate (ref mat window : img R) : img R :=
  mkimg (nrow ref - nrow mat + 1) (ncol ref - ncol mat + 1) (fun i j =>
    let ref1 := islice ref i (i + nrow mat) j (j + ncol mat) in
    rsum2 (nrow ref1) (ncol ref1) (fun a b => px ref1 a b * px mat a b * px window a b)%R).
(** __calc_shift_umpa_gpu_kernel, 3150-3206: what thread (x_index, y_index) stores; round in numba is np.round.
    V stays 0 where A is 0. *)
Definition umpa_kernel (ref mat : vol R) (height width radi margin : Z) (window l1 l3 : img R) (l2 : R) (l4 l6 : img R) (dark : bool)
    (xy : Z * Z) : option (Z * Z * quad) :=
  let (x_index, y_index) := xy in
  if (y_index <? height) && (x_index <? width) then
    let radi_ref := margin + radi in
    let j := x_index + radi_ref in let i := y_index + radi_ref in
    let ref1 := wslice ref (i - radi_ref) (i + (radi_ref + 1)) (j - radi_ref) (j + (radi_ref + 1)) in
    let mat1 := wslice mat (i - radi) (i + (radi + 1)) (j - radi) (j + (radi + 1)) in
    let t5 u v := rsum (dep ref) (fun k => px (accu_correlate (image ref1 k) (image mat1 k) window) u v) in
    let t3 := islice l3 (i - margin) (i + (margin + 1)) (j - margin) (j + (margin + 1)) in
    let t6 := islice l6 (i - margin) (i + (margin + 1)) (j - margin) (j + (margin + 1)) in
    let size := 2 * margin + 1 in
    let fit u v := umpa_fit dark (px l1 i j) l2 (px t3 u v) (px l4 i j) (t5 u v) (px t6 u v) in
    let d := invert_values (mkimg size size (fun u v => snd (fit u v))) in
    let (x_max, y_max) := locate_max_value d in
    let (x_pos, y_pos) := locate_2d_peak_kernel d x_max y_max in
    let j1 := round_even x_pos in let i1 := round_even y_pos in
    let k := fst (fst (fit i1 j1)) in let a := (snd (fst (fit i1 j1)) + k)%R in
    Some (y_index, x_index, (x_pos - IZR margin, y_pos - IZR margin,
      (if dark then (Rabs a, Rabs (if Reqb a 0 then 0 else k / a)) else (1, 1)))%R)
  else None.
(** __get_2d_shift_multi_rows_3d_input_umpa_gpu, 3209-3255; [sched]: the order of the stores of the threads *)
Definition umpa_rows_gpu (ref mat : vol R) (win_size margin : Z) (window l1 l3 : img R) (l2 : R) (l4 l6 : img R) (block : Z * Z)
    (sched : list (Z * Z) -> list (Z * Z)) (dark : bool) : res maps :=
  if negb (M_local.same_shape (Stack ref) (Stack mat)) then Err ValueError else
  let height := hei ref in let width := wid ref in
  let win_size := 2 * (win_size / 2) + 1 in
  let radi := win_size / 2 in
  let edge := radi + margin in
  let height1 := height - 2 * edge in let width1 := width - 2 * edge in
  if (width1 <? 1) || (height1 <? 1) then Err ValueError else
  Ok (to_maps height1 width1 (launch (umpa_kernel ref mat height1 width1 radi margin window l1 l3 l2 l4 l6 dark)
        (sched (grid_xy width1 height1 block)) (fun _ _ => (0, 0, (1, 1))%R))).

(** ** find_local_shifts_umpa, 3258-3387.  [smooth n]: make_smoothing_window(filter_name, n); [gpu]: requested and available.
    L1[b1:e1] of a map is [islice _ b1 e1 0 width].  The result has transmission and dark signal if they are asked for. *)
Definition find_local_shifts_umpa (smooth : Z -> Z -> R) (ref mat : vol R) (win_size margin : Z) (meth : method) (size : Z) (gpu : bool)
    (block : Z * Z) (sched : list (Z * Z) -> list (Z * Z)) (chunk_size : option Z) (dark : bool) : res (img R * img R * option (img R * img R)) :=
  if negb (M_local.same_shape (Stack ref) (Stack mat)) then Err ValueError else
  let depth := dep ref in let height := hei ref in let width := wid ref in
  let num_chunk := num_chunk_of height chunk_size in
  let win_size := 2 * (win_size / 2) + 1 in
  let edge := margin + win_size / 2 in
  let als_size := win_size + 2 * margin in
  if (width <? als_size) || (height <? als_size) then Err ValueError else
  let outer a b := (smooth win_size a * smooth win_size b)%R in
  let window := mkimg win_size win_size (fun a b => outer a b / rsum2 win_size win_size outer)%R in
  let l1 := correlate_same (sum_stack mat (fun x => x ^ 2)%R) window in
  let l3 := correlate_same (sum_stack ref (fun x => x ^ 2)%R) window in
  let r1 := sum_stack ref (fun x => x) in
  let im := (rmean2i r1 / IZR depth)%R in
  let l2 := (im ^ 2 * IZR depth)%R in
  let l4 := imap (fun x => im * x)%R (correlate_same (sum_stack mat (fun x => x)) window) in
  let l6 := imap (fun x => im * x)%R (correlate_same r1 window) in
  let zeros := mkimg height width (fun _ _ => 0%R) in let ones := mkimg height width (fun _ _ => 1%R) in
  do list_index <- array_split (height - edge - edge) num_chunk;
  do s <- over_chunks (fun (s : maps) b e =>
      let b1 := b - edge in let e1 := e + edge in
      let rows m := islice m b1 e1 0 width in
      let ref1 := wslice ref b1 e1 0 width in let mat1 := wslice mat b1 e1 0 width in
      do c <- (if gpu then umpa_rows_gpu ref1 mat1 win_size margin window (rows l1) (rows l3) l2 (rows l4) (rows l6) block sched dark
               else umpa_rows_cpu ref1 mat1 win_size margin window (rows l1) (rows l3) l2 (rows l4) (rows l6) meth size dark);
      do x <- store_block (fst (fst s)) b e edge (- edge) (fst (fst c));
      do y <- store_block (snd (fst s)) b e edge (- edge) (snd (fst c));
      if dark then
        do t <- store_block (fst (snd s)) b e edge (- edge) (fst (snd c));
        do v <- store_block (snd (snd s)) b e edge (- edge) (snd (snd c));
        Ok (x, y, (t, v))
      else Ok (x, y, snd s)) edge list_index (zeros, zeros, (ones, ones));
  let '(x, y, (t, v)) := s in
  let inner m := pad_edge (islice m edge (- edge) edge (- edge)) edge edge in
  Ok (x, y, if dark then Some (inner t, inner v) else None).
End umpa.
