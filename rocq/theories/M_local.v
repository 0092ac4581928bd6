(** Model of /repo/algotom/util/correlation.py:828-2593: maps of local shifts (CPU, GPU, hybrid).
    Real numbers instead of floats.  joblib returns the results in the order of the calls, so the parallel and the serial
    branches are the same list of calls. *)
From Coq Require Import Reals ZArith.
From Verif Require Import Np M_phase_R M_corr.
From Coq Require Import List. Import ListNotations.
Open Scope Z_scope.

(** normalize_image, 44-66 *)
Definition rminimum (l : list R) : R := match l with [] => 0%R | x :: t => fold_left Rmin t x end.
Definition normalize_image (d : data) : data :=
  match d with
  | Stack v =>
      let mean := rmean3 v in
      let std := sqrt (rmean3 (mkvol (dep v) (hei v) (wid v) (fun k i j => (vx v k i j - mean) * (vx v k i j - mean))%R)) in
      let v1 := fun k i j => ((vx v k i j - mean) / std)%R in
      let mn := rminimum (flat_map (fun k => flat_map (fun i => map (v1 k i) (zrange 0 (wid v))) (zrange 0 (hei v))) (zrange 0 (dep v))) in
      Stack (mkvol (dep v) (hei v) (wid v) (fun k i j => v1 k i j - mn)%R)
  | One m =>
      let m1 := fun i j => (px m i j / rsum (nrow m) (fun a => px m a j) / rsum (ncol m) (fun b => px m i b))%R in
      let mean := rmean2i (mkimg (nrow m) (ncol m) m1) in
      let std := sqrt (rmean2i (mkimg (nrow m) (ncol m) (fun i j => (m1 i j - mean) * (m1 i j - mean))%R)) in
      One (mkimg (nrow m) (ncol m) (fun i j => (m1 i j - mean) / std)%R)
  end.
Definition normalize_if (b : bool) (d : data) : data := if b then normalize_image d else d.
(** ref_mat.shape == mat.shape *)
Definition same_shape (a b : data) : bool :=
  match a, b with
  | One m, One n => (nrow m =? nrow n) && (ncol m =? ncol n)
  | Stack v, Stack w => (dep v =? dep w) && (hei v =? hei w) && (wid v =? wid w)
  | _, _ => false end.
(** np.pad(mat, p, mode="constant") *)
Definition pad_zero (m : img R) (p : Z) : img R :=
  mkimg (nrow m + 2 * p) (ncol m + 2 * p) (fun i j =>
    if (p <=? i) && (i <? p + nrow m) && (p <=? j) && (j <? p + ncol m) then px m (i - p) (j - p) else 0%R).
(** chunks of rows: num_chunk (1338-1342) *)
Definition num_chunk_of (height : Z) (chunk_size : option Z) : Z :=
  let c := match chunk_size with None => height + 1 | Some c => clipZ c 1 height end in
  clipZ (height / c + 1) 1 height.
(** for pos in np.array_split(np.arange(base, ..), num_chunk): bindex, eindex = pos[0], pos[-1] + 1 (1355-1356) *)
Fixpoint over_chunks {A} (step : A -> Z -> Z -> res A) (base : Z) (chunks : list (Z * Z)) (s : A) : res A :=
  match chunks with
  | [] => Ok s
  | (b, len) :: t => if len =? 0 then Err IndexError else do s' <- step s (base + b) (base + b + len); over_chunks step base t s'
  end.
(** mat[b:e, l:r] = chunk.  Simplification: a chunk of another shape is always rejected (numpy would broadcast size 1) *)
Definition store_block (m : img R) (b e l r : Z) (chunk : img R) : res (img R) :=
  if (slen (nrow m) b e =? nrow chunk) && (slen (ncol m) l r =? ncol chunk) then
    let b0 := py_adj (nrow m) b in let l0 := py_adj (ncol m) l in
    Ok (mkimg (nrow m) (ncol m) (fun i j =>
          if (b0 <=? i) && (i <? b0 + nrow chunk) && (l0 <=? j) && (j <? l0 + ncol chunk) then px chunk (i - b0) (j - l0) else px m i j))
  else Err ValueError.

(** what a launch of threads leaves in the output, each thread making at most one store *)
Definition launch {A} (th : Z * Z -> option (Z * Z * A)) (order : list (Z * Z)) (init : Z -> Z -> A) : Z -> Z -> A :=
  fold_left (fun m p => match th p with None => m | Some (y, x, v) => fun i j => if (i =? y) && (j =? x) then v else m i j end) order init.
(** grid (1551-1552, 1959-1960): the threads (x_index, y_index) *)
Definition grid_xy (width height : Z) (block : Z * Z) : list (Z * Z) :=
  list_prod (grid_axis width (fst block)) (grid_axis height (snd block)).

(** __pearson_coefficient_2d, _3d, 285-342 (__mean, __sum_square, __sum_multiply: 147-282), inlined in 1366-1399, 1646-1723 *)
Definition gpu_coefficient_2d (ref mat : img R) : R :=
  let mat_mean := rmean2i mat in
  let mat_sqr := rsum2 (nrow mat) (ncol mat) (fun i j => (px mat i j - mat_mean) * (px mat i j - mat_mean))%R in
  let ref_mean := rmean2i ref in
  let ref_sqr := rsum2 (nrow ref) (ncol ref) (fun i j => (px ref i j - ref_mean) * (px ref i j - ref_mean))%R in
  let sum_mul := rsum2 (nrow ref) (ncol ref) (fun i j => (px ref i j - ref_mean) * (px mat i j - mat_mean))%R in
  let num := sqrt (ref_sqr * mat_sqr) in
  if Reqb num 0 then 0%R else (sum_mul / num)%R.
Definition gpu_coefficient_3d (ref mat : vol R) : R :=
  let mat_mean := rmean3 mat in
  let mat_sqr := rsum3 (dep mat) (hei mat) (wid mat) (fun k i j => (vx mat k i j - mat_mean) * (vx mat k i j - mat_mean))%R in
  let ref_mean := rmean3 ref in
  let ref_sqr := rsum3 (dep ref) (hei ref) (wid ref) (fun k i j => (vx ref k i j - ref_mean) * (vx ref k i j - ref_mean))%R in
  let sum_mul := rsum3 (dep ref) (hei ref) (wid ref) (fun k i j => (vx ref k i j - ref_mean) * (vx mat k i j - mat_mean))%R in
  let num := sqrt (ref_sqr * mat_sqr) in
  if Reqb num 0 then 0%R else (sum_mul / num)%R.
(** __gen_1d_corr_map_kernel, 1366-1399: list_coef *)
Definition gen_1d_corr_map (ref mat : img R) : list R :=
  map (fun j => gpu_coefficient_2d (islice ref 0 (nrow ref) j (j + ncol mat)) mat) (zrange 0 (ncol ref - ncol mat + 1)).
(** __gen_2d_corr_map_2d_input, __gen_2d_corr_map_3d_input, 1646-1723: coef_mat *)
Definition gen_2d_corr_map (ref mat : data) : img R :=
  let (h0, w0) := shape2 ref in let (h1, w1) := shape2 mat in
  mkimg (h0 - h1 + 1) (w0 - w1 + 1) (fun i j =>
    match dslice ref i (i + h1) j (j + w1), mat with
    | One r, One m => gpu_coefficient_2d r m
    | Stack r, Stack m => gpu_coefficient_3d r m
    | _, _ => 0%R end).
(** the loop 1418-1425: position of the first largest value *)
Definition scan_max (l : list R) : Z * R :=
  match l with
  | [] => (0, 0%R)
  | v0 :: _ => fold_left (fun s p => if Rltb (snd s) (snd p) then p else s) (combine (zrange 1 (Z.of_nat (length l) - 1)) (tl l)) (0, v0)
  end.
(** __locate_1d_peak_kernel, 1403-1434 *)
Definition locate_1d_peak_kernel (l : list R) : R :=
  let num_point := Z.of_nat (length l) in
  let (pos_max, val_max) := scan_max l in
  if (pos_max <? num_point - 1) && (0 <? pos_max) then
    let val1 := nth (Z.to_nat (pos_max - 1)) l 0%R in
    let val2 := nth (Z.to_nat (pos_max + 1)) l 0%R in
    let d1fx := ((val2 - val1) / 2)%R in
    let d2fx := (val2 + val1 - 2 * val_max)%R in
    if Reqb d2fx 0 then IZR pos_max else (IZR pos_max + - d1fx / d2fx)%R
  else IZR pos_max.
(** __locate_max_value, 1727-1752: (x_max, y_max) *)
Definition locate_max_value (m : img R) : Z * Z :=
  let s := fold_left (fun s p => if Rltb (snd s) (px m (fst p) (snd p)) then (p, px m (fst p) (snd p)) else s)
                     (flat_map (fun i => map (fun j => (i, j)) (zrange 0 (ncol m))) (zrange 0 (nrow m))) ((0, 0), px m 0 0) in
  (snd (fst s), fst (fst s)).
(** __locate_2d_peak_kernel, 1804-1854 *)
Definition locate_2d_peak_kernel (m : img R) (x0 y0 : Z) : R * R :=
  let height1 := nrow m - 1 in let width1 := ncol m - 1 in
  let x_in := (0 <? x0) && (x0 <? width1) in let y_in := (0 <? y0) && (y0 <? height1) in
  let x_end := (x0 =? 0) || (x0 =? width1) in let y_end := (y0 =? 0) || (y0 =? height1) in
  let fx1 := ((px m y0 (x0 + 1)%Z - px m y0 (x0 - 1)%Z) / 2)%R in
  let fx2 := (px m y0 (x0 + 1)%Z + px m y0 (x0 - 1)%Z - 2 * px m y0 x0)%R in
  let fy1 := ((px m (y0 + 1)%Z x0 - px m (y0 - 1)%Z x0) / 2)%R in
  let fy2 := (px m (y0 + 1)%Z x0 + px m (y0 - 1)%Z x0 - 2 * px m y0 x0)%R in
  let d1fy := if (x_end && y_in) || (x_in && y_in) then fy1 else 0%R in
  let d2fy := if (x_end && y_in) || (x_in && y_in) then fy2 else 0%R in
  let d1fx := if (y_end && x_in) || (x_in && y_in) then fx1 else 0%R in
  let d2fx := if (y_end && x_in) || (x_in && y_in) then fx2 else 0%R in
  let d1fxy := if x_in && y_in then
      (/ 4 * (px m (y0 + 1)%Z (x0 + 1)%Z + px m (y0 - 1)%Z (x0 - 1)%Z - px m (y0 + 1)%Z (x0 - 1)%Z - px m (y0 - 1)%Z (x0 + 1)%Z))%R else 0%R in
  let num := (d1fxy * d1fxy - d2fx * d2fy)%R in
  if Reqb num 0 then (IZR x0, IZR y0) else
  let x_off := ((d2fy * d1fx - d1fxy * d1fy) / num)%R in
  let y_off := ((d2fx * d1fy - d1fxy * d1fx) / num)%R in
  (if Rltb (Rabs x_off) 1 && Rltb 0 (Rabs x_off) then IZR x0 + x_off else IZR x0,
   if Rltb (Rabs y_off) 1 && Rltb 0 (Rabs y_off) then IZR y0 + y_off else IZR y0)%R.

Section local.
Context (polyfit2 : vec R -> R * R) (surface : img R -> R * R * R * R * R).
Notation find_shift := (find_shift_based_correlation_map polyfit2 surface).

(** ** windows in two dimensions *)
(** the windows of pixel (i, j): ref_mat[.., i - start:i + start1, j - start:j + start1], mat[.., i - radi:i + radi1, ..] *)
Definition square (d : data) (i j r : Z) : data := dslice d (i - r) (i + (r + 1)) (j - r) (j + (r + 1)).
(** a list of lists of pairs as two images *)
Definition two_images (h w : Z) (l : list (list (R * R))) : img R * img R :=
  (mkimg h w (fun i j => fst (nth (Z.to_nat j) (nth (Z.to_nat i) l []) (0, 0)%R)),
   mkimg h w (fun i j => snd (nth (Z.to_nat j) (nth (Z.to_nat i) l []) (0, 0)%R))).
(** _get_2d_shift_full_image_2d_input (1079-1174) and _get_2d_shift_multi_rows_3d_input (1177-1279) *)
Definition multi_rows_2d_cpu (win_size margin : Z) (sub_pixel : bool) (meth : method) (size : Z) (gpu : bool) (block : Z * Z)
    (sched : list (Z * Z) -> list (Z * Z)) (pad norm : bool) (ref0 mat0 : data) : res (img R * img R) :=
  if negb (same_shape ref0 mat0) then Err ValueError else
  let (height, width) := shape2 ref0 in
  let win_size := 2 * (win_size / 2) + 1 in
  let radi := win_size / 2 in
  let start := radi + margin in
  let als_size := win_size + 2 * margin in
  if (width <? als_size) || (height <? als_size) then Err ValueError else
  let ref := normalize_if norm ref0 in let mat := normalize_if norm mat0 in
  let stop_col := width - start in let stop_row := height - start in
  do l <- mapr (fun i => mapr (fun j =>
            find_shift (square ref i j start) (square mat i j radi) margin NoAxis sub_pixel meth false size gpu block sched)
            (prange start stop_col)) (prange start stop_row);
  let (xs, ys) := two_images (stop_row - start) (stop_col - start) l in
  Ok (if pad then (pad_zero xs (radi + margin), pad_zero ys (radi + margin)) else (xs, ys)).
(** _get_2d_shift_multi_rows_2d_input_kernel (1858-1902), _get_2d_shift_multi_rows_3d_input_kernel (2048-2092) *)
Definition kernel_2d (ref mat : data) (height width radi margin : Z) (xy : Z * Z) : option (Z * Z * (R * R)) :=
  let (x_index, y_index) := xy in
  if (y_index <? height) && (x_index <? width) then
    let radi_ref := radi + margin in
    let j := x_index + radi_ref in let i := y_index + radi_ref in
    let coef := gen_2d_corr_map (square ref i j radi_ref) (square mat i j radi) in
    let (x_max, y_max) := locate_max_value coef in
    let (x_pos, y_pos) := locate_2d_peak_kernel coef x_max y_max in
    Some (y_index, x_index, (x_pos - IZR margin, y_pos - IZR margin)%R)
  else None.
(** _get_2d_shift_multi_rows_2d_input_gpu (1905-1970), _get_2d_shift_multi_rows_3d_input_gpu (2095-2164) *)
Definition multi_rows_2d_gpu (win_size margin : Z) (block : Z * Z) (sched : list (Z * Z) -> list (Z * Z)) (pad norm : bool)
    (ref0 mat0 : data) : res (img R * img R) :=
  if negb (same_shape ref0 mat0) then Err ValueError else
  let (height, width) := shape2 ref0 in
  let win_size := 2 * (win_size / 2) + 1 in
  let radi := win_size / 2 in
  let edge := radi + margin in
  let height1 := height - 2 * edge in let width1 := width - 2 * edge in
  if (width1 <? 1) || (height1 <? 1) then Err ValueError else
  let ref := normalize_if norm ref0 in let mat := normalize_if norm mat0 in
  let s := launch (kernel_2d ref mat height1 width1 radi margin) (sched (grid_xy width1 height1 block)) (fun _ _ => (0, 0)%R) in
  let xs := mkimg height1 width1 (fun i j => fst (s i j)) in let ys := mkimg height1 width1 (fun i j => snd (s i j)) in
  Ok (if pad then (pad_zero xs edge, pad_zero ys edge) else (xs, ys)).
(** _generate_4d_correlation_map_3d_input_kernel, 2244-2286: the map of one pixel *)
Definition kernel_4d (ref mat : data) (height width radi margin : Z) (xy : Z * Z) : option (Z * Z * img R) :=
  let (x_index, y_index) := xy in
  if (y_index <? height) && (x_index <? width) then
    let radi_ref := margin + radi in
    let j := x_index + radi_ref in let i := y_index + radi_ref in
    Some (y_index, x_index, gen_2d_corr_map (square ref i j radi_ref) (square mat i j radi))
  else None.
(** _get_2d_shift_multi_rows_3d_input_cpu_gpu, 2289-2379 *)
Definition multi_rows_2d_hybrid (win_size margin : Z) (meth : method) (size : Z) (block : Z * Z)
    (sched : list (Z * Z) -> list (Z * Z)) (pad norm : bool) (ref0 mat0 : data) : res (img R * img R) :=
  if negb (same_shape ref0 mat0) then Err ValueError else
  let (height, width) := shape2 ref0 in
  let win_size := 2 * (win_size / 2) + 1 in
  let radi := win_size / 2 in
  let edge := radi + margin in let size_mag := 2 * margin + 1 in
  let height1 := height - 2 * edge in let width1 := width - 2 * edge in
  if (width1 <? 1) || (height1 <? 1) then Err ValueError else
  let ref := normalize_if norm ref0 in let mat := normalize_if norm mat0 in
  let coef_4d := launch (kernel_4d ref mat height1 width1 radi margin) (sched (grid_xy width1 height1 block))
                        (fun _ _ => mkimg size_mag size_mag (fun _ _ => 0%R)) in
  do l <- mapr (fun i => mapr (fun j => locate_peak polyfit2 surface (coef_4d i j) true meth false size true) (zrange 0 width1)) (zrange 0 height1);
  let (xp, yp) := two_images height1 width1 l in
  let xs := mkimg height1 width1 (fun i j => px xp i j - IZR margin)%R in
  let ys := mkimg height1 width1 (fun i j => px yp i j - IZR margin)%R in
  Ok (if pad then (pad_zero xs edge, pad_zero ys edge) else (xs, ys)).
(** _get_2d_shift_full_image_3d_input_cpu (1282-1363), _2d_input_gpu (1973-2044), _3d_input_gpu (2167-2240),
    _3d_input_cpu_gpu (2382-2470); [multi norm]: the function for one chunk (without padding); [only_global]: norm = False
    after a global normalisation (2231, 2461) *)
Definition full_image_2d (multi : bool -> data -> data -> res (img R * img R)) (only_global : bool) (chunk_size : option Z)
    (win_size margin : Z) (norm norm_global : bool) (ref0 mat0 : data) : res (img R * img R) :=
  if negb (same_shape ref0 mat0) then Err ValueError else
  let (height, width) := shape2 ref0 in
  let num_chunk := num_chunk_of height chunk_size in
  let edge := margin + win_size / 2 in
  if height <? 2 * edge + 1 then Err ValueError else
  do list_index <- array_split (height - edge - edge) num_chunk;
  let ref := normalize_if norm_global ref0 in let mat := normalize_if norm_global mat0 in
  let norm1 := if (only_global && norm_global)%bool then false else norm in
  let zero := mkimg height width (fun _ _ => 0%R) in
  over_chunks (fun s bindex eindex =>
      do c <- multi norm1 (dslice ref (bindex - edge) (eindex + edge) 0 width) (dslice mat (bindex - edge) (eindex + edge) 0 width);
      do x <- store_block (fst s) bindex eindex edge (- edge) (fst c);
      do y <- store_block (snd s) bindex eindex edge (- edge) (snd c);
      Ok (x, y)) edge list_index (zero, zero).

(** ** windows in one dimension *)
Inductive direction := DirX | DirY.
(** ref_mat[:, i, :], ref_mat[:, :, j] *)
Definition plane (dir : direction) (v : vol R) (i : Z) : img R :=
  match dir with
  | DirX => mkimg (dep v) (wid v) (fun k j => vx v k i j)
  | DirY => mkimg (dep v) (hei v) (fun k j => vx v k j i) end.
Definition interval (m : img R) (j r : Z) : data := One (islice m 0 (nrow m) (j - r) (j + (r + 1))).
Definition norm_plane (b : bool) (m : img R) : img R := match normalize_if b (One m) with One n => n | _ => m end.
(** _get_1d_shift_single_row_2d_input, 828-898 *)
Definition single_row (win_size margin : Z) (sub_pixel : bool) (meth : method) (size : Z) (gpu : bool) (block : Z * Z)
    (sched : list (Z * Z) -> list (Z * Z)) (pad norm : bool) (ref0 mat0 : img R) : res (vec R) :=
  let width := ncol ref0 in
  let win_size := 2 * (win_size / 2) + 1 in
  let radi := win_size / 2 in
  let start := radi + margin in
  if negb ((nrow ref0 =? nrow mat0) && (ncol ref0 =? ncol mat0)) then Err ValueError else
  if width <? win_size + 2 * margin then Err ValueError else
  let stop := width - start in
  let ref := norm_plane norm ref0 in let mat := norm_plane norm mat0 in
  do l <- mapr (fun j => find_shift (interval ref j start) (interval mat j radi) margin Axis1 sub_pixel meth true size gpu block sched)
               (prange start stop);
  let line := mkvec (stop - start) (fun j => fst (nth (Z.to_nat j) l (0, 0)%R)) in
  Ok (if pad then mkvec (stop - start + 2 * (radi + margin)) (fun j =>
                   if (radi + margin <=? j) && (j <? radi + margin + (stop - start)) then vat line (j - (radi + margin)) else 0%R)
      else line).
(** _get_1d_shift_multi_rows_3d_input, 901-986 *)
Definition multi_rows_1d_cpu (dir : direction) (win_size margin : Z) (sub_pixel : bool) (meth : method) (size : Z) (pad norm : bool)
    (block : Z * Z) (sched : list (Z * Z) -> list (Z * Z)) (ref mat : vol R) : res (img R) :=
  let n := match dir with DirX => hei ref | DirY => wid ref end in
  do l <- mapr (fun i => single_row win_size margin sub_pixel meth size false block sched pad norm (plane dir ref i) (plane dir mat i)) (zrange 0 n);
  let w := match l with [] => 0 | v :: _ => vlen v end in
  let line := fun i => nth (Z.to_nat i) l (mkvec 0 (fun _ => 0%R)) in
  Ok (match dir with
      | DirX => mkimg n w (fun i j => vat (line i) j)
      | DirY => mkimg w n (fun i j => vat (line j) i) end).
(** _get_1d_shift_multi_rows_3d_input_kernel, 1438-1479; row y_index of the moved axes is [plane dir _ y_index] (1532-1541) *)
Definition kernel_1d (ref mat : Z -> img R) (height width radi margin : Z) (xy : Z * Z) : option (Z * Z * R) :=
  let (x_index, y_index) := xy in
  if (y_index <? height) && (x_index <? width) then
    let edge := radi + margin in
    let pos := x_index + edge in
    let ref1 := islice (ref y_index) 0 (nrow (ref y_index)) (pos - edge) (pos + edge + 1) in
    let mat1 := islice (mat y_index) 0 (nrow (mat y_index)) (pos - radi) (pos + radi + 1) in
    Some (y_index, x_index, locate_1d_peak_kernel (gen_1d_corr_map ref1 mat1) - IZR margin)%R
  else None.
(** _get_1d_shift_multi_rows_3d_input_gpu, 1482-1563 *)
Definition multi_rows_1d_gpu (dir : direction) (win_size margin : Z) (block : Z * Z) (sched : list (Z * Z) -> list (Z * Z))
    (pad norm : bool) (ref mat : vol R) : res (img R) :=
  if negb (same_shape (Stack ref) (Stack mat)) then Err ValueError else
  let (height, width) := match dir with DirX => (hei ref, wid ref) | DirY => (wid ref, hei ref) end in
  let win_size := 2 * (win_size / 2) + 1 in
  let radi := win_size / 2 in
  let edge := radi + margin in
  let width1 := width - 2 * edge in
  if width1 <? 1 then Err ValueError else
  let s := launch (kernel_1d (fun i => norm_plane norm (plane dir ref i)) (fun i => norm_plane norm (plane dir mat i)) height width1 radi margin)
                  (sched (grid_xy width1 height block)) (fun _ _ => 0%R) in
  let shifts := if pad then mkimg height (width1 + 2 * edge) (fun i j => if (edge <=? j) && (j <? edge + width1) then s i (j - edge) else 0%R)
                else mkimg height width1 s in
  Ok (match dir with DirX => shifts | DirY => itrans shifts end).
(** _get_1d_shift_full_image_3d_input_cpu (989-1076), _gpu (1566-1642); [multi pad]: the function for one chunk *)
Definition full_image_1d (multi : bool -> vol R -> vol R -> res (img R)) (dir : direction) (chunk_size : option Z) (win_size margin : Z)
    (norm_global : bool) (ref0 mat0 : vol R) : res (img R) :=
  if negb (same_shape (Stack ref0) (Stack mat0)) then Err ValueError else
  let height := hei ref0 in let width := wid ref0 in
  let num_chunk := num_chunk_of height chunk_size in
  let edge := margin + win_size / 2 in
  let glob := fun v => match normalize_if norm_global (Stack v) with Stack w => w | _ => v end in
  let ref := glob ref0 in let mat := glob mat0 in
  let zero := mkimg height width (fun _ _ => 0%R) in
  match dir with
  | DirX =>
      do list_index <- array_split height num_chunk;
      over_chunks (fun s bindex eindex =>
        do c <- multi true (wslice ref bindex eindex 0 width) (wslice mat bindex eindex 0 width);
        store_block s bindex eindex 0 width c) 0 list_index zero
  | DirY =>
      do list_index <- array_split (Z.max (height - edge - edge) 0) num_chunk;
      over_chunks (fun s bindex eindex =>
        do c <- multi false (wslice ref (bindex - edge) (eindex + edge) 0 width) (wslice mat (bindex - edge) (eindex + edge) 0 width);
        store_block s bindex eindex 0 width c) edge list_index zero
  end.

(** find_local_shifts, 2473-2593.  [dev]: gpu=False (or no GPU found), True, "hybrid" *)
Inductive device := CPU | GPU | Hybrid.
Definition find_local_shifts (ref mat : data) (dim1 : bool) (win_size margin : Z) (meth : method) (size : Z) (dev : device)
    (block : Z * Z) (sched : list (Z * Z) -> list (Z * Z)) (norm norm_global : bool) (chunk_size : option Z) : res (img R * img R) :=
  match ref, mat with
  | One _, _ =>
      match dev with
      | CPU => multi_rows_2d_cpu win_size margin true meth size false block sched true norm ref mat
      | _ => full_image_2d (fun n => multi_rows_2d_gpu win_size margin block sched false n) false chunk_size win_size margin norm false ref mat
      end
  | Stack r, Stack m =>
      let one_d := fun multi =>
        do x <- full_image_1d (multi DirX) DirX chunk_size win_size margin norm_global r m;
        do y <- full_image_1d (multi DirY) DirY chunk_size win_size margin norm_global r m;
        Ok (x, y) in
      match dev with
      | CPU => if dim1 then one_d (fun dir pad => multi_rows_1d_cpu dir win_size margin true meth size pad norm block sched)
               else full_image_2d (fun n => multi_rows_2d_cpu win_size margin true meth size false block sched false n) false
                      chunk_size win_size margin norm norm_global ref mat
      | Hybrid => full_image_2d (fun n => multi_rows_2d_hybrid win_size margin meth size block sched false n) true
                      chunk_size win_size margin norm norm_global ref mat
      | GPU => if dim1 then one_d (fun dir pad => multi_rows_1d_gpu dir win_size margin block sched pad norm)
               else full_image_2d (fun n => multi_rows_2d_gpu win_size margin block sched false n) true
                      chunk_size win_size margin norm norm_global ref mat
      end
  | Stack _, One _ => Err ValueError
  end.
End local.
