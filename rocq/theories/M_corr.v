(** Model of /repo/algotom/util/correlation.py:44-825: correlation maps, peak location, shift between two images.
    Real numbers instead of floats (exact square root); GPU warnings are not modelled. *)
From Coq Require Import Reals ZArith.
From Verif Require Import Np M_phase_R.
From Coq Require Import List. Import ListNotations.
Open Scope Z_scope.

Definition Rltb (a b : R) : bool := if Rlt_dec a b then true else false.
Definition Reqb (a b : R) : bool := if Req_EM_T a b then true else false.
(** an argument of the functions: one image or a stack of images *)
Inductive data := One (m : img R) | Stack (v : vol R).
(** .shape[-2:] *)
Definition shape2 (d : data) : Z * Z := match d with One m => (nrow m, ncol m) | Stack v => (hei v, wid v) end.
(** mat[a:b, c:d] or mat[:, a:b, c:d] *)
Definition wslice (v : vol R) (a b c d : Z) : vol R :=
  mkvol (dep v) (slen (hei v) a b) (slen (wid v) c d) (fun k i j => vx v k (py_adj (hei v) a + i) (py_adj (wid v) c + j)).
Definition dslice (d : data) (a b l r : Z) : data :=
  match d with One m => One (islice m a b l r) | Stack v => Stack (wslice v a b l r) end.

(** np.mean, np.sum of an array *)
Definition rsum2 (h w : Z) (f : Z -> Z -> R) : R := rsum h (fun i => rsum w (f i)).
Definition rsum3 (d h w : Z) (f : Z -> Z -> Z -> R) : R := rsum d (fun k => rsum2 h w (f k)).
Definition rmean3 (v : vol R) : R := (rsum3 (dep v) (hei v) (wid v) (vx v) / (IZR (dep v) * IZR (hei v) * IZR (wid v)))%R.
Definition rmean2i (m : img R) : R := (rsum2 (nrow m) (ncol m) (px m) / (IZR (nrow m) * IZR (ncol m)))%R.

(** _generate_correlation_map_2d_input_cpu, 70-104 *)
Definition correlation_map_2d_cpu (ref mat : img R) : img R :=
  let h1 := nrow mat in let w1 := ncol mat in
  let mean := rmean2i mat in
  let mat1 := fun i j => (px mat i j - mean)%R in
  let num := rsum2 h1 w1 (fun i j => mat1 i j * mat1 i j)%R in
  mkimg (nrow ref - h1 + 1) (ncol ref - w1 + 1) (fun i j =>
    let r := islice ref i (i + h1) j (j + w1) in
    let rm := rmean2i r in
    let r1 := fun a b => (px r a b - rm)%R in
    let ref_num := rsum2 (nrow r) (ncol r) (fun a b => r1 a b * r1 a b)%R in
    let num1 := sqrt (num * ref_num) in
    if Reqb num1 0 then 0%R else (rsum2 h1 w1 (fun a b => mat1 a b * r1 a b) / num1)%R).
(** _generate_correlation_map_3d_input_cpu, 108-143 *)
Definition correlation_map_3d_cpu (ref mat : vol R) : img R :=
  let h1 := hei mat in let w1 := wid mat in
  let mean := rmean3 mat in
  let mat1 := fun k i j => (vx mat k i j - mean)%R in
  let num := rsum3 (dep mat) h1 w1 (fun k i j => mat1 k i j * mat1 k i j)%R in
  mkimg (hei ref - h1 + 1) (wid ref - w1 + 1) (fun i j =>
    let r := wslice ref i (i + h1) j (j + w1) in
    let rm := rmean3 r in
    let r1 := fun k a b => (vx r k a b - rm)%R in
    let ref_num := rsum3 (dep r) (hei r) (wid r) (fun k a b => r1 k a b * r1 k a b)%R in
    let num1 := sqrt (num * ref_num) in
    if Reqb num1 0 then 0%R else (rsum3 (dep mat) h1 w1 (fun k a b => mat1 k a b * r1 k a b) / num1)%R).

(** checked reads for the CUDA kernels, which index arrays explicitly *)
Definition rd3 (v : vol R) (k i j : Z) : res R :=
  if (0 <=? k) && (k <? dep v) && (0 <=? i) && (i <? hei v) && (0 <=? j) && (j <? wid v) then Ok (vx v k i j) else Err IndexError.
Definition rd2 (m : img R) (i j : Z) : res R :=
  if (0 <=? i) && (i <? nrow m) && (0 <=? j) && (j <? ncol m) then Ok (px m i j) else Err IndexError.
(** for i in range(n): s += f(i) *)
Fixpoint rsumn_r (n : nat) (f : Z -> res R) : res R :=
  match n with O => Ok 0%R | S k => do s <- rsumn_r k f; do v <- f (Z.of_nat k); Ok (s + v)%R end.
Definition rsum_r (n : Z) (f : Z -> res R) : res R := rsumn_r (Z.to_nat n) f.
(** the content of coef_mat *)
Definition coefs := Z -> Z -> R.
Definition cset (m : coefs) (y x : Z) (v : R) : coefs := fun i j => if (i =? y) && (j =? x) then v else m i j.
(** _generate_correlation_map_2d_input_gpu, 346-392: what thread cuda.grid(2) = (x, y) stores (None: nothing).
    __mean_2d: 147-156 *)
Definition correlation_thread_2d (ref mat1 : img R) (sum_sqr : R) (h1 w1 h2 w2 : Z) (xy : Z * Z) : res (option (Z * Z * R)) :=
  let (x, y) := xy in
  if (y <? h2) && (x <? w2) then
    let win := islice ref y (y + h1) x (x + w1) in
    do t <- rsum_r (nrow win) (fun i => rsum_r (ncol win) (fun j => rd2 win i j));
    let ref_mean := (t / (IZR (nrow win) * IZR (ncol win)))%R in
    do num_sqr <- rsum_r h1 (fun i1 => rsum_r w1 (fun j1 =>
        do v <- rd2 ref (y + i1) (x + j1); Ok ((v - ref_mean) * (v - ref_mean))%R));
    do num_mul <- rsum_r h1 (fun i1 => rsum_r w1 (fun j1 =>
        do v <- rd2 ref (y + i1) (x + j1); do m <- rd2 mat1 i1 j1; Ok (m * (v - ref_mean))%R));
    let num := sqrt (num_sqr * sum_sqr) in
    Ok (if Reqb num 0 then None else Some (y, x, (num_mul / num)%R))
  else Ok None.
(** _generate_correlation_map_3d_input_gpu, 396-445; __mean_3d: 160-170 *)
Definition correlation_thread_3d (ref mat1 : vol R) (sum_sqr : R) (d h1 w1 h2 w2 : Z) (xy : Z * Z) : res (option (Z * Z * R)) :=
  let (x, y) := xy in
  if (y <? h2) && (x <? w2) then
    let win := wslice ref y (y + h1) x (x + w1) in
    do t <- rsum_r (dep win) (fun k => rsum_r (hei win) (fun i => rsum_r (wid win) (fun j => rd3 win k i j)));
    let ref_mean := (t / (IZR (dep win) * IZR (hei win) * IZR (wid win)))%R in
    do num_sqr <- rsum_r d (fun k => rsum_r h1 (fun i1 => rsum_r w1 (fun j1 =>
        do v <- rd3 ref k (y + i1) (x + j1); Ok ((v - ref_mean) * (v - ref_mean))%R)));
    do num_mul <- rsum_r d (fun k => rsum_r h1 (fun i1 => rsum_r w1 (fun j1 =>
        do v <- rd3 ref k (y + i1) (x + j1); do m <- rd3 mat1 k i1 j1; Ok (m * (v - ref_mean))%R)));
    let num := sqrt (num_sqr * sum_sqr) in
    Ok (if Reqb num 0 then None else Some (y, x, (num_mul / num)%R))
  else Ok None.
(** the launch: every thread of the grid makes at most one store; [order]: the threads in the order of their stores *)
Definition run_threads (th : Z * Z -> res (option (Z * Z * R))) (order : list (Z * Z)) : res coefs :=
  do ws <- mapr th order;
  Ok (fold_left (fun m w => match w with None => m | Some (y, x, v) => cset m y x v end) ws (fun _ _ => 0%R)).
(** positions along one axis of the grid: grid = int(np.ceil(1.0 * size / b)) blocks of b threads (492-494) *)
Definition grid_axis (size b : Z) : list Z := zrange 0 ((- ((- size) / b)) * b).
Definition grid2 (size : Z) (block : Z * Z) : list (Z * Z) := list_prod (grid_axis size (fst block)) (grid_axis size (snd block)).

(** generate_correlation_map, 448-520.  [gpu]: requested and available; [sched]: the
    order in which the stores of the threads of a launch happen.  Simplification: an image given together with a
    stack is rejected here with TypeError (numba rejects the kernel call) *)
Definition generate_correlation_map (ref mat : data) (gpu : bool) (block : Z * Z)
    (sched : list (Z * Z) -> list (Z * Z)) : res (img R) :=
  let (h0, w0) := shape2 ref in let (h1, w1) := shape2 mat in
  let h2 := h0 - h1 + 1 in let w2 := w0 - w1 + 1 in
  let order := sched (grid2 (Z.max h2 w2) block) in
  if (h0 <? h1) || (w0 <? w1) then Err ValueError else
  match ref, mat with
  | One r, One m =>
      if gpu then
        let mean := rmean2i m in
        let mat1 := mkimg (nrow m) (ncol m) (fun i j => px m i j - mean)%R in
        let sum_sqr := rsum2 (nrow m) (ncol m) (fun i j => px mat1 i j * px mat1 i j)%R in
        do c <- run_threads (correlation_thread_2d r mat1 sum_sqr h1 w1 h2 w2) order;
        Ok (mkimg h2 w2 c)
      else Ok (correlation_map_2d_cpu r m)
  | Stack r, Stack m =>
      if negb (dep r =? dep m) then Err ValueError else
      if gpu then
        let mean := rmean3 m in
        let mat1 := mkvol (dep m) (hei m) (wid m) (fun k i j => vx m k i j - mean)%R in
        let sum_sqr := rsum3 (dep m) (hei m) (wid m) (fun k i j => vx mat1 k i j * vx mat1 k i j)%R in
        do c <- run_threads (correlation_thread_3d r mat1 sum_sqr (dep r) h1 w1 h2 w2) order;
        Ok (mkimg h2 w2 c)
      else Ok (correlation_map_3d_cpu r m)
  | _, _ => Err TypeError
  end.

(** np.argmax: the first maximum; np.unravel_index(np.argmax(mat), mat.shape) *)
Definition argmaxR : list R -> res Z := argbest (fun a b => Rltb b a).
Definition argmax2 (m : img R) : res (Z * Z) :=
  do k <- argmaxR (map (fun k => px m (k / ncol m) (k mod ncol m)) (zrange 0 (nrow m * ncol m)));
  Ok (k / ncol m, k mod ncol m).

Inductive method := Diff | PolyFit | Other.
Section peak.
(** np.polyfit(np.arange(size), list_data, 2)[:2] and the coefficients a1 .. a5 of the fitted surface (596-606) *)
Context (polyfit2 : vec R -> R * R) (surface : img R -> R * R * R * R * R).
Local Open Scope R_scope.
(** _locate_1d_peak_subpixel, 523-559 *)
Definition locate_1d_peak_subpixel (l : vec R) (meth : method) : res R :=
  do pos <- argmaxR (vlist l);
  let size1 := (vlen l - 1)%Z in
  match meth with
  | PolyFit =>
      let (afact, bfact) := polyfit2 l in
      if Reqb afact 0 then Ok (IZR pos) else
      let sub_pos := - bfact / (2 * afact) in
      Ok (if Rltb sub_pos (IZR size1) && Rltb 0 sub_pos then sub_pos else IZR pos)
  | _ =>
      if ((pos <? size1) && (0 <? pos))%Z then
        let d1fx := (vat l (pos + 1)%Z - vat l (pos - 1)%Z) / 2 in
        let d2fx := vat l (pos + 1)%Z + vat l (pos - 1)%Z - 2 * vat l pos in
        Ok (if Reqb d2fx 0 then IZR pos else IZR pos + - d1fx / d2fx)
      else Ok (IZR pos)
  end.
(** _locate_2d_peak_subpixel, 562-638; result (x, y) *)
Definition locate_2d_peak_subpixel (m : img R) (meth : method) : res (R * R) :=
  do yx <- argmax2 m;
  let (y0, x0) := yx in
  let height1 := (nrow m - 1)%Z in let width1 := (ncol m - 1)%Z in
  let y_check := (negb ((y0 =? 0) || (y0 =? height1)))%Z in
  let x_check := (negb ((x0 =? 0) || (x0 =? width1)))%Z in
  match meth, (y_check || x_check)%bool with
  | PolyFit, true =>
      let '(a1, a2, a3, a4, a5) := surface m in
      let num := a4 * a4 - 4 * a3 * a5 in
      if Reqb num 0 then Ok (IZR x0, IZR y0) else
      let x_pos1 := (2 * a1 * a5 - a2 * a4) / num in
      let y_pos1 := (2 * a2 * a3 - a1 * a4) / num in
      Ok (if Rltb x_pos1 (IZR width1) && Rltb 0 x_pos1 then x_pos1 else IZR x0,
          if Rltb y_pos1 (IZR height1) && Rltb 0 y_pos1 then y_pos1 else IZR y0)
  | _, _ =>
      let d1fy := if y_check then (px m (y0 + 1) x0 - px m (y0 - 1) x0) / 2 else 0 in
      let d2fy := if y_check then px m (y0 + 1) x0 + px m (y0 - 1) x0 - 2 * px m y0 x0 else 0 in
      let d1fx := if x_check then (px m y0 (x0 + 1) - px m y0 (x0 - 1)) / 2 else 0 in
      let d2fx := if x_check then px m y0 (x0 + 1) + px m y0 (x0 - 1) - 2 * px m y0 x0 else 0 in
      let d1fxy := if (y_check && x_check)%bool then
          / 4 * (px m (y0 + 1) (x0 + 1) + px m (y0 - 1) (x0 - 1) - px m (y0 + 1) (x0 - 1) - px m (y0 - 1) (x0 + 1)) else 0 in
      let num := d1fxy * d1fxy - d2fx * d2fy in
      if Reqb num 0 then Ok (IZR x0, IZR y0) else
      let x_off := (d2fy * d1fx - d1fxy * d1fy) / num in
      let y_off := (d2fx * d1fy - d1fxy * d1fx) / num in
      Ok (if Rltb (Rabs x_off) 1 && Rltb 0 (Rabs x_off) then IZR x0 + x_off else IZR x0,
          if Rltb (Rabs y_off) 1 && Rltb 0 (Rabs y_off) then IZR y0 + y_off else IZR y0)
  end.

(** np.max of a non-empty array *)
Definition rmaximum (l : list R) : R := match l with [] => 0 | x :: t => fold_left Rmax t x end.
Local Open Scope Z_scope.
(** locate_peak, 641-713; [dim1]: dim == 1; result (x, y).  A refined position is a float: using it as an index (704, 710)
    would raise IndexError *)
Definition locate_peak (mat0 : img R) (sub_pixel : bool) (meth : method) (dim1 : bool) (size : Z) (max_peak : bool) : res (R * R) :=
  let height := nrow mat0 in let width := ncol mat0 in
  let size := clipZ (match meth with Diff => 3 | _ => 2 * (size / 2) + 1 end) 3 9 in
  let mx := rmaximum (map (fun k => px mat0 (k / width) (k mod width)) (zrange 0 (height * width))) in
  let mat := if max_peak then mat0 else mkimg height width (fun i j => mx - px mat0 i j)%R in
  do yx <- argmax2 mat;
  let (y0, x0) := yx in
  if negb sub_pixel then Ok (IZR x0, IZR y0) else
  let height1 := height - 1 in let width1 := width - 1 in
  let radius := size / 2 in
  do st <- (if (y0 <? height1) && (0 <? y0) && (x0 <? width1) && (0 <? x0) && (size <=? width) && (size <=? height) then
       let row := clipZ (y0 - radius) 0 (height - size) in
       let col := clipZ (x0 - radius) 0 (width - size) in
       if dim1 then
         do x1 <- locate_1d_peak_subpixel (vslice (irow mat y0) col (col + size)) meth;
         do y1 <- locate_1d_peak_subpixel (vslice (icol mat x0) row (row + size)) meth;
         Ok (IZR col + x1, IZR row + y1, true)%R
       else
         do p <- locate_2d_peak_subpixel (islice mat row (row + size) col (col + size)) meth;
         Ok (IZR col + fst p, IZR row + snd p, true)%R
     else Ok (IZR x0, IZR y0, false));
  let '(x_pos, y_pos, refined) := st in
  do st <- (if (Reqb y_pos 0 || Reqb y_pos (IZR height1)) && Rltb x_pos (IZR width1) && Rltb 0 x_pos && (size <=? width) then
       if (refined : bool) then Err IndexError else
       let col := clipZ (x0 - radius) 0 (width - size) in
       do x1 <- locate_1d_peak_subpixel (vslice (irow mat y0) col (col + size)) meth;
       Ok (IZR col + x1, true)%R
     else Ok (x_pos, refined));
  let '(x_pos, refined) := st in
  if (Reqb x_pos 0 || Reqb x_pos (IZR width1)) && Rltb y_pos (IZR height1) && Rltb 0 y_pos && (size <=? height) then
    if (refined : bool) then Err IndexError else
    let row := clipZ (y0 - radius) 0 (height - size) in
    do y1 <- locate_1d_peak_subpixel (vslice (icol mat x0) row (row + size)) meth;
    Ok (x_pos, IZR row + y1)%R
  else Ok (x_pos, y_pos).

Inductive axis_option := Axis0 | Axis1 | NoAxis.
(** the part of [mat] that is searched for (766-800): (mat, check1) *)
Definition crop_margin (ref mat : data) (margin : Z) (axis : axis_option) : data * bool :=
  let (h0, w0) := shape2 ref in let (h1, w1) := shape2 mat in
  if (h0 =? h1) && (w0 =? w1) then
    match axis with
    | Axis0 => if 3 <? h1 - 2 * margin then (dslice mat margin (- margin) 0 w1, true) else (mat, false)
    | Axis1 => if 3 <? w1 - 2 * margin then (dslice mat 0 h1 margin (- margin), true) else (mat, false)
    | NoAxis => if (3 <? h1 - 2 * margin) && (3 <? w1 - 2 * margin)
                then (dslice mat margin (- margin) margin (- margin), true) else (mat, false)
    end
  else (mat, true).
(** find_shift_based_correlation_map, 716-825; result (x_shift, y_shift) *)
Definition find_shift_based_correlation_map (ref mat0 : data) (margin : Z) (axis : axis_option) (sub_pixel : bool) (meth : method)
    (dim1 : bool) (size : Z) (gpu : bool) (block : Z * Z) (sched : list (Z * Z) -> list (Z * Z)) : res (R * R) :=
  let (mat, check1) := crop_margin ref mat0 margin axis in
  let (h0, w0) := shape2 ref in let (h1, w1) := shape2 mat in
  let check2 := if check1 then
      match axis with
      | Axis0 => negb (h0 - 2 * margin <? h1)
      | Axis1 => negb (w0 - 2 * margin <? w1)
      | NoAxis => negb ((h0 - 2 * margin <? h1) && (w0 - 2 * margin <? w1)) end
    else true in
  if check2 then
    do m <- generate_correlation_map ref mat gpu block sched;
    let y_mid := nrow m / 2 in let x_mid := ncol m / 2 in
    do p <- locate_peak m sub_pixel meth (match axis with NoAxis => dim1 | _ => true end) size true;
    let x_peak := match axis with Axis0 => IZR x_mid | _ => fst p end in
    let y_peak := match axis with Axis1 => IZR y_mid | _ => snd p end in
    Ok (x_peak - IZR x_mid, y_peak - IZR y_mid)%R
  else Err ValueError.
End peak.
