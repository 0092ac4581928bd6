(** Model of the back-projection kernels: /repo/algotom/rec/reconstruction.py:156-359 and
    /repo/algotom/rec/vertrec.py:53-335.  Exact rationals instead of float32; cos and sin are
    parameters.  Array reads are checked: [Err IndexError] stands for the out-of-bounds access that
    numba and CUDA would perform silently.  The result of a launch is the final content of the output
    array together with the threads (all of them must have finished for the call to return). *)
From Verif Require Import Np M_par.
From Coq Require Import QArith Qround.
From Coq Require Import List. Import ListNotations.
Open Scope Z_scope.

(** arr[k] without wrap-around *)
Definition rd (row : Z -> Q) (w k : Z) : res Q := if (0 <=? k) && (k <? w) then Ok (row k) else Err IndexError.
(** the value added for one projection: reconstruction.py:173-189 = 246-264 = 342-358,
    vertrec.py:92-108 = 157-171 = 195-211 = 275-291.  None: nothing is added. *)
Definition sample (edge_pad : bool) (w : Z) (row : Z -> Q) (f_pos : Q) : res (option Q) :=
  let w1 := w - 1 in
  if Qle_bool 0 f_pos && Qle_bool f_pos (inject_Z w1) then
    let d := Qfloor f_pos in let u := Qceiling f_pos in
    if negb (u =? d) then
      do yd <- rd row w d; do yu <- rd row w u;
      Ok (Some (yd + (yu - yd) * (f_pos - inject_Z d))%Q)
    else do v <- rd row w d; Ok (Some v)
  else if edge_pad then
    if Qltb f_pos 0 then do v <- rd row w 0; Ok (Some v) else do v <- rd row w w1; Ok (Some v)
  else Ok None.
Definition add_op (c : cell) (o : option Q) : list op := match o with Some v => [OAdd c v] | None => [] end.
(** num += val *)
Definition acc (num : Q) (o : option Q) : Q := match o with Some v => (num + v)%Q | None => num end.
(** for k in l: body *)
Definition for_ (l : list Z) (body : Z -> res (list op)) : res (list op) :=
  do ps <- mapr body l; Ok (concat ps).
Definition zero_mem : memory := fun _ => 0%Q.
(** cuda.grid(1) positions of a launch covering n elements with blocks of b threads:
    grid = int(np.ceil(1.0 * n / b)) blocks (218-219) *)
Definition grid_positions (n b : Z) : list Z := zrange 0 ((- ((- n) / b)) * b).

Section with_trig.
Context (cosf sinf : Q -> Q).

(** *** reconstruction.py *)
(** f_pos of pixel (y, x) (164-172, 330-341) *)
Definition f_pos (w : Z) (center theta : Q) (y x : Z) : Q :=
  let icenter := ((1#2) * inject_Z (w - 1))%Q in
  ((inject_Z x - icenter) * cosf theta + (inject_Z y - icenter) * sinf theta + center)%Q.

(** one iteration of "for i in prange(sino_height)" (333-358) *)
Definition bp_cpu_iter (sino : img Q) (angles : vec Q) (center : Q) (edge_pad : bool) (i : Z) : res (list op) :=
  do a <- vget angles i;
  let theta := (- a)%Q in let w := ncol sino in
  for_ (zrange 0 w) (fun y => for_ (zrange 0 w) (fun x =>
    do o <- sample edge_pad w (px sino i) (f_pos w center theta y x);
    Ok (add_op (y, 0, x) o))).
(** back_projection_cpu, 307-359: iterations of the prange loop run concurrently; "recon[y,x] += val"
    is a load and a store (numba documents that reductions into array elements are not protected) *)
Definition back_projection_cpu (sino : img Q) (angles : vec Q) (center : Q) (edge_pad : bool) (sched : list nat)
  : res (img Q * list thread) :=
  do progs <- mapr (bp_cpu_iter sino angles center edge_pad) (zrange 0 (nrow sino));
  let (m, ts) := prun zero_mem progs sched in
  Ok (mkimg (ncol sino) (ncol sino) (fun y x => m (y, 0, x)), ts).

(** __back_projection_gpu_kernel, 156-190: the program of the thread at cuda.grid(2) = (x, y) *)
Definition bp_gpu_thread (sino : img Q) (angles : vec Q) (center : Q) (edge_pad : bool) (xy : Z * Z) : res (list op) :=
  let (x, y) := xy in
  let w := ncol sino in
  if (x <? w) && (y <? w) then
    do os <- mapr (fun i => do a <- vget angles i; sample edge_pad w (px sino i) (f_pos w center (- a)%Q y x))
                  (zrange 0 (nrow sino));
    Ok [OSet (y, 0, x) (fold_left acc os 0%Q)]                                  (* 190 *)
  else Ok [].
(** back_projection_gpu, 193-226 *)
Definition back_projection_gpu (sino : img Q) (angles : vec Q) (center : Q) (block : Z * Z) (edge_pad : bool)
    (sched : list nat) : res (img Q * list thread) :=
  let n := ncol sino in
  do progs <- mapr (bp_gpu_thread sino angles center edge_pad)
                   (list_prod (grid_positions n (fst block)) (grid_positions n (snd block)));
  let (m, ts) := prun zero_mem progs sched in
  Ok (mkimg n n (fun y x => m (y, 0, x)), ts).

(** __back_projection_gpu_chunk_kernel, 229-264; sinograms[i, j, k] = vx sinos i j k *)
Definition bp_gpu_chunk_thread (sinos : vol Q) (angles : vec Q) (center : Q) (edge_pad : bool) (xy : Z * Z)
  : res (list op) :=
  let (x, y) := xy in
  let w := wid sinos in
  if (x <? w) && (y <? w) then
    for_ (zrange 0 (dep sinos)) (fun i =>
      do a <- vget angles i;
      for_ (zrange 0 (hei sinos)) (fun j =>
        do o <- sample edge_pad w (vx sinos i j) (f_pos w center (- a)%Q y x);
        Ok (add_op (y, j, x) o)))
  else Ok [].
(** back_projection_gpu_chunk, 267-304 *)
Definition back_projection_gpu_chunk (sinos : vol Q) (angles : vec Q) (center : Q) (block : Z * Z) (edge_pad : bool)
    (sched : list nat) : res (vol Q * list thread) :=
  let n := wid sinos in
  do progs <- mapr (bp_gpu_chunk_thread sinos angles center edge_pad)
                   (list_prod (grid_positions n (fst block)) (grid_positions n (snd block)));
  let (m, ts) := prun zero_mem progs sched in
  Ok (mkvol n (hei sinos) n (fun y j x => m (y, j, x)), ts).

(** *** vertrec.py; projections[n, i, k] = vx projs n i k *)
Definition vf_pos (center theta x_cor y_cor : Q) : Q := (x_cor * cosf theta + y_cor * sinf theta + center)%Q.
(** one iteration of "for i in prange(height)" (82-108) *)
Definition vbp_cpu_iter (projs : vol Q) (angles xlist ylist : vec Q) (center : Q) (edge_pad : bool) (i : Z)
  : res (list op) :=
  for_ (zrange 0 (dep projs)) (fun n =>
    do a <- vget angles n;
    for_ (zrange 0 (wid projs)) (fun j =>
      do x <- vget xlist j; do y <- vget ylist j;
      do o <- sample edge_pad (wid projs) (vx projs n i) (vf_pos center a x y);
      Ok (add_op (i, 0, j) o))).
(** vertical_back_projection_cpu, 53-109 *)
Definition vertical_back_projection_cpu (projs : vol Q) (angles xlist ylist : vec Q) (center : Q) (edge_pad : bool)
    (sched : list nat) : res (img Q * list thread) :=
  do progs <- mapr (vbp_cpu_iter projs angles xlist ylist center edge_pad) (zrange 0 (hei projs));
  let (m, ts) := prun zero_mem progs sched in
  Ok (mkimg (hei projs) (wid projs) (fun i j => m (i, 0, j)), ts).
(** one iteration of "for s in prange(num_slice)" (144-171); x_mat[s, j] *)
Definition vbp_cpu_chunk_iter (projs : vol Q) (angles : vec Q) (x_mat y_mat : img Q) (center : Q) (edge_pad : bool)
    (s : Z) : res (list op) :=
  for_ (zrange 0 (dep projs)) (fun n =>
    do a <- vget angles n;
    for_ (zrange 0 (wid projs)) (fun j =>
      do x <- vget (irow x_mat s) j; do y <- vget (irow y_mat s) j;
      for_ (zrange 0 (hei projs)) (fun i =>
        do o <- sample edge_pad (wid projs) (vx projs n i) (vf_pos center a x y);
        Ok (add_op (s, i, j) o)))).
(** vertical_back_projection_cpu_chunk, 112-172; num_slice = len(x_mat) *)
Definition vertical_back_projection_cpu_chunk (projs : vol Q) (angles : vec Q) (x_mat y_mat : img Q) (center : Q)
    (edge_pad : bool) (sched : list nat) : res (vol Q * list thread) :=
  do progs <- mapr (vbp_cpu_chunk_iter projs angles x_mat y_mat center edge_pad) (zrange 0 (nrow x_mat));
  let (m, ts) := prun zero_mem progs sched in
  Ok (mkvol (nrow x_mat) (hei projs) (wid projs) (fun s i j => m (s, i, j)), ts).
(** __vertical_back_projection_gpu_kernel, 175-212: cuda.grid(2) = (i, j) *)
Definition vbp_acc (projs : vol Q) (angles : vec Q) (center : Q) (edge_pad : bool) (i : Z) (x y : Q) : res Q :=
  do os <- mapr (fun k => do a <- vget angles k; sample edge_pad (wid projs) (vx projs k i) (vf_pos center a x y))
                (zrange 0 (dep projs));
  Ok (fold_left acc os 0%Q).
Definition vbp_gpu_thread (projs : vol Q) (angles xlist ylist : vec Q) (center : Q) (edge_pad : bool) (ij : Z * Z)
  : res (list op) :=
  let (i, j) := ij in
  if (i >=? hei projs) || (j >=? wid projs) then Ok []                          (* 183-184 *)
  else
    do x <- vget xlist j; do y <- vget ylist j;
    do v <- vbp_acc projs angles center edge_pad i x y;
    Ok [OSet (i, 0, j) v].
(** vertical_back_projection_gpu, 215-252 *)
Definition vertical_back_projection_gpu (projs : vol Q) (angles xlist ylist : vec Q) (center : Q) (edge_pad : bool)
    (block : Z * Z) (sched : list nat) : res (img Q * list thread) :=
  do progs <- mapr (vbp_gpu_thread projs angles xlist ylist center edge_pad)
                   (list_prod (grid_positions (hei projs) (fst block)) (grid_positions (wid projs) (snd block)));
  let (m, ts) := prun zero_mem progs sched in
  Ok (mkimg (hei projs) (wid projs) (fun i j => m (i, 0, j)), ts).
(** __vertical_back_projection_gpu_chunk_kernel, 255-292 *)
Definition vbp_gpu_chunk_thread (projs : vol Q) (angles : vec Q) (x_mat y_mat : img Q) (center : Q) (edge_pad : bool)
    (ij : Z * Z) : res (list op) :=
  let (i, j) := ij in
  if (i >=? hei projs) || (j >=? wid projs) then Ok []
  else
    for_ (zrange 0 (nrow x_mat)) (fun s =>
      do x <- vget (irow x_mat s) j; do y <- vget (irow y_mat s) j;
      do v <- vbp_acc projs angles center edge_pad i x y;
      Ok [OSet (s, i, j) v]).
(** vertical_back_projection_gpu_chunk, 295-335 *)
Definition vertical_back_projection_gpu_chunk (projs : vol Q) (angles : vec Q) (x_mat y_mat : img Q) (center : Q)
    (edge_pad : bool) (block : Z * Z) (sched : list nat) : res (vol Q * list thread) :=
  do progs <- mapr (vbp_gpu_chunk_thread projs angles x_mat y_mat center edge_pad)
                   (list_prod (grid_positions (hei projs) (fst block)) (grid_positions (wid projs) (snd block)));
  let (m, ts) := prun zero_mem progs sched in
  Ok (mkvol (nrow x_mat) (hei projs) (wid projs) (fun s i j => m (s, i, j)), ts).
End with_trig.
