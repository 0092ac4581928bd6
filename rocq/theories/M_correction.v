(** Model of algotom/prep/correction.py.
    Coordinates are exact numbers; the square root, the cosine and the sine are parameters.
    np.int16(...) of row numbers is the identity (images of at most 32767 rows). *)
From Verif Require Import Np M_conversion.
From Coq Require Import QArith Qround.
From Coq Require Import List. Import ListNotations.
Open Scope Z_scope.

(** np.amin / np.amax of n > 0 numbers f 0 .. f (n-1) *)
Fixpoint aminn (n : nat) (f : Z -> Q) : Q :=
  match n with O => f 0 | S k => Qminb (aminn k f) (f (Z.of_nat k)) end.
Fixpoint amaxn (n : nat) (f : Z -> Q) : Q :=
  match n with O => f 0 | S k => Qmaxb (amaxn k f) (f (Z.of_nat k)) end.
Definition amin (n : Z) (f : Z -> Q) : Q := aminn (Z.to_nat n) f.
Definition amax (n : Z) (f : Z -> Q) : Q := amaxn (Z.to_nat n) f.

(** scipy.ndimage mode='reflect': d c b a | a b c d | d c b a *)
Definition reflect_idx (n i : Z) : Z :=
  if n <=? 1 then 0 else let m := i mod (2 * n) in if m <? n then m else 2 * n - 1 - m.
(** scipy.ndimage.map_coordinates(m, (y, x), order=1, mode='reflect') at one point: bilinear
    interpolation of the four neighbours.  Only used with coordinates in [-1, n] (see the theorems). *)
Definition bilin (m : img Q) (y x : Q) : Q :=
  let fy := Qfloor y in let ty := (y - inject_Z fy)%Q in
  let fx := Qfloor x in let tx := (x - inject_Z fx)%Q in
  let p := fun i j => px m (reflect_idx (nrow m) i) (reflect_idx (ncol m) j) in
  ((1 - ty) * ((1 - tx) * p fy fx + tx * p fy (fx + 1)%Z) +
   ty * ((1 - tx) * p (fy + 1)%Z fx + tx * p (fy + 1)%Z (fx + 1)%Z))%Q.

(** ** flat_field_correction, correction.py:45-132, for 2D images and without filter options
    (the 3D case broadcasts the same formula over the first axis) *)
Definition has_zero (m : img Q) : bool :=
  existsb (fun i => existsb (fun j => Qeq_bool (px m i j) 0) (zrange 0 (ncol m))) (zrange 0 (nrow m)).
Definition img_mean (m : img Q) : Q := qmean2 (nrow m) (ncol m) (px m).
(** lines 80-85 / 90-95 *)
Definition nonzero_denominator (m : img Q) : img Q :=
  if has_zero m then
    let nmean := img_mean m in
    imap (fun v => if Qeq_bool v 0 then (if negb (Qeq_bool nmean 0) then nmean else 1%Q) else v) m
  else m.
Definition flat_field_correction (proj flat dark : img Q) (ratio : Q) (use_dark : bool) : img Q :=
  let flat := imap (fun v => (ratio * v)%Q) flat in
  if use_dark then
    let fd := nonzero_denominator (mkimg (nrow flat) (ncol flat) (fun i j => (px flat i j - px dark i j)%Q)) in
    mkimg (nrow proj) (ncol proj) (fun i j => ((px proj i j - px dark i j) / px fd i j)%Q)
  else
    let fl := nonzero_denominator flat in
    mkimg (nrow proj) (ncol proj) (fun i j => (px proj i j / px fl i j)%Q).

(** data[idx, r0:r1, :] *)
Definition vol_rows (d : vol Q) (idx r0 r1 : Z) : res (img Q) :=
  do k <- py_idx (dep d) idx; Ok (islice (mkimg (hei d) (wid d) (vx d k)) r0 r1 0 (wid d)).
(** start, stop, step = opt, or 0, depth, 1 *)
Definition opt_range (depth : Z) (opt : option (Z * Z * Z)) : res (list Z) :=
  match opt with Some (a, b, s) => prange_step_r a b s | None => Ok (prange 0 depth) end.

Section distortion.
(** np.sqrt(x**2 + y**2) *)
Context (radius : Q -> Q -> Q).
(** np.sum([factor * r**i for i, factor in enumerate(list_fact)]) *)
Fixpoint poly (facts : list Q) (r : Q) (rp : Q) : Q :=
  match facts with [] => 0%Q | f :: t => (f * rp + poly t r (rp * r))%Q end.
Definition dist_fact (facts : list Q) (xu yu : Q) : Q := poly facts (radius xu yu) 1.
(** distorted coordinates of pixel (column j, row y), clipped to the image *)
Definition xd (facts : list Q) (xc yc : Q) (width j y : Z) : Q :=
  let xu := (inject_Z j - xc)%Q in let yu := (inject_Z y - yc)%Q in
  clipQ (xc + dist_fact facts xu yu * xu) 0 (inject_Z (width - 1)).
Definition yd (facts : list Q) (xc yc : Q) (height j y : Z) : Q :=
  let xu := (inject_Z j - xc)%Q in let yu := (inject_Z y - yc)%Q in
  clipQ (yc + dist_fact facts xu yu * yu) 0 (inject_Z (height - 1)).

(** correction.py:135-171 *)
Definition unwarp_projection (proj : img Q) (xc yc : Q) (facts : list Q) : img Q :=
  mkimg (nrow proj) (ncol proj) (fun y j =>
    bilin proj (yd facts xc yc (nrow proj) j y) (xd facts xc yc (ncol proj) j y)).
(** correction.py:174-225 *)
Definition unwarp_sinogram (d : vol Q) (index : Z) (xc yc : Q) (facts : list Q) (opt : option (Z * Z * Z))
  : res (list (vec Q)) :=
  do idxs <- opt_range (dep d) opt;
  if wid d <=? 0 then Err ValueError else                    (* np.amin of an empty list *)
  let ylist := fun j => yd facts xc yc (hei d) j index in
  let ymin := Qfloor (amin (wid d) ylist) in
  let ymax := Qceiling (amax (wid d) ylist) + 1 in
  mapr (fun idx =>
    do w <- vol_rows d idx ymin ymax;
    Ok (mkvec (wid d) (fun j => bilin w (ylist j - inject_Z ymin) (xd facts xc yc (wid d) j index)))) idxs.
(** correction.py:228-292.  The result is one image (rows start..stop-1) per projection. *)
Definition unwarp_sinogram_chunk (d : vol Q) (start_index stop_index : Z) (xc yc : Q) (facts : list Q)
           (opt : option (Z * Z * Z)) : res (list (img Q)) :=
  do idxs <- opt_range (dep d) opt;
  let stop := if stop_index =? -1 then hei d else stop_index in
  if wid d <=? 0 then Err ValueError else
  let ymin := Qfloor (amin (wid d) (fun j => yd facts xc yc (hei d) j start_index)) in
  let ymax := Qceiling (amax (wid d) (fun j => yd facts xc yc (hei d) j stop)) in
  mapr (fun idx =>
    do w <- vol_rows d idx ymin ymax;
    Ok (mkimg (Z.max 0 (stop - start_index)) (wid d) (fun r j =>
          bilin w (yd facts xc yc (hei d) j (start_index + r) - inject_Z ymin)
                  (xd facts xc yc (wid d) j (start_index + r))))) idxs.
End distortion.

Section tilt.
(** cos(angle), sin(angle) *)
Context (c s : Q).
Definition xt (height width j y : Z) : Q :=
  let xcen := ((inject_Z width - 1) / 2)%Q in let ycen := ((inject_Z height - 1) / 2)%Q in
  clipQ (xcen + ((inject_Z j - xcen) * c - (inject_Z y - ycen) * s)) 0 (inject_Z (width - 1)).
Definition yt (height width j y : Z) : Q :=
  let xcen := ((inject_Z width - 1) / 2)%Q in let ycen := ((inject_Z height - 1) / 2)%Q in
  clipQ (ycen + ((inject_Z j - xcen) * s + (inject_Z y - ycen) * c)) 0 (inject_Z (height - 1)).

(** correction.py:438-474 *)
Definition generate_tilted_profile_line (m : img Q) (index : Z) : res (vec Q) :=
  if ncol m <=? 0 then Err ValueError else
  let ylist := fun j => yt (nrow m) (ncol m) j index in
  let ymin := Qfloor (amin (ncol m) ylist) in
  let ymax := Qceiling (amax (ncol m) ylist) + 1 in
  let w := islice m ymin ymax 0 (ncol m) in
  Ok (mkvec (ncol m) (fun j => bilin w (ylist j - inject_Z ymin) (xt (nrow m) (ncol m) j index))).
(** correction.py:477-514: rows start..stop (inclusive); amin over the whole coordinate matrix *)
Definition generate_tilted_profile_chunk (m : img Q) (start stop : Z) : res (img Q) :=
  let n := stop + 1 - start in
  if (ncol m <=? 0) || (n <=? 0) then Err ValueError else
  let ymin := Qfloor (amin n (fun r => amin (ncol m) (fun j => yt (nrow m) (ncol m) j (start + r)))) in
  let ymax := Qceiling (amax n (fun r => amax (ncol m) (fun j => yt (nrow m) (ncol m) j (start + r)))) + 1 in
  let w := islice m ymin ymax 0 (ncol m) in
  Ok (mkimg n (ncol m) (fun r j =>
        bilin w (yt (nrow m) (ncol m) j (start + r) - inject_Z ymin) (xt (nrow m) (ncol m) j (start + r)))).
Definition vol_img (d : vol Q) (k : Z) : img Q := mkimg (hei d) (wid d) (vx d k).
(** correction.py:334-382 *)
Definition generate_tilted_sinogram (d : vol Q) (index : Z) (opt : option (Z * Z * Z)) : res (list (vec Q)) :=
  do idxs <- opt_range (dep d) opt;
  if wid d <=? 0 then Err ValueError else
  let ylist := fun j => yt (hei d) (wid d) j index in
  let ymin := Qfloor (amin (wid d) ylist) in
  let ymax := Qceiling (amax (wid d) ylist) + 1 in
  mapr (fun idx =>
    do w <- vol_rows d idx ymin ymax;
    Ok (mkvec (wid d) (fun j => bilin w (ylist j - inject_Z ymin) (xt (hei d) (wid d) j index)))) idxs.
(** correction.py:385-435 *)
Definition generate_tilted_sinogram_chunk (d : vol Q) (start stop : Z) (opt : option (Z * Z * Z))
  : res (list (img Q)) :=
  do idxs <- opt_range (dep d) opt;
  let n := stop + 1 - start in
  if (wid d <=? 0) || (n <=? 0) then Err ValueError else
  let ymin := Qfloor (amin n (fun r => amin (wid d) (fun j => yt (hei d) (wid d) j (start + r)))) in
  let ymax := Qceiling (amax n (fun r => amax (wid d) (fun j => yt (hei d) (wid d) j (start + r)))) + 1 in
  mapr (fun idx =>
    do w <- vol_rows d idx ymin ymax;
    Ok (mkimg n (wid d) (fun r j =>
          bilin w (yt (hei d) (wid d) j (start + r) - inject_Z ymin) (xt (hei d) (wid d) j (start + r))))) idxs.
End tilt.

(** np.pad(m, pad, mode="reflect") is written to the right/bottom and left/top of the data, which
    keeps its position; only that is needed. *)
Section deconv.
(** np.real(ifft2(fft2(m) / ifftshift(w))) and the reflect padding value at (i, j) outside *)
Context (deconv : img Q -> img Q -> img Q) (reflect_value : img Q -> Z -> Z -> Q).
Definition in_img (m : img Q) (i j : Z) : bool :=
  (0 <=? i) && (i <? nrow m) && (0 <=? j) && (j <? ncol m).
Definition pad_all (out : img Q -> Z -> Z -> Q) (m : img Q) (pad : Z) : img Q :=
  mkimg (nrow m + 2 * pad) (ncol m + 2 * pad)
        (fun i j => if in_img m (i - pad) (j - pad) then px m (i - pad) (j - pad) else out m (i - pad) (j - pad)).
(** correction.py:295-331 *)
Definition mtf_deconvolution (m window : img Q) (pad : Z) : res (img Q) :=
  if (nrow window <? nrow m) || (ncol window <? ncol m) then Err ValueError else
  if pad <? 0 then Err ValueError else
  let m1 := mkimg (nrow window) (ncol window) (fun i j => px m (Z.min i (nrow m - 1)) (Z.min j (ncol m - 1))) in
  let mp := pad_all reflect_value m1 pad in
  let wp := pad_all (fun _ _ _ => 1%Q) window pad in
  let dec := deconv mp wp in
  let dec := islice dec pad (nrow window + pad) pad (ncol window + pad) in
  Ok (islice dec 0 (nrow m) 0 (ncol m)).
End deconv.

(** ** upsample_sinogram, correction.py:577-632; [filter] is double_wedge_filter(sino, "360", 1,
    iteration, pad) and [to360] is convert_sinogram_180_to_360 with the given centre *)
Section upsample.
Context (filter : img Q -> img Q) (to360 : img Q -> img Q).
Definition set_even (tmp s : img Q) : img Q :=
  mkimg (nrow tmp) (ncol tmp) (fun i j => if Z.even i then px s (i / 2) j else px tmp i j).
Definition upsample_step (s : img Q) : img Q :=
  let db := 2 * nrow s - 1 in
  let tmp := filter (set_even (zeros db (ncol s)) s) in
  let num := img_mean tmp in
  let tmp := imap (fun v => (v * img_mean s / num)%Q) tmp in
  filter (set_even tmp s).
Definition upsample_sinogram (sino : img Q) (scale : Z) (center : Q) (t180 : bool) : res (img Q) :=
  let scale := Z.max scale 1 in
  if negb (scale mod 2 =? 0) then Err ValueError else
  if t180 && Qle_bool center 0 then Err ValueError else
  let s0 := if t180 then to360 sino else sino in
  let s := Nat.iter (Z.to_nat (scale / 2)) upsample_step s0 in
  Ok (if t180 then islice s 0 (nrow s / 2 + 1) 0 (ncol s) else s).
End upsample.
