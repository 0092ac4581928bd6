(** Model of the direct Fourier inversion method of algotom/rec/reconstruction.py (687-907), exact real arithmetic. *)
From Coq Require Import Reals Lra ZArith Lia Bool List. Import ListNotations.
From Verif Require Import Np M_phase_R M_simR.
Open Scope Z_scope.

(** ** generate_mapping_coordinate, reconstruction.py:712-724: r_mat and theta_mat at pixel (i, j).
    np.arctan2 is a parameter; the float32 casts are not modelled. *)
Definition rclip (x lo hi : R) : R := Rmin (Rmax x lo) hi.
Definition generate_mapping_coordinate (atan2 : R -> R -> R) (width_sino height_sino width_rec height_rec i j : Z) : R * R :=
  let xcenter := ((IZR width_rec - 1) * 0.5)%R in
  let ycenter := ((IZR height_rec - 1) * 0.5)%R in
  let r_max := IZR (Int_part (Rmin xcenter ycenter)) in
  let x := (IZR (width_rec - 1 - j) - xcenter)%R in                   (* np.flipud(np.arange(width_rec)) *)
  let y := (IZR i - ycenter)%R in
  let r := rclip (sqrt (x ^ 2 + y ^ 2)) 0 r_max in
  let theta := (PI + atan2 y x)%R in
  let r' := if Rlt_dec PI theta then (- r)%R else r in
  let r'' := rclip (r' + r_max) 0 (IZR width_sino - 1) in
  let theta' := if Rlt_dec PI theta then (theta - PI)%R else theta in
  (r'', (theta' * (IZR height_sino - 1) / PI)%R).

(** ** __dfi_handle_angles, reconstruction.py:732-746.  [shift_rows m s] is ndimage.shift(m, (s, 0), mode='wrap').
    Simplified: one angle only (np.mean of no difference is nan) divides by zero here; the theorems exclude it. *)
Definition abs_steps (angles : vec R) : R := rsum (vlen angles - 1) (fun k => Rabs (vat angles (k + 1) - vat angles k)).
Definition dfi_handle_angles (shift_rows : img R -> R -> img R) (sino : img R) (angles : vec R) : res (img R) :=
  if negb (vlen angles =? nrow sino) then Err ValueError else
  let t_ang := rsum (vlen angles - 1) (fun k => Rabs (vat angles (k + 1) * 180 / PI - vat angles k * 180 / PI)) in
  let '(nrow1, sino1) :=
    if Rlt_dec (Rabs (t_ang - 360)) 10 then
      let n := nrow sino / 2 + 1 in
      let a := islice sino 0 n 0 (ncol sino) in
      let b := ifliplr (islice sino (- n) (nrow sino) 0 (ncol sino)) in
      (n, mkimg (nrow a) (ncol a) (fun i j => (px a i j + px b i j) / 2)%R)
    else (nrow sino, sino) in
  let step := (abs_steps angles / IZR (vlen angles - 1))%R in
  let b_ang := (vat angles 0 - IZR (Int_part (vat angles 0 / (2 * PI))) * (2 * PI))%R in
  let top := islice sino1 0 (nrow1 - 1) 0 (ncol sino1) in
  let sino_360 := mkimg (nrow top + nrow sino1) (ncol sino1)
        (fun i j => if i <? nrow top then px top i j else px (ifliplr sino1) (i - nrow top) j) in
  let shifted := islice (shift_rows sino_360 (b_ang / step)%R) 0 nrow1 0 (ncol sino_360) in
  Ok (if Rlt_dec (vat angles (vlen angles - 1)) (vat angles 0) then iflipud (ifliplr shifted) else shifted).

(** ** __dfi_handle_sinogram, reconstruction.py:754-781, for one sinogram.  [shift_cols m s] is ndimage.shift(m, (0, s),
    mode='nearest'); a chunk of sinograms is shifted and padded slice by slice (the shift along the other axes is 0). *)
Definition pad_columns (mode : pad_mode) (m : img R) (a b : Z) : img R :=
  mkimg (nrow m) (ncol m + a + b) (fun i j =>
    match mode with
    | Edge => px m i (clipZ (j - a) 0 (ncol m - 1))
    | Zeros => if (0 <=? j - a) && (j - a <? ncol m) then px m i (j - a) else 0%R
    end).
Definition dfi_pad (ncol0 : Z) (rate : R) : Z :=
  let ncol1 := if ncol0 mod 2 =? 0 then ncol0 + 1 else ncol0 in rtrunc (rate * IZR ncol1).
Definition dfi_handle_sinogram (shift_cols shift_rows : img R -> R -> img R) (sino : img R) (angles : option (vec R))
    (center rate : R) (mode : pad_mode) : res (img R) :=
  let s1 := if ncol sino mod 2 =? 0 then pad_columns Edge sino 0 1 else sino in
  let xshift := ((IZR (ncol s1) - 1) / 2 - center)%R in
  let pad := dfi_pad (ncol sino) rate in
  let s2 := shift_cols s1 xshift in
  do s3 <- match angles with Some a => dfi_handle_angles shift_rows s2 a | None => Ok s2 end;
  if pad <? 0 then Err ValueError else Ok (pad_columns mode s3 pad pad).

(** ** __dfi_single_slice, reconstruction.py:789-806: spectrum of every row (real and imaginary part), window, mapping, mask, inverse.
    [interp m r t] is util.mapping(m, r, t, order=5, mode="reflect") at one position; the real and the imaginary part are mapped
    separately (as done for scipy < 1.6; the interpolation of a complex image acts on both parts). *)
Definition row_fft_re (m : img R) : img R := mkimg (nrow m) (ncol m) (fun i v =>
  rsum (ncol m) (fun b => px m i b * cos (2 * PI * IZR (v * b) / IZR (ncol m))))%R.
Definition row_fft_im (m : img R) : img R := mkimg (nrow m) (ncol m) (fun i v =>
  - rsum (ncol m) (fun b => px m i b * sin (2 * PI * IZR (v * b) / IZR (ncol m))))%R.
Definition row_fftshift (m : img R) : img R := mkimg (nrow m) (ncol m) (fun i j => px m i (fftshift_idx (ncol m) j)).
Definition row_ifftshift (m : img R) : img R := mkimg (nrow m) (ncol m) (fun i j => px m i (ifftshift_idx (ncol m) j)).
Definition windowed (window : option (Z -> R)) (m : img R) : img R :=
  match window with Some w => mkimg (nrow m) (ncol m) (fun i j => px m i j * w j)%R | None => m end.
Definition spectrum_re (window : option (Z -> R)) (sino : img R) : img R := windowed window (row_fftshift (row_fft_re (row_ifftshift sino))).
Definition spectrum_im (window : option (Z -> R)) (sino : img R) : img R := windowed window (row_fftshift (row_fft_im (row_ifftshift sino))).
(** np.real(np.fft.ifft2(re + i im)) *)
Definition real_ifft2 (re im : img R) : img R :=
  mkimg (nrow re) (ncol re) (fun a b => / (IZR (nrow re) * IZR (ncol re)) * rsum (nrow re) (fun u => rsum (ncol re) (fun v =>
    px re u v * cos (2 * PI * (IZR (u * a) / IZR (nrow re) + IZR (v * b) / IZR (ncol re)))
    - px im u v * sin (2 * PI * (IZR (u * a) / IZR (nrow re) + IZR (v * b) / IZR (ncol re))))))%R.
(** util.make_circle_mask, utility.py:176-182 *)
Definition circle_mask (width : Z) (ratio : R) : img R :=
  let center := width / 2 in let radius := (ratio * IZR center)%R in
  mkimg width width (fun i j => let y := i - center in let x := j - center in
    if Rle_dec (IZR (x * x + y * y)) (radius * radius) then 1%R else 0%R).
Definition dfi_single_slice (atan2 : R -> R -> R) (interp : img R -> R -> R -> R) (window : option (Z -> R)) (sino : img R) : img R :=
  let n := ncol sino in
  let at_ (f : img R) := mkimg n n (fun i j =>
     let '(r, t) := generate_mapping_coordinate atan2 n (nrow sino) n n i j in (interp f r t * px (circle_mask n 1) i j)%R) in
  let re := at_ (spectrum_re window sino) in
  let im := at_ (spectrum_im window sino) in
  fftshift2 (real_ifft2 (ifftshift2 re) (ifftshift2 im)).

(** ** dfi_reconstruction, reconstruction.py:846-907 *)
Inductive sinograms := One2 (m : img R) | Many (v : vol R).     (* 2D, or 3D with axes (angle, slice, column) *)
Inductive slices := Slice2 (m : img R) | Slices3 (v : vol R).
Definition slice_of (v : vol R) (k : Z) : img R := mkimg (dep v) (wid v) (fun i j => vx v i k j).
(** np.squeeze (754): axes of length 1 disappear; fewer than two axes left: unpacking the shape fails (761) *)
Definition squeeze (s : sinograms) : res (img R + vol R) :=
  match s with
  | One2 m => if (nrow m =? 1) || (ncol m =? 1) then Err ValueError else Ok (inl m)
  | Many v =>
      if hei v =? 1 then (if (dep v =? 1) || (wid v =? 1) then Err ValueError else Ok (inl (slice_of v 0)))
      else if dep v =? 1 then (if wid v =? 1 then Err ValueError else Ok (inl (mkimg (hei v) (wid v) (fun i j => vx v 0 i j))))
      else if wid v =? 1 then Ok (inl (mkimg (dep v) (hei v) (fun i j => vx v i j 0)))
      else Ok (inr v)
  end.
(** 862-867: values that are not positive become 1 before the logarithm; [sino] is a new array, the caller's is not written to *)
Definition dfi_log (apply_log : bool) (m : img R) : img R :=
  if apply_log then imap (fun v => - ln (if Rle_dec v 0 then 1 else v))%R m else m.
(** the steps for one sinogram: 860-874 without the circle mask of the result.  [smooth n] is the smoothing window of length n *)
Definition dfi_core (atan2 : R -> R -> R) (interp : img R -> R -> R -> R) (shift_cols shift_rows : img R -> R -> img R)
    (smooth : option (Z -> Z -> R)) (angles : option (vec R)) (center rate : R) (mode : pad_mode) (apply_log : bool) (ncol0 : Z) (sino : img R) : res (img R) :=
  do s <- dfi_handle_sinogram shift_cols shift_rows sino angles center rate mode;
  let s' := dfi_log apply_log s in
  let window := match smooth with Some w => Some (w (ncol s')) | None => None end in
  let pad := dfi_pad (ncol sino) rate in
  Ok (islice (dfi_single_slice atan2 interp window s') pad (ncol0 + pad) pad (ncol0 + pad)).
Definition apply_mask (m : img R) (mask : img R) : img R := mkimg (nrow m) (ncol m) (fun i j => px m i j * px mask i j)%R.
(** the number of cores only decides whether the slices are computed by threads or in a loop (879-891); the slices come back in order *)
Definition dfi_reconstruction atan2 interp shift_cols shift_rows (smooth : option (Z -> Z -> R))
    (sino : sinograms) (center : R) (angles : option (vec R)) (ratio : option R) (rate : R) (mode : pad_mode) (apply_log : bool) : res slices :=
  let ncol0 := match sino with One2 m => ncol m | Many v => wid v end in
  if Rlt_dec center 0 then Err ValueError else
  if Rle_dec (IZR ncol0) center then Err ValueError else
  do q <- squeeze sino;
  let core := dfi_core atan2 interp shift_cols shift_rows smooth angles center rate mode apply_log ncol0 in
  let masked (m : img R) := match ratio with
    | None => m
    | Some r => let r' := if Req_EM_T r 0 then (Rmin center (IZR ncol0 - center) / (0.5 * IZR ncol0))%R else r in
                apply_mask m (circle_mask ncol0 r')
    end in
  match q with
  | inl m => do r <- core m;
      let out := masked r in
      Ok (match sino with One2 _ => Slice2 out | Many _ => Slices3 (mkvol (nrow out) 1 (ncol out) (fun i _ j => px out i j)) end)
  | inr v => do l <- mapr (fun k => core (slice_of v k)) (zrange 0 (hei v));
      match l with
      | [] => Err ValueError                                     (* np.moveaxis of an empty list *)
      | first :: _ => Ok (Slices3 (mkvol (nrow first) (hei v) (ncol first) (fun i k j => px (masked (nth (Z.to_nat k) l first)) i j)))
      end
  end.
