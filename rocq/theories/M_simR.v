(** Model of algotom/util/simulation.py, phantoms and projections (exact real arithmetic; float32 rounding is not modelled). *)
From Coq Require Import Reals Lra ZArith Lia Bool.
From Verif Require Import Np M_phase_R M_corr.
Open Scope Z_scope.

(** ** make_elliptic_mask, simulation.py:60-79.  A number given for [center] or [length] stands for both numbers of a tuple.
    Simplified: a zero length (nan or inf in numpy) divides by zero here; the theorems exclude it. *)
Inductive pair_arg := Both (v : R) | Tuple (x y : R).
Definition arg_x (a : pair_arg) : R := match a with Both v => v | Tuple x _ => x end.
Definition arg_y (a : pair_arg) : R := match a with Both v => v | Tuple _ y => y end.
(** the coordinates x_mat1, y_mat1 of pixel (i, j) (70-75, 112-119), before np.abs in the rectangular case *)
Definition mask_coords (size : Z) (center length : pair_arg) (angle : R) (i j : Z) : R * R :=
  let icenter := size / 2 in
  let a := (- angle * PI / 180)%R in
  let x := (IZR j - IZR icenter - arg_x center)%R in
  let y := (- IZR i + IZR icenter - arg_y center)%R in
  (((x * cos a - y * sin a) / (0.5 * arg_x length))%R, ((x * sin a + y * cos a) / (0.5 * arg_y length))%R).
Definition make_elliptic_mask (size : Z) (center length : pair_arg) (angle : R) : img R :=
  mkimg size size (fun i j =>
    let '(x1, y1) := mask_coords size center length angle i j in
    if Rle_dec (sqrt (x1 ^ 2 + y1 ^ 2)) 1.01 then 1%R else 0%R).
(** ** make_rectangular_mask, simulation.py:102-122 *)
Definition make_rectangular_mask (size : Z) (center length : pair_arg) (angle : R) : img R :=
  mkimg size size (fun i j =>
    let '(x1, y1) := mask_coords size center length angle i j in
    if Rle_dec (Rabs x1) 1.01 then (if Rle_dec (Rabs y1) 1.01 then 1%R else 0%R) else 0%R).
(** ** make_triangular_mask, simulation.py:145-175; np.arctan2 is a parameter *)
Definition rsign (x : R) : R := if Rlt_dec 0 x then 1%R else if Rlt_dec x 0 then (-1)%R else 0%R.
Definition triangle_cut (atan2 : R -> R -> R) (size : Z) (center length : pair_arg) (angle0 : R) (sgn : R) : img R :=
  let x_len := arg_x length in let y_len := arg_y length in
  let angle := (angle0 * PI / 180)%R in
  let x_len1 := sqrt (x_len ^ 2 + (0.5 * y_len) ^ 2) in
  let angle1 := atan2 (0.5 * y_len)%R x_len in
  let y_len1 := (2 * sin angle1 * x_len)%R in
  let x_off := (- 0.5 * y_len1 * sin angle1)%R in
  let y_off := (sgn * (0.5 * y_len1 * cos angle1 + 0.5 * x_len1 * sin angle1))%R in
  let x_off1 := (x_off * cos angle - y_off * sin angle)%R in
  let y_off1 := (x_off * sin angle + y_off * cos angle)%R in
  let x_cen1 := (arg_x center + x_off1 + rsign x_off1 * 0.5)%R in
  let y_cen1 := (arg_y center + y_off1 + rsign y_off1 * 0.5)%R in
  make_rectangular_mask size (Tuple x_cen1 y_cen1) (Tuple x_len1 y_len1) ((angle + sgn * angle1) * 180 / PI)%R.
Definition make_triangular_mask (atan2 : R -> R -> R) (size : Z) (center length : pair_arg) (angle : R) : img R :=
  let mask := make_rectangular_mask size center length angle in
  let mask1 := triangle_cut atan2 size center length angle 1 in
  let mask2 := triangle_cut atan2 size center length angle (-1) in
  let sub (a b : img R) := mkimg (nrow a) (ncol a) (fun i j => Rmax (px a i j - px b i j) 0) in
  sub (sub mask mask1) mask2.

(** ** convert_to_Xray_image, simulation.py:475-478 *)
Fixpoint rmaxn (n : nat) (f : Z -> R) : R := match n with O => f 0 | S k => Rmax (rmaxn k f) (f (Z.of_nat k)) end.
Definition rmax2 (m : img R) : R := rmaxn (Z.to_nat (nrow m)) (fun i => rmaxn (Z.to_nat (ncol m)) (px m i)).
Definition convert_to_Xray_image (m : img R) (global_max : option R) : img R :=
  let g := match global_max with Some g => g | None => rmax2 m end in
  imap (fun v => exp (- (1 * v / g)))%R m.

(** ** numpy.pad with the modes "edge" and "constant" (zeros), [a] elements before and [b] after on both axes *)
Inductive pad_mode := Edge | Zeros.
Definition pad_sides (mode : pad_mode) (m : img R) (a b : Z) : img R :=
  mkimg (nrow m + a + b) (ncol m + a + b) (fun i j =>
    match mode with
    | Edge => px m (clipZ (i - a) 0 (nrow m - 1)) (clipZ (j - a) 0 (ncol m - 1))
    | Zeros => if (0 <=? i - a) && (i - a <? nrow m) && (0 <=? j - a) && (j - a <? ncol m) then px m (i - a) (j - a) else 0%R
    end).
(** ** numpy.fft: fft2 of a real image (real and imaginary part), fftshift and ifftshift along an axis of length n:
    np.roll by n // 2 and by -(n // 2) *)
Definition fft2_re (m : img R) : img R := mkimg (nrow m) (ncol m) (fun u v =>
  rsum (nrow m) (fun a => rsum (ncol m) (fun b => px m a b * cos (2 * PI * (IZR (u * a) / IZR (nrow m) + IZR (v * b) / IZR (ncol m)))))%R).
Definition fft2_im (m : img R) : img R := mkimg (nrow m) (ncol m) (fun u v =>
  - rsum (nrow m) (fun a => rsum (ncol m) (fun b => px m a b * sin (2 * PI * (IZR (u * a) / IZR (nrow m) + IZR (v * b) / IZR (ncol m))))))%R.
Definition fftshift_idx (n k : Z) : Z := (k - n / 2) mod n.
Definition ifftshift_idx (n k : Z) : Z := (k + n / 2) mod n.
Definition fftshift2 (m : img R) : img R := mkimg (nrow m) (ncol m) (fun i j => px m (fftshift_idx (nrow m) i) (fftshift_idx (ncol m) j)).
Definition ifftshift2 (m : img R) : img R := mkimg (nrow m) (ncol m) (fun i j => px m (ifftshift_idx (nrow m) i) (ifftshift_idx (ncol m) j)).
(** np.real(np.fft.ifft(re + i im)) of one line of n numbers *)
Definition real_ifft (n : Z) (re im : Z -> R) (x : Z) : R :=
  (/ IZR n * rsum n (fun k => re k * cos (2 * PI * IZR (k * x) / IZR n) - im k * sin (2 * PI * IZR (k * x) / IZR n)))%R.
(** np.linspace(a, b, n)[k] *)
Definition rlinspace (a b : R) (n k : Z) : R := if n =? 1 then a else (a + (b - a) * IZR k / IZR (n - 1))%R.
(** int(x): truncation towards zero *)
Definition rtrunc (x : R) : Z := if Rle_dec 0 x then Int_part x else (- Int_part (- x)).

(** ** make_sinogram, simulation.py:351-380.  [interp m x y] is util.mapping(m, x, y, order=5, mode="reflect")
    (ndimage.map_coordinates) at one position.  The warning about angles beyond pi is not modelled. *)
(** mat_pad (358-361) *)
Definition padded_image (mat : img R) (pad_rate : R) (mode : pad_mode) : img R :=
  let pad := rtrunc (pad_rate * IZR (nrow mat)) in
  let p := pad_sides mode mat pad pad in
  if nrow p mod 2 =? 0 then pad_sides Edge p 0 1 else p.
(** x_mat and y_mat in column j for the projection angle [angle] (362-372) *)
Definition sample_x (n : Z) (angle : R) (j : Z) : R :=
  let c := ((IZR n - 1) * 0.5)%R in
  let r_max := IZR (Int_part (Rmax c c)) in
  Rmin (Rmax (c + rlinspace (- r_max) r_max n j * cos (- angle)) 0) (IZR n - 1).
Definition sample_y (n : Z) (angle : R) (j : Z) : R :=
  let c := ((IZR n - 1) * 0.5)%R in
  let r_max := IZR (Int_part (Rmax c c)) in
  Rmin (Rmax (c + rlinspace (- r_max) r_max n j * sin (- angle)) 0) (IZR n - 1).
Definition projection (interp : img R -> R -> R -> R) (mat_pad : img R) (angle : R) : Z -> R :=
  let n := ncol mat_pad in
  let shifted := ifftshift2 mat_pad in
  let mat_real := fftshift2 (fft2_re shifted) in                                     (* 373-375 *)
  let mat_imag := fftshift2 (fft2_im shifted) in
  let sino_real j := interp mat_real (sample_x n angle j) (sample_y n angle j) in    (* 376-377 *)
  let sino_imag j := interp mat_imag (sample_x n angle j) (sample_y n angle j) in
  fun x => real_ifft n (fun k => sino_real (ifftshift_idx n k)) (fun k => sino_imag (ifftshift_idx n k))
             (fftshift_idx n x).                                                     (* 378-379 *)
Definition make_sinogram (interp : img R -> R -> R -> R) (mat : img R) (angles : vec R) (pad_rate : R) (mode : pad_mode) : res (img R) :=
  if negb (nrow mat =? ncol mat) then Err ValueError else                            (* 352-354 *)
  if vlen angles <=? 0 then Err ValueError else                                      (* 355, np.max of nothing *)
  let pad := rtrunc (pad_rate * IZR (nrow mat)) in
  if pad <? 0 then Err ValueError else                                               (* np.pad *)
  let mat_pad := padded_image mat pad_rate mode in
  let full := mkimg (vlen angles) (ncol mat_pad) (fun t j => projection interp mat_pad (vat angles t) j) in
  Ok (islice full 0 (vlen angles) pad (ncol mat + pad)).                             (* 380 *)
