(** Model of the Fresnel filter of algotom/prep/filtering.py (36-126), exact real arithmetic. *)
From Coq Require Import Reals ZArith Bool.
From Verif Require Import Np M_phase_R M_simR M_fourier.
Open Scope Z_scope.

(** dim: 1 for a sinogram, 2 for a projection; any other value counts as 1 (66, 103) *)
Inductive fresnel_dim := Dim1 | Dim2.
(** ** make_fresnel_window, filtering.py:58-70; np.ceil((n - 1) * 0.5) is n / 2 in integers *)
Definition make_fresnel_window (height width : Z) (ratio : R) (dim : fresnel_dim) : img R :=
  let ycenter := height / 2 in let xcenter := width / 2 in
  let u j := (IZR (j - xcenter) / IZR width)%R in
  let v i := (IZR (i - ycenter) / IZR height)%R in
  mkimg height width (fun i j =>
    match dim with
    | Dim2 => 1 + ratio * (u j ^ 2 + v i ^ 2)
    | Dim1 => 1 + ratio * u j ^ 2
    end)%R.
(** np.pad with mode="edge": [r] rows and [c] columns on both sides *)
Definition pad_edge (m : img R) (r c : Z) : img R :=
  mkimg (nrow m + 2 * r) (ncol m + 2 * c) (fun i j => px m (clipZ (i - r) 0 (nrow m - 1)) (clipZ (j - c) 0 (ncol m - 1))).
(** 106: fft2 of the image, divided by the window; 107: back, real part *)
Definition deconvolve2 (mat_pad win_pad : img R) : img R :=
  let f := fft2 (imap c_ mat_pad) in let w := ifftshift2 win_pad in
  imap fst (ifft2 (mkimg (nrow f) (ncol f) (fun u v => cdivr (px f u v) (px w u v)))).
(** 113-115: the same for every row; the spectrum is shifted, not the window *)
Definition deconvolve1 (mat_pad win_pad : img R) : img R :=
  let f := fft1 (imap c_ mat_pad) in
  let n := ncol f in
  let mat_fft := mkimg (nrow f) n (fun i v => cdivr (px f i (fftshift_idx n v)) (px win_pad i v)) in
  imap fst (ifft1 (mkimg (nrow f) n (fun i v => px mat_fft i (ifftshift_idx n v)))).
(** ** fresnel_filter, filtering.py:97-126.  Values that are not positive have no logarithm (nan in the code); a window entry of 0 gives
    inf or nan.  A window of another shape is rejected here (numpy may broadcast it).  The conversion to float32 is not modelled. *)
Definition fresnel_filter (mat : img R) (ratio : R) (dim : fresnel_dim) (window : option (img R)) (pad : Z) (apply_log : bool) : res (img R) :=
  let m := if apply_log then imap (fun v => - ln v)%R mat else mat in
  let win := match window with Some w => w | None => make_fresnel_window (nrow m) (ncol m) ratio dim end in
  if pad <? 0 then Err ValueError else
  if negb ((nrow win =? nrow m) && (ncol win =? ncol m)) then Err ValueError else
  let dec := match dim with
    | Dim2 => islice (deconvolve2 (pad_edge m pad pad) (pad_edge win pad pad)) pad (pad + nrow m) pad (pad + ncol m)
    | Dim1 => islice (deconvolve1 (pad_edge m 0 pad) (pad_edge win 0 pad)) 0 (nrow m) pad (pad + ncol m)
    end in
  Ok (if apply_log then imap (fun v => exp (- v)) dec else dec).
