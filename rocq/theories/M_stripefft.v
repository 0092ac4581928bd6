(** Model of the FFT and wavelet-FFT stripe filters of algotom/prep/removal.py (590-717) with the windows of algotom/util/utility.py (416-506),
    in exact real arithmetic with explicit Fourier sums (M_removal has the same functions for abstract transforms). *)
From Coq Require Import Reals ZArith Bool.
From Verif Require Import Np M_phase_R M_simR M_fourier M_fresnel M_wedge.
From Coq Require Import List. Import ListNotations.
Open Scope Z_scope.

(** np.ceil(n / 2.0) - 1 *)
Definition window_center (n : Z) : Z := (n + 1) / 2 - 1.
(** ** make_2d_butterworth_window, utility.py:439-447; n is a whole number >= 0; the overflow of int16 and u = 0 are not modelled *)
Definition butterworth_window (width height : Z) (u : R) (v : Z) (n : nat) : img R :=
  let xcenter := window_center width in
  let ycenter := window_center height in
  let row1 := py_adj height (ycenter - v) in
  let row2 := py_adj height (ycenter + v + 1) in
  mkimg height width (fun i j =>
    if (row1 <=? i) && (i <? row2) then (1 / (1 + (IZR (j - xcenter) / u) ^ (2 * n)))%R else 1%R).
(** ** make_2d_damping_window, utility.py:471-477; [butter] is window_name == "butter" *)
Definition damping_window (width height : Z) (size : R) (butter : bool) : img R :=
  let xcenter := window_center width in
  mkimg height width (fun _ j =>
    let x := IZR (j - xcenter) in
    if butter then (1 - 1 / (1 + (x / size) ^ 2))%R else (1 - exp (- x ^ 2 / (2 * size ^ 2)))%R).
(** np.pad(m, ((p, p), (0, 0)), mode='mean') *)
Definition pad_mean_rows (m : img R) (p : Z) : img R :=
  mkimg (nrow m + 2 * p) (ncol m) (fun i j =>
    if (p <=? i) && (i <? p + nrow m) then px m (i - p) j else (rsum (nrow m) (fun k => px m k j) / IZR (nrow m))%R).
(** the two paddings and their size, removal.py:622-624 and 676-679; int(0.1 * k) is k / 10 *)
Definition stripe_pad (m : img R) : Z := Z.min 150 (Z.min (nrow m) (ncol m) / 10).
Definition pad_sinogram (m : img R) : img R := pad_edge (pad_mean_rows m (stripe_pad m)) 0 (stripe_pad m).
(** ifft2(ifftshift(fftshift(fft2(m)) * window)) *)
Definition filter_spectrum (m window : img R) : img cx :=
  let f := fshift (fft2 (imap c_ m)) in
  ifft2 (ishift (mkimg (nrow f) (ncol f) (fun u v => cmul (px f u v) (c_ (px window u v))))).
(** ** remove_stripe_based_fft without sort, removal.py:622-632 *)
Definition stripe_fft (sinogram : img R) (u : R) (n : nat) (v : Z) : img R :=
  let pad := stripe_pad sinogram in
  let s := pad_sinogram sinogram in
  let window := butterworth_window (ncol s) (nrow s) u v n in
  islice (imap cabs (filter_spectrum s window)) pad (nrow s - pad) pad (ncol s - pad).

(** a wavelet decomposition: the approximation and, per level, the horizontal, vertical and diagonal details *)
Definition coeffs := (img R * list (img R * img R * img R))%type.
(** the filter of one vertical detail, removal.py:686-690 *)
Definition damp (m : img R) (size : R) (butter : bool) : img R :=
  imap fst (filter_spectrum m (itrans (damping_window (nrow m) (ncol m) size butter))).
Section with_wavelets.
(** pywt.wavedec2(mat, wavelet_name, level=level) and pywt.waverec2(data, wavelet_name) *)
Context (wavedec : img R -> Z -> coeffs) (waverec : coeffs -> img R).
(** ** apply_wavelet_decomposition, utility.py:501-506; floor(log2(n / 16)) is log2 n - 4 in integers; pywt rejects negative levels *)
Definition wavelet_level (mat : img R) (level : option Z) : Z :=
  let max_level := Z.min (Z.log2 (nrow mat) - 4) (Z.log2 (ncol mat) - 4) in
  match level with None => max_level | Some l => if (max_level <? l) || (l <? 1) then max_level else l end.
Definition apply_wavelet_decomposition (mat : img R) (level : option Z) : res coeffs :=
  let l := wavelet_level mat level in
  if l <? 0 then Err ValueError else Ok (wavedec mat l).
(** ** remove_stripe_based_wavelet_fft without sort and options, removal.py:676-717 *)
Definition stripe_wavelet_fft (sinogram : img R) (level : option Z) (size : R) (butter : bool) : res (img R) :=
  let pad := stripe_pad sinogram in
  do data <- apply_wavelet_decomposition (pad_sinogram sinogram) level;
  let filtered := map (fun d => let '(h, v, x) := d in (h, damp v size butter, x)) (snd data) in
  Ok (islice (waverec (fst data, filtered)) pad (nrow sinogram + pad) pad (ncol sinogram + pad)).
End with_wavelets.
