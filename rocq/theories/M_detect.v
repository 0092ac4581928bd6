(** Model of detect_sample, algotom/util/utility.py:966-1011 (exact real arithmetic). *)
From Coq Require Import Reals ZArith String.
From Verif Require Import Np M_phase_R M_fourier M_simR M_corr.
From Coq Require Import List. Import ListNotations.
Open Scope Z_scope.

(** scipy.ndimage.gaussian_filter(mat, sigma) for an integer sigma > 0: weights exp(-k^2 / (2 sigma^2)) normalised over |k| <= 4 sigma
    (truncate = 4), borders repeated by mode "reflect" (d c b a | a b c d | d c b a), one axis after the other *)
Definition border_idx (n k : Z) : Z := let q := k mod (2 * n) in if q <? n then q else 2 * n - 1 - q.
Definition bell (sigma k : Z) : R := exp (- (IZR k * IZR k) / (2 * (IZR sigma * IZR sigma))).
Definition gauss_weight (sigma k : Z) : R := (bell sigma k / rsum (2 * (4 * sigma) + 1) (fun a => bell sigma (a - 4 * sigma)))%R.
Definition gaussian_filter (mat : img R) (sigma : Z) : img R := let r := 4 * sigma in
  mkimg (nrow mat) (ncol mat) (fun i j => rsum (2 * r + 1) (fun b => gauss_weight sigma (b - r) * rsum (2 * r + 1) (fun a =>
    gauss_weight sigma (a - r) * px mat (border_idx (nrow mat) (i + (a - r))) (border_idx (ncol mat) (j + (b - r)))))%R).

(** int(np.ceil(m / d)) for m >= 0 *)
Definition ceil_div (m d : Z) : Z := (m + d - 1) / d.
(** lines 992 and 997: the upper left part of the centred amplitude spectrum *)
Definition spectrum_part (sino : img R) : img R :=
  let f := fft2 (mkimg (nrow sino) (ncol sino) (fun i j => c_ (px sino i j))) in
  let ycenter := nrow sino / 2 in let xcenter := ncol sino / 2 in
  let radi := Z.min 20 (ceil_div (Z.min ycenter xcenter) 20) in
  mkimg (ycenter - radi) (xcenter - radi) (fun i j => cabs (px f (fftshift_idx (nrow sino) i) (fftshift_idx (ncol sino) j))).
(** lines 998-1011.  0.05, 0.02, 0.8 and 0.4 are taken as exact fractions; fft2 of an empty array is a ValueError, a row of an empty array an
    IndexError, argmax of an empty row a ValueError *)
Definition detect_in_spectrum (nrow0 ncol0 : Z) (part : img R) : res bool :=
  let size := Z.min 30 (ceil_div (Z.min nrow0 ncol0) 50) in
  let sino_smooth := gaussian_filter part size in
  let nrow1 := nrow sino_smooth in
  let row := 4 * nrow1 / 5 in
  if nrow1 <=? row then Err IndexError else
  let peak := fun i => argmaxR (map (px sino_smooth i) (zrange 0 (ncol sino_smooth))) in
  do pos <- peak row;
  do list_check <- mapr (fun i => do pos1 <- peak i; Ok (if pos <? pos1 then 1 else 0)) (prange row nrow1);
  let ratio := (IZR (fold_right Z.add 0%Z list_check) / IZR (Z.of_nat (length list_check)))%R in
  Ok (negb (Rltb ratio 0.4)).
(** line 991 *)
Definition with_opposite (sino : img R) : img R :=
  mkimg (nrow sino + nrow sino) (ncol sino) (fun i j => if i <? nrow sino then px sino i j else px sino (i - nrow sino) (ncol sino - 1 - j)).
Definition detect_sample (sinogram : img R) (sino_type : string) : res bool :=
  if negb (String.eqb sino_type "180" || String.eqb sino_type "360") then Err ValueError else
  let sino := if String.eqb sino_type "180" then with_opposite sinogram else sinogram in
  if (nrow sino <=? 0) || (ncol sino <=? 0) then Err ValueError else
  detect_in_spectrum (nrow sino) (ncol sino) (spectrum_part sino).
