(** Model of the slice metrics of algotom/rec/reconstruction.py:1211-1253 and algotom/rec/vertrec.py:1255-1261 over the reals.
    The conversions to float32 are not modelled. *)
From Coq Require Import Reals ZArith.
From Verif Require Import Np M_phase_R M_fourier M_corr M_simR.
From Coq Require Import List. Import ListNotations.
Open Scope Z_scope.

(** np.uint8(recon_img * 255) of one value (reconstruction.py:1217), for values between 0 and 1 *)
Definition uint8_of (v : R) : Z := rtrunc (v * 255).
(** the bin of ndi.histogram(recon, 0, 255, 256) an integer falls into (1218): 256 bins of width 255/256, the last one closed *)
Definition histogram_bin (u : Z) : Z := Z.min 255 (u * 256 / 255).
(** 1.0 + ndi.histogram(...), 1218 *)
Definition histogram_plus1 (m : img R) (k : Z) : R :=
  (1 + rsum (nrow m) (fun i => rsum (ncol m) (fun j => if (histogram_bin (uint8_of (px m i j)) =? k)%Z then 1 else 0)))%R.
(** signal.convolve(hist, boxcar(7), mode='valid'), 1219: 250 values *)
Definition smoothed (hist : Z -> R) (j : Z) : R := rsum 7 (fun t => hist (j + t)).
(** __calculate_histogram_entropy, 1211-1220, np.log2 x = ln x / ln 2 *)
Definition histogram_entropy (m : img R) : R :=
  (- rsum 250 (fun j => let h := smoothed (histogram_plus1 m) j in h * (ln h / ln 2)))%R.
(** np.gradient along one axis of length n >= 2 (1227) *)
Definition np_gradient (n : Z) (f : Z -> R) (i : Z) : R :=
  (if (i =? 0)%Z then f 1%Z - f 0%Z
   else if (i =? n - 1)%Z then f (n - 1)%Z - f (n - 2)%Z
   else (f (i + 1)%Z - f (i - 1)%Z) / 2)%R.
(** __calculate_edge_sharpness, 1223-1228; np.gradient raises ValueError for an axis shorter than 2 *)
Definition edge_sharpness (m : img R) : res R :=
  if (nrow m <? 2) || (ncol m <? 2) then Err ValueError
  else Ok (rsum (nrow m) (fun i => rsum (ncol m) (fun j =>
             sqrt (np_gradient (nrow m) (fun a => px m a j) i ^ 2 + np_gradient (ncol m) (fun b => px m i b) j ^ 2)))
           / (IZR (nrow m) * IZR (ncol m)))%R.
(** the branch of __get_slice_metric for metric == "entropy" (1241-1244) = vertrec.py:1400-1403: [nmin], [nmax] are the extremes of
    the slice reconstructed with the mean centre *)
Definition entropy_score (recon : img R) (nmin nmax : R) : R :=
  histogram_entropy (imap (fun v => Rmax 0 (Rmin 1 ((v - nmin) / (nmax - nmin))))%R recon).
(** __calculate_autocorrelation_coefficient, vertrec.py:1255-1261 *)
Definition autocorrelation_coefficient (m : img R) : R :=
  let fft_row := fft1 (imap c_ m) in
  let autocorr := imap cabs (ifft1 (imap (fun z => c_ (cabs z ^ 2)) fft_row)) in
  (rsum (nrow m) (fun i => rmaximum (map (px autocorr i) (zrange 0 (ncol m)))) / IZR (nrow m))%R.
