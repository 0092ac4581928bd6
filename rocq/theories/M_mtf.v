(** Model of algotom/prep/correction.py:295-331, mtf_deconvolution, with the Fourier transforms written out.  Real numbers
    instead of floats; the division by a zero of the window (inf or nan in the code) has no meaning here. *)
From Coq Require Import Reals ZArith Bool.
From Verif Require Import Np M_phase_R M_simR M_fourier M_fresnel M_speckle.
Open Scope Z_scope.

(** 325: np.pad(mat, ((0, pad_row), (0, pad_col)), mode="edge") *)
Definition extend_edge (m : img R) (rows cols : Z) : img R :=
  mkimg (nrow m + rows) (ncol m + cols) (fun i j => px m (Z.min i (nrow m - 1)) (Z.min j (ncol m - 1))).
(** 327: np.pad(window, pad, mode="constant", constant_values=1.0) *)
Definition pad_ones (m : img R) (pad : Z) : img R :=
  mkimg (nrow m + 2 * pad) (ncol m + 2 * pad) (fun i j =>
    if (pad <=? i) && (i <? nrow m + pad) && (pad <=? j) && (j <? ncol m + pad) then px m (i - pad) (j - pad) else 1%R).
(** ** mtf_deconvolution, correction.py:317-331.  A negative pad and an empty image are rejected by np.pad; line 328 is
    [deconvolve2] of the Fresnel filter (filtering.py:106-107), the same expression. *)
Definition mtf_deconvolution (mat window : img R) (pad : Z) : res (img R) :=
  let height1 := nrow mat in let width1 := ncol mat in
  let height2 := nrow window in let width2 := ncol window in
  if (height2 <? height1) || (width2 <? width1) then Err ValueError else
  if (height1 <=? 0) || (width1 <=? 0) || (pad <? 0) then Err ValueError else
  let m := extend_edge mat (height2 - height1) (width2 - width1) in
  do mat_pad <- pad_reflect m pad;
  let win_pad := pad_ones window pad in
  let mat_dec := deconvolve2 mat_pad win_pad in
  let mat_dec := islice mat_dec pad (height2 + pad) pad (width2 + pad) in
  Ok (islice mat_dec 0 height1 0 width1).
