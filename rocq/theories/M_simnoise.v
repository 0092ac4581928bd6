(** Model of add_noise and add_background_fluctuation, algotom/util/simulation.py (exact real arithmetic). *)
From Coq Require Import Reals ZArith Bool.
From Verif Require Import Np M_phase_R M_simR.
Open Scope Z_scope.

(** np.mean(mat[mat != 0.0]) *)
Definition count_nonzero (m : img R) : R := rsum (nrow m) (fun i => rsum (ncol m) (fun j => if Req_EM_T (px m i j) 0 then 0 else 1))%R.
Definition sum_nonzero (m : img R) : R := rsum (nrow m) (fun i => rsum (ncol m) (fun j => if Req_EM_T (px m i j) 0 then 0 else px m i j))%R.
(** ** add_noise, simulation.py:398-401.  np.random.normal(a, b, size=shape)[i, j] is a + b * z i j with the standard normal draws [z];
    it rejects b < 0.  Without any non-zero pixel the mean is nan, and so is the whole result: None. *)
Definition add_noise (z : Z -> Z -> R) (mat : img R) (noise_ratio : R) : res (option (img R)) :=
  if Req_EM_T (count_nonzero mat) 0 then Ok None else
  let num_mean := (sum_nonzero mat / count_nonzero mat)%R in
  let noise_mean := (num_mean * noise_ratio)%R in
  if Rlt_dec (noise_mean * 0.5) 0 then Err ValueError else
  Ok (Some (mkimg (nrow mat) (ncol mat) (fun i j => px mat i j + (noise_mean + noise_mean * 0.5 * z i j))%R)).
(** scipy.signal.windows.gaussian(n, std)[k] *)
Definition gaussian_window (n : Z) (std : R) (k : Z) : R := exp (- (IZR k - (IZR n - 1) / 2) ^ 2 / (2 * std ^ 2)).
(** ** add_background_fluctuation, simulation.py:497-505.  [rand1] and [rand2] are the two calls of np.random.rand(nrow); the overflow of
    np.int16 (from 131072 columns) and integer sinograms, where the products are cut to integers, are not modelled. *)
Definition list_fact (rand1 : Z -> R) (strength_ratio : R) (i : Z) : R := (1 - rand1 i * strength_ratio)%R.
Definition list_shift (rand2 : Z -> R) (strength_ratio : R) (ncols i : Z) : Z := rtrunc ((0.5 - rand2 i) * strength_ratio * IZR ncols * 0.5).
Definition add_background_fluctuation (rand1 rand2 : Z -> R) (sinogram : img R) (strength_ratio : R) : img R :=
  mkimg (nrow sinogram) (ncol sinogram) (fun i j =>
    px sinogram i j *
    gaussian_window (ncol sinogram) (0.5 * list_fact rand1 strength_ratio i * IZR (ncol sinogram))
      ((j - list_shift rand2 strength_ratio (ncol sinogram) i) mod ncol sinogram))%R.
