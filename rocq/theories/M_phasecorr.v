(** Model of the phase correlation of algotom/prep/calculation.py (727-828), exact real arithmetic. *)
From Coq Require Import Reals ZArith Bool.
From Verif Require Import Np M_phase_R M_corr M_fourier.
Open Scope Z_scope.

(** ** complex_gradient, calculation.py:731-740; np.roll(mat, -2, axis=1)[i, j] = mat[i, (j + 2) mod ncol]; the first and the last
    two columns (rows) of the difference are set to 0 *)
Definition edge2 (n k : Z) : bool := (k <? 2) || (n - 2 <=? k).
Definition complex_gradient (m : img R) : img cx :=
  mkimg (nrow m) (ncol m) (fun i j =>
    (if edge2 (ncol m) j then 0 else px m i ((j + 2) mod ncol m)%Z - px m i j,
     if edge2 (nrow m) i then 0 else px m ((i + 2) mod nrow m)%Z j - px m i j)%R).
(** np.polyfit of degree 2 through three neighbouring points (783-784): the interpolating parabola, coefficients of x^2 and x *)
Definition polyfit3 (x v0 v1 v2 : R) : R * R :=
  let a := ((v0 - 2 * v1 + v2) / 2)%R in (a, ((v2 - v0) / 2 - 2 * a * x)%R).
(** 785-792 *)
Definition refine (x : Z) (v0 v1 v2 : R) : R :=
  let '(a, b) := polyfit3 (IZR x) v0 v1 v2 in
  if Req_EM_T a 0 then IZR x else
  let num := (- b / (2 * a))%R in
  if Rle_dec (IZR x - 1) num then (if Rle_dec num (IZR x + 1) then num else IZR x) else IZR x.
(** 793-798: np.ceil((n - 1) * 0.5) is n / 2 in integers *)
Definition wrap (n : Z) (t : R) : R := if Rlt_dec (IZR (n / 2)) t then (- (IZR n - t))%R else t.
(** 772-775: the normalised cross spectrum and its inverse transform; np.abs of an exact 0 is 0 *)
Definition phase_map (m1 m2 : img cx) : img R :=
  let f1 := fft2 m1 in let f2 := fft2 m2 in
  let q := mkimg (nrow m1) (ncol m1) (fun u v =>
     let t := cmul (px f1 u v) (cconj (px f2 u v)) in
     cdivr t (if Req_EM_T (cabs t) 0 then 1 else cabs t)%R) in
  imap cabs (ifft2 q).
(** ** find_shift_based_phase_correlation, calculation.py:768-799.  A negative index ty - 1 = -1 is the last row.
    Images of different shapes (broadcast or ValueError in numpy) are rejected here. *)
Definition find_shift_based_phase_correlation (mat1 mat2 : img R) (gradient : bool) : res (R * R) :=
  if negb ((nrow mat1 =? nrow mat2) && (ncol mat1 =? ncol mat2)) then Err ValueError else
  let c (m : img R) := if gradient then complex_gradient m else imap c_ m in
  let mat3 := phase_map (c mat1) (c mat2) in
  let nr := nrow mat1 in let nc := ncol mat1 in
  do yx <- argmax2 mat3;
  let (ty, tx) := yx in
  let sx := refine tx (px mat3 ty ((tx - 1) mod nc)) (px mat3 ty tx) (px mat3 ty ((tx + 1) mod nc)) in
  let sy := refine ty (px mat3 ((ty - 1) mod nr) tx) (px mat3 ty tx) (px mat3 ((ty + 1) mod nr) tx) in
  Ok (wrap nr sy, wrap nc sx).
(** ** find_center_based_phase_correlation, calculation.py:823-828 *)
Definition find_center_based_phase_correlation (mat1 mat2 : img R) (flip gradient : bool) : res R :=
  let m2 := if flip then ifliplr mat2 else mat2 in
  do s <- find_shift_based_phase_correlation mat1 m2 gradient;
  Ok ((IZR (ncol mat1) - 1 + snd s) * 0.5)%R.
