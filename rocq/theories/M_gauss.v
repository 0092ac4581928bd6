(** Model of the Fourier-based Gaussian filter of algotom/util/utility.py (795-870), exact real arithmetic. *)
From Coq Require Import Reals ZArith Bool.
From Verif Require Import Np M_phase_R M_fourier.
Open Scope Z_scope.

(** modes of np.pad; other modes are not modelled *)
Inductive npad := PadEdge | PadMean | PadReflect.
(** index of the reflected image: 0 1 .. n-1 n-2 .. 1 repeated *)
Definition reflect_idx (n k : Z) : Z :=
  if n =? 1 then 0 else let r := k mod (2 * (n - 1)) in if r <? n then r else 2 * (n - 1) - r.
(** one line of length n, padded on both sides by p *)
Definition pad_line (mode : npad) (n p : Z) (f : Z -> R) (k : Z) : R :=
  if (p <=? k) && (k <? p + n) then f (k - p) else
  match mode with
  | PadEdge => f (clipZ (k - p) 0 (n - 1))
  | PadMean => (rsum n f / IZR n)%R
  | PadReflect => f (reflect_idx n (k - p))
  end.
(** 860-861: first the columns with mode1, then the rows with mode2 *)
Definition pad_image (mode1 mode2 : npad) (m : img R) (p : Z) : img R :=
  let wide i k := pad_line mode1 (ncol m) p (px m i) k in
  mkimg (nrow m + 2 * p) (ncol m + 2 * p) (fun i j => pad_line mode2 (nrow m) p (fun a => wide a j) i).
(** ** make_2d_gaussian_window, utility.py:815-820 *)
Definition make_2d_gaussian_window (height width : Z) (sigma_x sigma_y : R) : img R :=
  let x j := (IZR j - (IZR width - 1) / 2)%R in let y i := (IZR i - (IZR height - 1) / 2)%R in
  mkimg height width (fun i j => exp (- (x j ^ 2 / (2 * sigma_x ^ 2) + y i ^ 2 / (2 * sigma_y ^ 2))))%R.
(** np.power(-1.0, x + y) *)
Definition checker (x y : Z) : R := if Z.even (x + y) then 1%R else (-1)%R.
(** ** apply_gaussian_filter, utility.py:848-870.  [mode] None: edge for the columns and mean for the rows, else the two modes.
    A sigma of 0 is a division by zero in the code (inf or nan); the theorems assume other values. *)
Definition apply_gaussian_filter (mat : img R) (sigma_x sigma_y : R) (pad : option Z) (mode : option (npad * npad)) : res (img R) :=
  let '(mode1, mode2) := match mode with Some mm => mm | None => (PadEdge, PadMean) end in
  let p := match pad with Some p => p | None => Z.min 150 (Z.min (nrow mat) (ncol mat) / 10) end in
  if p <? 0 then Err ValueError else
  let mat_pad := pad_image mode1 mode2 mat p in
  let nr := nrow mat_pad in let nc := ncol mat_pad in
  let window := make_2d_gaussian_window nr nc sigma_x sigma_y in
  let f := fft2 (mkimg nr nc (fun i j => c_ (px mat_pad i j * checker j i))) in
  let g := ifft2 (mkimg nr nc (fun u v => cmul (px f u v) (c_ (px window u v)))) in
  let filt := mkimg nr nc (fun i j => fst (cmul (px g i j) (c_ (checker j i)))) in
  Ok (islice filt p (nr - p) p (nc - p)).
