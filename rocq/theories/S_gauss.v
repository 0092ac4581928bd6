(** Specifications for the Gaussian filter (C113); combination, mirrored, half_turned, transposed and is_wave are in S_fresnel. *)
From Coq Require Import Reals ZArith.
From Verif Require Import Np.
Open Scope Z_scope.

(** a Gaussian bell with the given widths *)
Definition bell (sigma_x sigma_y x y : R) : R := exp (- (x ^ 2 / (2 * sigma_x ^ 2) + y ^ 2 / (2 * sigma_y ^ 2)))%R.
