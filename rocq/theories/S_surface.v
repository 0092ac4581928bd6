(** Specifications for the reconstruction of a surface from its gradients (C115, C116). *)
From Coq Require Import Reals ZArith.
From Verif Require Import Np M_phase_R.
Open Scope Z_scope.

(** The neighbour to the right (below), the image being continued periodically *)
Definition next (n i : Z) : Z := (i + 1) mod n.
(** The total squared difference between the steps of a surface f from each pixel to its right and lower neighbours and the mean of the
    gradients given at the two pixels *)
Definition slope_error (gx gy f : img R) : R :=
  let h := nrow f in let w := ncol f in
  rsum h (fun i => rsum w (fun j =>
    (px f i (next w j) - px f i j - (px gx i j + px gx i (next w j)) / 2) ^ 2 +
    (px f (next h i) j - px f i j - (px gy i j + px gy (next h i) j) / 2) ^ 2)%R).
Definition mean_value (f : img R) : R := (rsum (nrow f) (fun i => rsum (ncol f) (fun j => px f i j)) / (IZR (nrow f) * IZR (ncol f)))%R.
Definition same_size {A B} (a : img A) (b : img B) : Prop := nrow a = nrow b /\ ncol a = ncol b.
(** b is a plus the constant c *)
Definition raised (c : R) (a b : img R) : Prop :=
  same_size a b /\ forall i j, in_rng (nrow a) i -> in_rng (ncol a) j -> px b i j = (px a i j + c)%R.
(** Cosine and sine with k half periods over n pixels, the pixel i being at i + 1/2 *)
Definition cos_mode (n k i : Z) : R := cos (PI * IZR k * (IZR i + / 2) / IZR n).
Definition sin_mode (n k i : Z) : R := sin (PI * IZR k * (IZR i + / 2) / IZR n).
(** m is the sum over l < height and k < width of A l k times the cosine of l half periods along y and k along x *)
Definition cosine_series (A : Z -> Z -> R) (m : img R) : Prop :=
  forall i j, in_rng (nrow m) i -> in_rng (ncol m) j ->
    px m i j = rsum (nrow m) (fun l => rsum (ncol m) (fun k => A l k * (cos_mode (nrow m) l i * cos_mode (ncol m) k j)))%R.
(** A profile over n pixels with c k times k half periods, for k < n *)
Definition cosines (n : Z) (c : Z -> R) (x : R) : R := rsum n (fun k => c k * cos (PI * IZR k * x / IZR n))%R.
