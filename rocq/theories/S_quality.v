(** Specifications for the quality map and the weight mask (C118). *)
From Coq Require Import Reals ZArith.
From Verif Require Import Np M_phase_R.
Open Scope Z_scope.

(** d is x taken into [-PI, PI) by whole turns *)
Definition is_wrapped (x d : R) : Prop := (- PI <= d < PI)%R /\ exists k, d = (x + 2 * PI * IZR k)%R.
(** mean and root of the summed squared deviations over the (2 r + 1) x (2 r + 1) window around (i, j) *)
Definition window_mean (r : Z) (g : Z -> Z -> R) (i j : Z) : R :=
  (rsum (2 * r + 1) (fun a => rsum (2 * r + 1) (fun b => g (i - r + a)%Z (j - r + b)%Z)) / (IZR (2 * r + 1) * IZR (2 * r + 1)))%R.
Definition spread (r : Z) (g : Z -> Z -> R) (i j : Z) : R :=
  sqrt (rsum (2 * r + 1) (fun a => rsum (2 * r + 1) (fun b => (g (i - r + a)%Z (j - r + b)%Z - window_mean r g i j) ^ 2)))%R.
(** the wrapped steps from the left and from the upper neighbour *)
Definition steps_x (m : img R) (gx : Z -> Z -> R) : Prop := forall i j, in_rng (nrow m) i -> 1 <= j < ncol m -> is_wrapped (px m i j - px m i (j - 1))%R (gx i j).
Definition steps_y (m : img R) (gy : Z -> Z -> R) : Prop := forall i j, 1 <= i < nrow m -> in_rng (ncol m) j -> is_wrapped (px m i j - px m (i - 1) j)%R (gy i j).
(** all values of g in the window are the same *)
Definition steady (r : Z) (g : Z -> Z -> R) (i j : Z) : Prop := forall a b, i - r <= a <= i + r -> j - r <= b <= j + r -> g a b = g i j.
(** the images agree at all pixels within d of (i, j) *)
Definition agree_near (d : Z) (m m' : img R) (i j : Z) : Prop :=
  nrow m' = nrow m /\ ncol m' = ncol m /\ forall a b, in_rng (nrow m) a -> in_rng (ncol m) b -> Z.abs (a - i) <= d -> Z.abs (b - j) <= d -> px m' a b = px m a b.
(** the image [m'] has the same pixels as [m], rearranged by the one-to-one map of positions [p]; same shape or height and width exchanged *)
Definition rearranged (p : Z * Z -> Z * Z) (m m' : img R) : Prop :=
  (nrow m' = nrow m /\ ncol m' = ncol m \/ nrow m' = ncol m /\ ncol m' = nrow m) /\
  (forall i j, in_rng (nrow m') i -> in_rng (ncol m') j -> in_rng (nrow m) (fst (p (i, j))) /\ in_rng (ncol m) (snd (p (i, j))) /\ px m' i j = px m (fst (p (i, j))) (snd (p (i, j)))) /\
  (forall i j a b, in_rng (nrow m') i -> in_rng (ncol m') j -> in_rng (nrow m') a -> in_rng (ncol m') b -> p (i, j) = p (a, b) -> i = a /\ j = b).
(** the image a * m + b *)
Definition rescaled (a b : R) (m m' : img R) : Prop :=
  nrow m' = nrow m /\ ncol m' = ncol m /\ forall i j, in_rng (nrow m) i -> in_rng (ncol m) j -> px m' i j = (a * px m i j + b)%R.
(** the same steps, including those onto the first row and column, whose neighbours beyond the edge are the reflected ones (row -1 is row 1) *)
Definition edge_steps_x (m : img R) (gx : Z -> Z -> R) : Prop := forall i j, -1 <= i < nrow m - 1 -> in_rng (ncol m) j -> is_wrapped (px m (Z.abs i) j - px m (Z.abs i) (Z.abs (j - 1)))%R (gx i j).
Definition edge_steps_y (m : img R) (gy : Z -> Z -> R) : Prop := forall i j, in_rng (nrow m) i -> -1 <= j < ncol m - 1 -> is_wrapped (px m i (Z.abs j) - px m (Z.abs (i - 1)) (Z.abs j))%R (gy i j).
