(** Specifications for the polar transformation of slices (C110). *)
From Coq Require Import Reals ZArith.
From Verif Require Import Np.
Open Scope Z_scope.

(** [v] is the value of the image between its pixels at column x, row y: linear in both directions; the last row and the last
    column are continued *)
Definition value_at (m : img R) (x y v : R) : Prop :=
  exists i j a b, in_rng (nrow m) i /\ in_rng (ncol m) j /\ (0 <= a <= 1 /\ 0 <= b <= 1 /\ y = IZR i + a /\ x = IZR j + b)%R /\
    let i1 := Z.min (i + 1) (nrow m - 1) in let j1 := Z.min (j + 1) (ncol m - 1) in
    (v = (1 - a) * (1 - b) * px m i j + (1 - a) * b * px m i j1 + a * (1 - b) * px m i1 j + a * b * px m i1 j1)%R.
(** the centre of a slice of n x n pixels, and the radius of the largest circle of the polar image *)
Definition middle (n : Z) : R := ((IZR n - 1) / 2)%R.
Definition largest (n : Z) : R := IZR ((n - 1) / 2).
(** the distance of the pixel (i, j) from the centre *)
Definition distance (n i j : Z) : R := sqrt ((IZR i - middle n) ^ 2 + (IZR j - middle n) ^ 2)%R.
(** the polar image has the radius k largest / (n - 1) in column k and the angle 2 pi t / (n - 1) in row t *)
Definition radius_of (n : Z) (k : R) : R := (largest n * k / (IZR n - 1))%R.
Definition angle_of (n : Z) (t : R) : R := (2 * PI * t / (IZR n - 1))%R.
(** a vector between its elements; the last one is continued *)
Definition value_on (v : vec R) (x y : R) : Prop :=
  exists j b, in_rng (vlen v) j /\ (0 <= b <= 1 /\ x = IZR j + b)%R /\ (y = (1 - b) * vat v j + b * vat v (Z.min (j + 1) (vlen v - 1)))%R.
