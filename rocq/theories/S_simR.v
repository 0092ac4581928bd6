(** Specifications for the phantoms and projections of simulation.py (C96-C99), independent of the model's helpers. *)
From Coq Require Import Reals Lra ZArith Lia.
From Verif Require Import Np M_phase_R.
Open Scope Z_scope.

(** position of pixel (i, j) of a square image relative to its centre pixel [size // 2]: x to the right, y upwards *)
Definition pixel_x (size j : Z) : R := IZR (j - size / 2).
Definition pixel_y (size i : Z) : R := IZR (size / 2 - i).
(** (x, y) is the point (u, v) turned counterclockwise by [degrees] around the origin *)
Definition turned (degrees u v x y : R) : Prop :=
  let a := (degrees * PI / 180)%R in (x = u * cos a - v * sin a /\ y = u * sin a + v * cos a)%R.
(** (x, y) lies in the shape [inside] (given for a shape at the origin with its axes along x and y), turned by [degrees]
    and then moved to (cx, cy) *)
Definition placed (inside : R -> R -> Prop) (degrees cx cy x y : R) : Prop :=
  exists u v, inside u v /\ turned degrees u v (x - cx)%R (y - cy)%R.
(** an ellipse and a rectangle with side lengths a and b, 1 percent larger *)
Definition ellipse (a b u v : R) : Prop := ((u / (a / 2)) ^ 2 + (v / (b / 2)) ^ 2 <= 1.01 ^ 2)%R.
Definition rectangle (a b u v : R) : Prop := (Rabs u <= 1.01 * Rabs (a / 2) /\ Rabs v <= 1.01 * Rabs (b / 2))%R.
(** a 0/1 image that is 1 exactly where [P] holds *)
Definition mask_of (size : Z) (m : img R) (P : R -> R -> Prop) : Prop :=
  nrow m = size /\ ncol m = size /\
  forall i j, in_rng size i -> in_rng size j ->
    (P (pixel_x size j) (pixel_y size i) -> px m i j = 1%R) /\ (~ P (pixel_x size j) (pixel_y size i) -> px m i j = 0%R).

(** the largest pixel *)
Definition brightest_pixel (m : img R) (v : R) : Prop :=
  (forall i j, in_rng (nrow m) i -> in_rng (ncol m) j -> (px m i j <= v)%R) /\
  exists i j, in_rng (nrow m) i /\ in_rng (ncol m) j /\ v = px m i j.

(** interpolation returns the pixel itself at the centre of a pixel *)
Definition exact_on_pixels (interp : img R -> R -> R -> R) : Prop :=
  forall m i j, in_rng (nrow m) i -> in_rng (ncol m) j -> interp m (IZR j) (IZR i) = px m i j.
(** sums of the image columns and rows *)
Definition column_sum (m : img R) (j : Z) : R := rsum (nrow m) (fun i => px m i j).
Definition row_sum (m : img R) (i : Z) : R := rsum (ncol m) (fun j => px m i j).
(** the image is dark (zero) outside columns and rows 1 .. n - 2 *)
Definition dark_border (m : img R) : Prop :=
  forall i j, in_rng (nrow m) i -> in_rng (ncol m) j -> i = 0 \/ i = nrow m - 1 \/ j = 0 \/ j = ncol m - 1 -> px m i j = 0%R.

(** [atan2 y x] is the polar angle of the point (x, y) *)
Definition polar_angle (atan2 : R -> R -> R) : Prop :=
  forall x y, (- PI < atan2 y x <= PI /\ sqrt (x ^ 2 + y ^ 2) * cos (atan2 y x) = x /\ sqrt (x ^ 2 + y ^ 2) * sin (atan2 y x) = y)%R.
(** the isosceles triangle with its tip at (-a/2, 0) and the corners (a/2, b/2), (a/2, -b/2): length of the two long sides;
    position of (u, v) along the upper side, counted from its middle; distance of (u, v) above the upper side *)
Definition side_length (a b : R) : R := sqrt (a ^ 2 + (b / 2) ^ 2).
Definition along_side (a b u v : R) : R := ((u * a + (v - b / 4) * (b / 2)) / side_length a b)%R.
Definition above_side (a b u v : R) : R := (((v - b / 4) * a - u * (b / 2)) / side_length a b)%R.
