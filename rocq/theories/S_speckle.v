(** Specification vocabulary for phase retrieval by speckle tracking; independent of the model's helpers (only the array types are used). *)
From Coq Require Import Reals ZArith.
From Verif Require Import Np M_corr S_corr.
Open Scope Z_scope.

(** zero at every pixel that is nearer than [b] to an end of the axes chosen *)
Definition blank_sides (b : Z) (m : img R) : Prop :=
  forall i j, in_rng (nrow m) i -> in_rng (ncol m) j -> j < b \/ ncol m - b <= j -> px m i j = 0%R.
Definition blank_ends (b : Z) (m : img R) : Prop :=
  forall i j, in_rng (nrow m) i -> in_rng (ncol m) j -> i < b \/ nrow m - b <= i -> px m i j = 0%R.
Definition of_size (d : data) (m : img R) : Prop := nrow m = height d /\ ncol m = width d.
(** position p stands for position i: i itself if it is at least b from both ends of the axis, otherwise some such position *)
Definition stands_in (n b i p : Z) : Prop := b <= p < n - b /\ (b <= i < n - b -> p = i).
(** i and p are at the same distance from position c *)
Definition opposite (c i p : Z) : Prop := p - c = c - i.
(** every image of [sam] shows at (i, j) a brighter or darker copy of what [ref] shows at (i + dy, j + dx), and of nothing else within [margin] pixels *)
Definition shows_only (ref sam : data) (r margin i j dy dx : Z) : Prop :=
  let around d y x := window d (y - r) (x - r) (2 * r + 1) (2 * r + 1) in
  varies (around sam i j) /\
  forall dy' dx', - margin <= dy' <= margin -> - margin <= dx' <= margin ->
    (affine_copy (around sam i j) (around ref (i + dy') (j + dx')) <-> dy' = dy /\ dx' = dx).
(** the maps xs, ys are lx, ly with the border of b pixels replaced by values of inner pixels (those opposite to the ends of the inner area if it is large enough) *)
Definition border_replaced (d : data) (b : Z) (lx ly xs ys : img R) : Prop :=
  forall i j, in_rng (height d) i -> in_rng (width d) j ->
    exists p q, stands_in (height d) b i p /\ stands_in (width d) b j q /\ px xs i j = px lx p q /\ px ys i j = px ly p q /\
      (3 * b < height d -> (i < b -> opposite b i p) /\ (height d - b <= i -> opposite (height d - b - 1) i p)) /\
      (3 * b < width d -> (j < b -> opposite b j q) /\ (width d - b <= j -> opposite (width d - b - 1) j q)).
(** every inner window of [sam] shows [ref] displaced by (dy, dx) *)
Definition uniformly_displaced (ref sam : data) (r margin dy dx : Z) : Prop :=
  - margin <= dy <= margin /\ - margin <= dx <= margin /\
  forall i j, r + margin <= i < height ref - (r + margin) -> r + margin <= j < width ref - (r + margin) -> shows_only ref sam r margin i j dy dx.
(** both maps are everywhere within one pixel of the displacement *)
Definition within_one (d : data) (dy dx : Z) (xs ys : img R) : Prop :=
  forall i j, in_rng (height d) i -> in_rng (width d) j -> (Rabs (px xs i j - IZR dx) < 1 /\ Rabs (px ys i j - IZR dy) < 1)%R.
