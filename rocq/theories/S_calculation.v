(** Specification vocabulary for calculation.py, independent of the model. *)
From Verif Require Import Np.
From Coq Require Import QArith Qabs.
From Coq Require Import List. Import ListNotations.
Open Scope Z_scope.

(** [out] is [sino] followed by its mirror image about the axis c = c2/2; where the mirrored column falls
    outside, the up-down flipped sinogram is used *)
Definition is_mirror_stack (sino : img Q) (c2 : Z) (out : img Q) : Prop :=
  nrow out = 2 * nrow sino /\ ncol out = ncol sino /\
  forall i j, in_rng (nrow sino) i -> in_rng (ncol sino) j ->
    px out i j = px sino i j /\
    (in_rng (ncol sino) (c2 - j) -> px out (nrow sino + i) j = px sino i (c2 - j)) /\
    (~ in_rng (ncol sino) (c2 - j) -> px out (nrow sino + i) j = px sino (nrow sino - 1 - i) j).

(** columns x of [a] and 2c - x of [b] show the same thing, c = c2/2 being the axis *)
Definition mirrored (a b : img Q) (c2 : Z) : Prop :=
  forall i x, in_rng (nrow a) i -> in_rng (ncol a) x -> in_rng (ncol b) (c2 - x) -> (px b i (c2 - x)%Z == px a i x)%Q.

(** the two images share exactly [ov] columns: on the right of [a] and left of [b] (side 1), or on the left
    of [a] and right of [b] (side 0) *)
Definition overlapping (a b : img Q) (ov side : Z) : Prop :=
  nrow a = nrow b /\ 0 <= ov /\ ov <= ncol a /\ ov <= ncol b /\
  forall i j, in_rng (nrow a) i -> 0 <= j < ov ->
    if side =? 1 then (px b i j == px a i (ncol a - ov + j)%Z)%Q else (px b i (ncol b - ov + j)%Z == px a i j)%Q.

(** axis of rotation (times 1) of two mirrored projections whose flipped copies overlap by [ov] columns *)
Definition axis_of_overlap (nc : Z) (ov : Q) (side : Z) : Q :=
  if side =? 0 then ((ov - 1) / 2)%Q else ((inject_Z (2 * nc) - ov - 1) / 2)%Q.

Definition quadratic (a b c x : Q) : Q := (a * x * x + b * x + c)%Q.
Definition sse5 (a b c y0 y1 y2 y3 y4 : Q) : Q :=
  ((y0 - quadratic a b c 0) * (y0 - quadratic a b c 0) + (y1 - quadratic a b c 1) * (y1 - quadratic a b c 1)
   + (y2 - quadratic a b c 2) * (y2 - quadratic a b c 2) + (y3 - quadratic a b c 3) * (y3 - quadratic a b c 3)
   + (y4 - quadratic a b c 4) * (y4 - quadratic a b c 4))%Q.

(** [x] is minimal among the values of [f] on the candidates *)
Definition best {A} (f : A -> Q) (cands : list A) (x : A) : Prop :=
  In x cands /\ forall y, In y cands -> (f x <= f y)%Q.
