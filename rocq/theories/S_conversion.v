(** Specifications for conversion.py (C25-C31, C68). *)
From Verif Require Import Np.
From Coq Require Import QArith Qabs.
From Coq Require Import List. Import ListNotations.
Open Scope Z_scope.

(** [out] is [left] followed by [right] with [k] shared columns, blended by a weight that falls linearly from 1
    (first shared column) to 0 (last shared column) for the left image. *)
Definition is_stitch (left right : img Q) (k : Z) (out : img Q) : Prop :=
  nrow out = nrow left /\ ncol out = ncol left + ncol right - k /\
  forall i j, in_rng (nrow out) i -> in_rng (ncol out) j ->
    (j < ncol left - k -> (px out i j == px left i j)%Q) /\
    (ncol left <= j -> (px out i j == px right i (j - (ncol left - k))%Z)%Q) /\
    (ncol left - k <= j < ncol left ->
       exists w, (0 <= w <= 1)%Q /\ (2 <= k -> (w * inject_Z (k - 1) == inject_Z (ncol left - 1 - j))%Q) /\
         (px out i j == w * px left i j + (1 - w) * px right i (j - (ncol left - k))%Z)%Q).

(** mean of columns [a, b) *)
Definition mean_of_columns (m : img Q) (a b : Z) : Q :=
  qmean2 (nrow m) (b - a) (fun i j => px m i (a + j)).

(** [out] is [left], a gap of [g] columns, [right]; the gap and the columns up to 2 left / 3 right of it are the straight line
    between column [ncol left - 3] and column [ncol left + g + 3] *)
Definition is_join (left right : img Q) (g : Z) (out : img Q) : Prop :=
  nrow out = nrow left /\ ncol out = ncol left + ncol right + g /\
  forall i j, in_rng (nrow out) i -> in_rng (ncol out) j ->
    (j < ncol left - 2 -> (px out i j == px left i j)%Q) /\
    (ncol left + g + 3 <= j -> (px out i j == px right i (j - (ncol left + g))%Z)%Q) /\
    (ncol left - 2 <= j < ncol left + g + 3 ->
       let a := (ncol left - 3)%Z in let b := (ncol left + g + 3)%Z in
       ((px out i j - px left i a) * inject_Z (b - a) ==
       (px right i 3%Z - px left i a) * inject_Z (j - a))%Q).

(** [m] sees, in row [i], the straight-line scene [al i + be i * x], its column [j] being at abscissa [x0 + j] *)
Definition samples (al be : Z -> Q) (x0 : Q) (m : img Q) : Prop :=
  forall i j, in_rng (nrow m) i -> in_rng (ncol m) j ->
    (px m i j == al i + be i * (x0 + inject_Z j))%Q.
(** an ideal sub-pixel shift moves straight-line scenes by [s] columns to the right *)
Definition ideal_shift (shift : img Q -> Q -> img Q) : Prop :=
  forall m s, 2 <= ncol m -> nrow (shift m s) = nrow m /\ ncol (shift m s) = ncol m /\
    forall al be x0, samples al be x0 m -> samples al be (x0 - s)%Q (shift m s).
(** shifting by an integer number of columns with mode='nearest' is exact *)
Definition integer_shift (shift : img Q -> Q -> img Q) : Prop :=
  forall m s k, (s == inject_Z k)%Q -> nrow (shift m s) = nrow m /\ ncol (shift m s) = ncol m /\
    forall i j, in_rng (nrow m) i -> in_rng (ncol m) j ->
      px (shift m s) i j = px m i (clipZ (j - k) 0 (ncol m - 1)).

(** the left fold of a step that may raise *)
Fixpoint fold_res {A B} (f : B -> A -> res B) (b : B) (l : list A) : res B :=
  match l with [] => Ok b | a :: t => do c <- f b a; fold_res f c t end.
(** [n] is the integer nearest to [q]; a tie goes to the even one *)
Definition nearest_integer (q : Q) (n : Z) : Prop :=
  (Qabs (q - inject_Z n) <= 1#2)%Q /\ ((Qabs (q - inject_Z n) == 1#2)%Q -> Z.even n = true).
