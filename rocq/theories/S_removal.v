(** Specifications for removal.py (C16, C38-C42, C76-C78), independent of the model's helpers. *)
From Verif Require Import Np S_utility.
From Coq Require Import QArith.
From Coq Require Import List. Import ListNotations.
Open Scope Z_scope.

(** [s] is [m] with every column sorted; [rank j k] is the row of [m] that holds the k-th smallest value of column j *)
Definition sorted_columns (m s : img Q) (rank : Z -> Z -> Z) : Prop :=
  nrow s = nrow m /\ ncol s = ncol m /\
  forall j, in_rng (ncol m) j ->
    (forall k, in_rng (nrow m) k -> in_rng (nrow m) (rank j k) /\ px s k j = px m (rank j k) j) /\
    (forall a b, in_rng (nrow m) a -> in_rng (nrow m) b -> rank j a = rank j b -> a = b) /\
    (forall a b, 0 <= a -> a < b -> b < nrow m -> (px s a j <= px s b j)%Q).

(** the mean of the eight neighbours at distance [d], images wrapping around at the borders *)
Definition eight_mean (m : img Q) (d i j : Z) : Q :=
  let at_ := fun di dj => px m ((i + di) mod nrow m) ((j + dj) mod ncol m) in
  ((at_ (-d)%Z (-d)%Z + at_ (-d)%Z 0%Z + at_ (-d)%Z d + at_ 0%Z (-d)%Z + at_ 0%Z d + at_ d (-d)%Z + at_ d 0%Z + at_ d d) / 8)%Q.

(** an array function that keeps the length and only looks at the values *)
Definition proper_filter (f : vec Q -> vec Q) : Prop :=
  (forall u, vlen (f u) = vlen u) /\ (forall u v, vec_eq u v -> vec_eq (f u) (f v)).
(** image filters keeping the shape *)
Definition keeps_shape (f : img Q -> img Q) : Prop := forall m, nrow (f m) = nrow m /\ ncol (f m) = ncol m.
(** a filter that changes nothing *)
Definition neutral (f : img Q -> img Q) : Prop := forall m, img_Qeq (f m) m.

(** the mean of rows b .. b+len-1 *)
Definition row_mean (s : img Q) (b len : Z) (j : Z) : Q := qmean len (fun k => px s (b + k) j).
(** column [j] or one of its neighbours is marked *)
Definition marked_near (mask : vec Q) (j : Z) : Prop :=
  exists k, in_rng (vlen mask) k /\ j - 1 <= k <= j + 1 /\ ~ (vat mask k == 0)%Q.
(** column [j] of a row is interpolated between the nearest columns left and right that are not marked (or lie in
    the two first / last columns) *)
Definition bridged (n : Z) (mask : vec Q) (f g : Z -> Q) (j : Z) : Prop :=
  exists a b, a < j < b /\ 0 <= a /\ b < n /\
    (~ marked_near mask a \/ a < 2) /\ (~ marked_near mask b \/ n - 2 <= b) /\
    (forall k, a < k < b -> 2 <= k < n - 2 /\ marked_near mask k) /\
    on_line a (f a) b (f b) j (g j).

(** the line [intercept + slope x] has the smallest sum of squared residuals over the points x = a .. a+m-1 *)
Definition least_squares_line (a m : Z) (y : Z -> Q) (slope intercept : Q) : Prop :=
  forall p q, (qsum m (fun k => (y (a + k)%Z - (intercept + slope * inject_Z (a + k))) * (y (a + k)%Z - (intercept + slope * inject_Z (a + k))))
    <= qsum m (fun k => (y (a + k)%Z - (p + q * inject_Z (a + k))) * (y (a + k)%Z - (p + q * inject_Z (a + k)))))%Q.
