(** Specifications for calibration (C103-C106), independent of the model's helpers. *)
From Coq Require Import Reals Lra ZArith Lia List Permutation Sorted.
From Verif Require Import Np M_phase_R.
Open Scope R_scope.

(** the point at parameter [t] of the ellipse with centre (xc, yc), half axes [a] and [b], the first one turned by [theta] *)
Definition ellipse_point (xc yc a b theta t : R) : R * R :=
  (xc + a * cos t * cos theta - b * sin t * sin theta, yc + a * cos t * sin theta + b * sin t * cos theta).
Definition on_ellipse (xc yc a b theta : R) (x y : vec R) (t : Z -> R) : Prop :=
  forall k, in_rng (vlen x) k -> (vat x k, vat y k) = ellipse_point xc yc a b theta (t k).
(** five of the points are different *)
Definition five_different (x y : vec R) : Prop :=
  exists k0 k1 k2 k3 k4 : Z, (forall k, In k (k0 :: k1 :: k2 :: k3 :: k4 :: nil) -> in_rng (vlen x) k) /\
    NoDup ((vat x k0, vat y k0) :: (vat x k1, vat y k1) :: (vat x k2, vat y k2) :: (vat x k3, vat y k3) :: (vat x k4, vat y k4) :: nil).
(** value of the conic with coefficients c 0 .. c 5 (x^2, x y, y^2, x, y, 1) at a point *)
Definition conic (c : Z -> R) (x y : R) : R := c 0%Z * x ^ 2 + c 1%Z * (x * y) + c 2%Z * y ^ 2 + c 3%Z * x + c 4%Z * y + c 5%Z.
Definition nonzero6 (c : Z -> R) : Prop := exists k, in_rng 6 k /\ c k <> 0.
(** what np.linalg.svd(A, full_matrices=False) promises about the last right singular vector [v] of [A]: a unit vector that makes the
    product with A shortest, among all unit vectors when A has at least as many rows as columns, and among the unit vectors that are
    combinations of the rows when A has fewer, linearly independent rows (only as many vectors as rows are computed). *)
Definition times (A : img R) (v : Z -> R) (i : Z) : R := rsum (ncol A) (fun k => px A i k * v k).
Definition norm2 (n : Z) (v : Z -> R) : R := rsum n (fun k => v k * v k).
Definition combination_of_rows (A : img R) (v : Z -> R) : Prop := exists c, forall k, in_rng (ncol A) k -> v k = rsum (nrow A) (fun i => c i * px A i k).
Definition independent_rows (A : img R) : Prop :=
  forall c, (forall k, in_rng (ncol A) k -> rsum (nrow A) (fun i => c i * px A i k) = 0) -> forall i, in_rng (nrow A) i -> c i = 0.
Definition last_singular (A : img R) (v : Z -> R) : Prop :=
  norm2 (ncol A) v = 1 /\
  ((ncol A <= nrow A)%Z -> forall u, norm2 (ncol A) u = 1 -> norm2 (nrow A) (times A v) <= norm2 (nrow A) (times A u)) /\
  ((nrow A < ncol A)%Z -> independent_rows A -> combination_of_rows A v /\
     forall u, norm2 (ncol A) u = 1 -> combination_of_rows A u -> norm2 (nrow A) (times A v) <= norm2 (nrow A) (times A u)).
(** the matrix with a row (x^2, x y, y^2, x, y, 1) for every point *)
Definition conic_rows (x y : vec R) (A : img R) : Prop :=
  nrow A = vlen x /\ ncol A = 6%Z /\ forall i, in_rng (vlen x) i -> let a := vat x i in let b := vat y i in
    px A i 0%Z = a ^ 2 /\ px A i 1%Z = a * b /\ px A i 2%Z = b ^ 2 /\ px A i 3%Z = a /\ px A i 4%Z = b /\ px A i 5%Z = 1.
(** ** dots of a binary image (a pixel is a pair row, column) *)
Local Open Scope Z_scope.
Definition inside {T} (m : img T) (p : Z * Z) : Prop := in_rng (nrow m) (fst p) /\ in_rng (ncol m) (snd p).
Definition binary (m : img Z) : Prop := forall p, inside m p -> px m (fst p) (snd p) = 0 \/ px m (fst p) (snd p) = 1.
Definition white (m : img Z) (p : Z * Z) : Prop := inside m p /\ px m (fst p) (snd p) <> 0.
Definition touching (p q : Z * Z) : Prop := Z.abs (fst p - fst q) + Z.abs (snd p - snd q) = 1.
(** [p] and [q] belong to the same dot: a path of white pixels, going up, down, left or right, leads from one to the other *)
Inductive same_dot (m : img Z) (p : Z * Z) : Z * Z -> Prop :=
  | dot_here : white m p -> same_dot m p p
  | dot_step q r : same_dot m p q -> white m r -> touching q r -> same_dot m p r.
(** the dot of [p] has [n] pixels *)
Definition dot_pixels (m : img Z) (p : Z * Z) (n : Z) : Prop :=
  exists l, NoDup l /\ (forall q, In q l <-> same_dot m p q) /\ Z.of_nat (length l) = n.
(** [q] lies in the smallest rectangle (sides along rows and columns) around the dot of [p] *)
Definition in_rectangle (m : img Z) (p q : Z * Z) : Prop :=
  exists a b c d, same_dot m p a /\ same_dot m p b /\ same_dot m p c /\ same_dot m p d /\
    fst a <= fst q <= fst b /\ snd c <= snd q <= snd d.
(** what ndimage.label promises: labels 1 .. num, all in use, one for each dot *)
Definition labelled (m lab : img Z) (num : Z) : Prop :=
  nrow lab = nrow m /\ ncol lab = ncol m /\ 0 <= num /\
  (forall p, inside m p -> 0 <= px lab (fst p) (snd p) <= num /\ (px lab (fst p) (snd p) = 0 <-> px m (fst p) (snd p) = 0)) /\
  (forall k, 1 <= k <= num -> exists p, white m p /\ px lab (fst p) (snd p) = k) /\
  (forall p q, white m p -> white m q -> (px lab (fst p) (snd p) = px lab (fst q) (snd q) <-> same_dot m p q)).
(** what ndimage.find_objects promises: for each label the first row, the row after the last, the first column, the column after
    the last *)
Definition objects (lab : img Z) (num : Z) (l : list (Z * Z * Z * Z)) : Prop :=
  Z.of_nat (length l) = num /\
  forall k r0 r1 c0 c1, 1 <= k <= num -> nth (Z.to_nat (k - 1)) l (0, 0, 0, 0) = (r0, r1, c0, c1) ->
    (forall p, inside lab p -> px lab (fst p) (snd p) = k -> r0 <= fst p < r1 /\ c0 <= snd p < c1) /\
    (exists a, inside lab a /\ px lab (fst a) (snd a) = k /\ fst a = r0) /\ (exists a, inside lab a /\ px lab (fst a) (snd a) = k /\ fst a = r1 - 1) /\
    (exists a, inside lab a /\ px lab (fst a) (snd a) = k /\ snd a = c0) /\ (exists a, inside lab a /\ px lab (fst a) (snd a) = k /\ snd a = c1 - 1).
(** [m2] shows the white pixels of [m1], all moved by [dy] rows and [dx] columns *)
Definition moved (m1 m2 : img Z) (dy dx : Z) : Prop :=
  (forall p, white m1 p -> white m2 (fst p + dy, snd p + dx)) /\ (forall p, white m2 p -> white m1 (fst p - dy, snd p - dx)).
(** [n] pixels of [mat] are above [t] *)
Definition pixels_above (mat : img R) (t : R) (n : Z) : Prop :=
  exists l, NoDup l /\ (forall p, In p l <-> inside mat p /\ (t < px mat (fst p) (snd p))%R) /\ Z.of_nat (length l) = n.
(** the smoothing filter does not invent signal *)
Definition keeps_zero (smooth : vec R -> vec R) : Prop := forall v, vlen (smooth v) = vlen v /\
  ((forall k, in_rng (vlen v) k -> vat v k = 0%R) -> forall k, in_rng (vlen v) k -> vat (smooth v) k = 0%R).
(** the line y = a x + b comes closest to the points, measured by the sum of the squares of the errors *)
Definition least_squares (x y : vec R) (a b : R) : Prop :=
  forall a' b', (rsum (vlen x) (fun k => (a * vat x k + b - vat y k) ^ 2) <= rsum (vlen x) (fun k => (a' * vat x k + b' - vat y k) ^ 2))%R.
(** [d] is the (shortest) distance of the point (u, v) from the line y = a x + b *)
Definition distance_to_line (a b u v d : R) : Prop :=
  let far t := sqrt ((t - u) ^ 2 + (a * t + b - v) ^ 2)%R in
  (exists t, far t = d) /\ forall t, (d <= far t)%R.
(** the least whole number that is not below x *)
Definition least_above (x : R) (k : Z) : Prop := (IZR k - 1 < x <= IZR k)%R.
(** what np.median promises of whole numbers: the value in the middle of the sorted list, or the mean of the two in the middle *)
Definition median_of (l : list Z) (v : R) : Prop := exists s, Permutation l s /\ StronglySorted Z.le s /\
  v = ((IZR (nth (Nat.div2 (length s - 1)) s 0%Z) + IZR (nth (Nat.div2 (length s)) s 0%Z)) / 2)%R.
