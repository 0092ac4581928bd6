(** Specifications for remove_all_stripe (C134), independent of the model's helpers. *)
From Verif Require Import Np S_utility S_removal.
From Coq Require Import QArith.
From Coq Require Import List. Import ListNotations.
Open Scope Z_scope.

(** position [k] of the line 0 .. n-1 continued by mirroring at its ends (d c b a | a b c d | d c b a) shows element [m] *)
Definition shows (n k m : Z) : Prop := in_rng n m /\ (k mod (2 * n) = m \/ k mod (2 * n) = 2 * n - 1 - m).
(** among the [size] columns around [j] (image mirrored at its edges) fewer than half are [bad] *)
Definition few_bad (n size : Z) (bad : Z -> bool) (j : Z) : Prop :=
  forall w : Z -> Z, (forall d, 0 <= d < size -> shows n (j - size / 2 + d) (w d)) ->
  2 * Z.of_nat (length (filter (fun d => bad (w d)) (zrange 0 size))) < size.

Definition positive_pixels (m : img Q) : Prop := forall i j, in_rng (nrow m) i -> in_rng (ncol m) j -> (0 < px m i j)%Q.
(** two images whose columns order their pixels in the same way: column by column one is an increasing function of the other *)
Definition same_order (a b : img Q) (j : Z) : Prop :=
  forall i1 i2, in_rng (nrow a) i1 -> in_rng (nrow a) i2 -> ((px a i1 j < px a i2 j)%Q <-> (px b i1 j < px b i2 j)%Q).
(** columns at most half a window apart hold alike values: the k-th smallest ones differ at most by the factor [r] *)
Definition alike_columns (r : Q) (size : Z) (m : img Q) : Prop :=
  forall s rank, sorted_columns m s rank ->
  forall a b k, in_rng (ncol m) a -> in_rng (ncol m) b -> 2 * Z.abs (a - b) <= size -> in_rng (nrow m) k -> (px s k a <= r * px s k b)%Q.
(** [y] is [x] up to the factor [f] *)
Definition within_factor (f x y : Q) : Prop := (x <= f * y)%Q /\ (y <= f * x)%Q.
(** an argsort that compares values only: vectors ordered alike are sorted alike *)
Definition compares_only (asort : vec Q -> Z -> Z) : Prop :=
  forall u v, vlen u = vlen v ->
  (forall a b, in_rng (vlen u) a -> in_rng (vlen u) b -> ((vat u a <= vat u b)%Q <-> (vat v a <= vat v b)%Q)) ->
  forall k, asort u k = asort v k.
(** [a] is the mean / the median (the upper one for an even size) of the [size] values of [f] around [i] on the line 0 .. n-1
    continued by mirroring *)
Definition moving_mean (n size : Z) (f : Z -> Q) (i : Z) (a : Q) : Prop :=
  forall w : Z -> Z, (forall d, 0 <= d < size -> shows n (i - size / 2 + d) (w d)) -> (a * inject_Z size == qsum size (fun d => f (w d)))%Q.
Definition moving_median (n size : Z) (f : Z -> Q) (i : Z) (a : Q) : Prop :=
  forall w : Z -> Z, (forall d, 0 <= d < size -> shows n (i - size / 2 + d) (w d)) ->
  (exists d, 0 <= d < size /\ (f (w d) == a)%Q) /\
  2 * Z.of_nat (length (filter (fun d => Qltb (f (w d)) a) (zrange 0 size))) <= size /\
  2 * Z.of_nat (length (filter (fun d => Qltb a (f (w d))) (zrange 0 size))) < size.
(** the same in two directions: [a] is the median (the upper one for an even size) of the [size] x [size] values of [f] around row [i] and column [j] *)
Definition square_median (h w size : Z) (f : Z -> Z -> Q) (i j : Z) (a : Q) : Prop :=
  forall r c : Z -> Z, (forall d, 0 <= d < size -> shows h (i - size / 2 + d) (r d)) -> (forall d, 0 <= d < size -> shows w (j - size / 2 + d) (c d)) ->
  let places := list_prod (zrange 0 size) (zrange 0 size) in
  (exists p, In p places /\ (f (r (fst p)) (c (snd p)) == a)%Q) /\
  2 * Z.of_nat (length (filter (fun p => Qltb (f (r (fst p)) (c (snd p))) a) places)) <= size * size /\
  2 * Z.of_nat (length (filter (fun p => Qltb a (f (r (fst p)) (c (snd p)))) places)) < size * size.
