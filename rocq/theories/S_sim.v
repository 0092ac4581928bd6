(** Specifications for the simulated artifacts of simulation.py (C64), independent of the model's helpers. *)
From Verif Require Import Np.
From Coq Require Import QArith Qround.
Open Scope Z_scope.

(** [rank] lists the rows of column [j] from the darkest to the brightest pixel *)
Definition ranking (m : img Q) (j : Z) (rank : Z -> Z) : Prop :=
  (forall k, in_rng (nrow m) k -> in_rng (nrow m) (rank k)) /\
  (forall a b, in_rng (nrow m) a -> in_rng (nrow m) b -> rank a = rank b -> a = b) /\
  (forall a b, 0 <= a -> a < b -> b < nrow m -> (px m (rank a) j <= px m (rank b) j)%Q).
(** a strength forced into [0, 1] *)
Definition used_strength (s t : Q) : Prop :=
  ((0 <= s <= 1 -> t == s) /\ (s < 0 -> t == 0) /\ (1 < s -> t == 1))%Q.
(** the column where a stripe of [size] columns starts: [position], moved to the nearest of the columns
    0 .. ncol - size - 1 *)
Definition stripe_start (ncols size position start : Z) : Prop :=
  0 <= start <= ncols - size - 1 /\
  (0 <= position <= ncols - size - 1 -> start = position) /\
  (position < 0 -> start = 0) /\ (ncols - size - 1 < position -> start = ncols - size - 1).
(** factor of the k-th darkest of n pixels in a partial stripe of strength s: the (1 - s) n darkest pixels
    (rounded down) are kept, the others fade linearly from 1 to 1 - s *)
Definition fade (s : Q) (n k : Z) (f : Q) : Prop :=
  let kept := Qfloor ((1 - s) * inject_Z n) in
  (k <= kept -> (f == 1)%Q) /\ (kept < k -> (f * inject_Z (n - kept - 1) == inject_Z (n - kept - 1) - s * inject_Z (k - kept))%Q).
Definition largest (m : img Q) (v : Q) : Prop :=
  (forall i j, in_rng (nrow m) i -> in_rng (ncol m) j -> (px m i j <= v)%Q) /\
  exists i j, in_rng (nrow m) i /\ in_rng (ncol m) j /\ (v == px m i j)%Q.
(** number and sum of the non-zero pixels *)
Definition nonzero_count (m : img Q) : Q :=
  qsum2 (nrow m) (ncol m) (fun i j => if Qeq_bool (px m i j) 0 then 0 else 1)%Q.
Definition pixel_sum (m : img Q) : Q := qsum2 (nrow m) (ncol m) (px m).
Definition no_negative_pixel (m : img Q) : Prop :=
  forall i j, in_rng (nrow m) i -> in_rng (ncol m) j -> (0 <= px m i j)%Q.
Definition some_nonzero_pixel (m : img Q) : Prop :=
  exists i j, in_rng (nrow m) i /\ in_rng (ncol m) j /\ ~ (px m i j == 0)%Q.
