(** Specification of the automatic threshold. *)
From Coq Require Import Reals ZArith List Permutation Sorted. Import ListNotations.
From Verif Require Import Np M_phase_R.
Open Scope Z_scope.

Definition cubic (c0 c1 c2 c3 x : R) : R := (c0 + c1 * x + c2 * x ^ 2 + c3 * x ^ 3)%R.
(** of all polynomials of degree 3, that with the coefficients [c] (constant term first) comes closest to the values [v] at 0, 1, 2, ... *)
Definition best_cubic (v : vec R) (c : list R) : Prop := exists c0 c1 c2 c3, c = [c0; c1; c2; c3] /\
  forall d0 d1 d2 d3, (rsum (vlen v) (fun k => (vat v k - cubic c0 c1 c2 c3 (IZR k)) ^ 2) <= rsum (vlen v) (fun k => (vat v k - cubic d0 d1 d2 d3 (IZR k)) ^ 2))%R.
(** what is used of the resampling of a list: the number of values, brightness and contrast are kept, the list may be read from the
    other end (lists with a value at least), and nothing changes when the number of values is kept *)
Definition fair_zoom (zoom : vec R -> Z -> vec R) : Prop :=
  (forall v n, 1 <= n -> vlen (zoom v n) = n) /\
  (forall v w a b n, 1 <= n -> 1 <= vlen v -> vlen w = vlen v -> (forall k, in_rng (vlen v) k -> vat w k = a * vat v k + b)%R ->
     forall k, in_rng n k -> (vat (zoom w n) k = a * vat (zoom v n) k + b)%R) /\
  (forall v w n, 1 <= n -> 1 <= vlen v -> vlen w = vlen v -> (forall k, in_rng (vlen v) k -> vat w k = vat v (vlen v - 1 - k)) ->
     forall k, in_rng n k -> vat (zoom w n) k = vat (zoom v n) (n - 1 - k)) /\
  (forall v k, in_rng (vlen v) k -> vat (zoom v (vlen v)) k = vat v k).
(** the pixels of [mat], in any order *)
Definition pixels_are (mat : img R) (l : list R) : Prop :=
  exists ps, NoDup ps /\ (forall p, In p ps <-> in_rng (nrow mat) (fst p) /\ in_rng (ncol mat) (snd p)) /\ l = map (fun p => px mat (fst p) (snd p)) ps.
Definition ascending (v : vec R) : Prop := forall k l, 0 <= k <= l -> l < vlen v -> (vat v k <= vat v l)%R.
