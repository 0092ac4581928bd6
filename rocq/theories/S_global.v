(** Specification vocabulary for the shift from several points; independent of the model's helpers (only the array types are used). *)
From Coq Require Import Reals ZArith.
From Verif Require Import Np M_corr S_corr S_local M_global.
From Coq Require Import List Permutation. Import ListNotations.
Open Scope Z_scope.

(** the window of radius e around pixel (i, j) lies inside the image *)
Definition window_inside (d : data) (e i j : Z) : Prop := 0 <= i - e /\ i + e <= height d - 1 /\ 0 <= j - e /\ j + e <= width d - 1.
(** the points that are used: the windows around them fit and do not touch the first row or column *)
Definition usable (d : data) (e : Z) (p : Z * Z) : bool :=
  (0 <? fst p - e) && (fst p + e <? height d) && (0 <? snd p - e) && (snd p + e <? width d).
(** all but k elements of a list satisfy P *)
Definition all_but {A} (k : nat) (P : A -> Prop) (l : list A) : Prop :=
  exists good bad, Permutation l (good ++ bad) /\ (length bad <= k)%nat /\ Forall P good.
(** how many of n values may be arbitrarily wrong *)
Definition tolerated (how : global_value) (n : nat) : nat :=
  match how with Median => (n - 1) / 2 | Mixed => n / 2 - 3 | Mean => if Nat.ltb 7 n then 2 else 0 end.
(** the values are symmetric around c *)
Definition centred (c : R) (l : list R) : Prop := Permutation l (map (fun x => 2 * c - x)%R l).
(** numpy.random.randint returns [n] integers in [low, high) *)
Definition random_integers (randint : bool -> Z -> Z -> Z -> list Z) : Prop :=
  forall b low high n, low < high -> 0 <= n -> Z.of_nat (length (randint b low high n)) = n /\ Forall (fun i => low <= i < high) (randint b low high n).
(** what surrounds pixel p of [mat] is found, up to brightness and contrast and within the margin, only at the displacement (dy, dx) *)
Definition only_match (ref mat : data) (r margin dy dx : Z) (p : Z * Z) : Prop :=
  let around d y x := window d (y - r) (x - r) (2 * r + 1) (2 * r + 1) in
  varies (around mat (fst p) (snd p)) /\
  forall dy' dx', - margin <= dy' <= margin -> - margin <= dx' <= margin ->
    (affine_copy (around mat (fst p) (snd p)) (around ref (fst p + dy') (snd p + dx')) <-> dy' = dy /\ dx' = dx).
(** [v] = (x, y) is the shift between the windows around p.  The GPU only has the differential method and does not refine a best
    displacement on a side of the square of displacements *)
Definition shift_at (polyfit2 : vec R -> R * R) (surface : img R -> R * R * R * R * R) (ref mat : data) (r margin : Z)
    (gpu sub_pixel : bool) (meth : method) (size : Z) (p : Z * Z) (v : R * R) : Prop :=
  let between sub meth := find_shift_based_correlation_map polyfit2 surface (patch ref (fst p) (snd p) (r + margin)) (patch mat (fst p) (snd p) r)
                            margin NoAxis sub meth false size false (1, 1) (fun l => l) in
  if gpu then exists dy dx, best_displacement ref mat (fst p) (snd p) r margin dy dx /\
                (Rabs (fst v - IZR dx) < 1 /\ Rabs (snd v - IZR dy) < 1)%R /\
                (on_a_side margin dy dx -> v = (IZR dx, IZR dy)) /\ (~ on_a_side margin dy dx -> between true Diff = Ok v)
  else between sub_pixel meth = Ok v.
(** images of the same size, larger than a window with its margins; normalised images are not uniform *)
Definition comparable (m n : img R) (e : Z) (norm : bool) : Prop :=
  nrow m = nrow n /\ ncol m = ncol n /\ 2 * e + 1 <= nrow m /\ 2 * e + 1 <= ncol m /\
  (norm = true -> varies (window (One (equalised m)) 0 0 (nrow m) (ncol m)) /\ varies (window (One (equalised n)) 0 0 (nrow n) (ncol n))).
