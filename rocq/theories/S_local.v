(** Specification vocabulary for maps of local shifts; independent of the model's helpers (only the array types are used). *)
From Coq Require Import Reals ZArith.
From Verif Require Import Np M_corr S_corr.
From Coq Require Import List. Import ListNotations.
Open Scope Z_scope.

(** the square window of radius r around pixel (i, j), of every image of a stack *)
Definition patch (d : data) (i j r : Z) : data :=
  match d with
  | One m => One (mkimg (2 * r + 1) (2 * r + 1) (fun a b => px m (i - r + a) (j - r + b)))
  | Stack v => Stack (mkvol (dep v) (2 * r + 1) (2 * r + 1) (fun k a b => vx v k (i - r + a) (j - r + b))) end.
(** the line of radius r around pixel (i, j) along x or along y, one row for every image of a stack *)
Definition strip (along_x : bool) (v : vol R) (i j r : Z) : data :=
  One (mkimg (dep v) (2 * r + 1) (fun k a => if along_x then vx v k i (j - r + a) else vx v k (i - r + a) j)).
Definition same_size (a b : data) : Prop := same_kind a b /\ height a = height b /\ width a = width b.
(** correlation of the window of [mat] around (i, j) with the window of [ref] around (i + dy, j + dx) *)
Definition local_similarity (ref mat : data) (i j r dy dx : Z) : R :=
  pearson (combine (window mat (i - r) (j - r) (2 * r + 1) (2 * r + 1)) (window ref (i + dy - r) (j + dx - r) (2 * r + 1) (2 * r + 1))).
(** the same for lines *)
Definition line_pixels (along_x : bool) (v : vol R) (i j r : Z) : list R :=
  flat_map (fun k => map (fun a => if along_x then vx v k i (j - r + a) else vx v k (i - r + a) j) (zrange 0 (2 * r + 1))) (zrange 0 (dep v)).
Definition line_similarity (along_x : bool) (ref mat : vol R) (i j r s : Z) : R :=
  pearson (combine (line_pixels along_x mat i j r)
                   (if along_x then line_pixels along_x ref i (j + s) r else line_pixels along_x ref (i + s) j r)).
(** two maps of the size of the data that hold f (i, j) except for a border of zeros *)
Definition shift_maps (d : data) (border_y border_x : Z) (f : Z -> Z -> res (R * R)) (xs ys : img R) : Prop :=
  (nrow xs = height d /\ ncol xs = width d /\ nrow ys = height d /\ ncol ys = width d) /\
  forall i j, 0 <= i < height d -> 0 <= j < width d ->
    (border_y <= i < height d - border_y /\ border_x <= j < width d - border_x -> f i j = Ok (px xs i j, px ys i j)) /\
    (~ (border_y <= i < height d - border_y /\ border_x <= j < width d - border_x) -> px xs i j = 0%R /\ px ys i j = 0%R).
(** number of pieces np.array_split makes of the rows for a given chunk_size *)
Definition pieces (height : Z) (chunk_size : option Z) : Z :=
  match chunk_size with
  | None => 1
  | Some c => let c := Z.min (Z.max c 1) height in Z.min (height / c + 1) height end.
(** np.polyfit and the surface fit depend on the elements of their argument only *)
Definition reads_elements (polyfit2 : vec R -> R * R) (surface : img R -> R * R * R * R * R) : Prop :=
  (forall l l', vec_eq l l' -> polyfit2 l = polyfit2 l') /\ (forall m m', img_eq m m' -> surface m = surface m').
(** every value divided by the sum of its column and by the sum of its row *)
Definition equalised (m : img R) : img R :=
  mkimg (nrow m) (ncol m) (fun i j =>
    px m i j / total (map (fun a => px m a j) (zrange 0 (nrow m))) / total (map (fun b => px m i b) (zrange 0 (ncol m))))%R.
(** no band of 2 * e + 1 rows is uniform *)
Definition textured (d : data) (e : Z) : Prop := forall i, e <= i < height d - e -> varies (window d (i - e) 0 (2 * e + 1) (width d)).
(** every value of a stack divided by the sum over the images at its pixel, and by the sum of its row (x) or column (y) *)
Definition equalised_lines (along_x : bool) (v : vol R) : vol R :=
  mkvol (dep v) (hei v) (wid v) (fun k i j =>
    vx v k i j / total (map (fun k' => vx v k' i j) (zrange 0 (dep v)))
               / total (if along_x then map (fun b => vx v k i b) (zrange 0 (wid v)) else map (fun a => vx v k a j) (zrange 0 (hei v))))%R.
(** x shifts with columns of zeros and y shifts with rows of zeros at the ends *)
Definition line_shift_maps (d : vol R) (border : Z) (fx fy : Z -> Z -> res (R * R)) (xs ys : img R) : Prop :=
  (nrow xs = hei d /\ ncol xs = wid d /\ nrow ys = hei d /\ ncol ys = wid d) /\
  forall i j, 0 <= i < hei d -> 0 <= j < wid d ->
    (border <= j < wid d - border -> fx i j = Ok (px xs i j, 0%R)) /\ (~ border <= j < wid d - border -> px xs i j = 0%R) /\
    (border <= i < hei d - border -> fy i j = Ok (px ys i j, 0%R)) /\ (~ border <= i < hei d - border -> px ys i j = 0%R).
(** (dy, dx) is the best displacement of at most [margin] pixels, the first one in reading order *)
Definition best_displacement (ref mat : data) (i j r margin dy dx : Z) : Prop :=
  - margin <= dy <= margin /\ - margin <= dx <= margin /\
  forall dy' dx', - margin <= dy' <= margin -> - margin <= dx' <= margin ->
    (local_similarity ref mat i j r dy' dx' <= local_similarity ref mat i j r dy dx)%R /\
    (local_similarity ref mat i j r dy' dx' = local_similarity ref mat i j r dy dx -> dy < dy' \/ (dy = dy' /\ dx <= dx')).
(** on one side of the square of displacements but not in one of its corners *)
Definition on_a_side (margin dy dx : Z) : Prop :=
  (Z.abs dy = margin /\ Z.abs dx < margin) \/ (Z.abs dx = margin /\ Z.abs dy < margin).
(** after the equalisation no row of pixels (x) or column of pixels (y) is uniform over all images *)
Definition equalised_lines_vary (v : vol R) : Prop :=
  (forall i, 0 <= i < hei v -> varies (flat_map (fun k => map (fun j => vx (equalised_lines true v) k i j) (zrange 0 (wid v))) (zrange 0 (dep v)))) /\
  (forall j, 0 <= j < wid v -> varies (flat_map (fun k => map (fun i => vx (equalised_lines false v) k i j) (zrange 0 (hei v))) (zrange 0 (dep v)))).
(** [x], [y]: at most [margin] and, if [near], within one pixel of the best displacement *)
Definition near_best (ref mat : data) (i j r margin : Z) (near : Prop) (x y : R) : Prop :=
  (Rabs x <= IZR margin /\ Rabs y <= IZR margin)%R /\
  exists dy dx, best_displacement ref mat i j r margin dy dx /\ (near -> Rabs (x - IZR dx) < 1 /\ Rabs (y - IZR dy) < 1)%R.
