(** Specification vocabulary for image correlation; independent of the model's helpers (only the array types are used). *)
From Coq Require Import Reals ZArith.
From Verif Require Import Np M_corr.
From Coq Require Import List Permutation. Import ListNotations.
Open Scope R_scope.

Definition total (l : list R) : R := fold_right Rplus 0 l.
Definition average (l : list R) : R := total l / INR (length l).
Definition deviations (l : list R) : list R := map (fun x => x - average l) l.
Definition dot (a b : list R) : R := total (map (fun p => fst p * snd p) (combine a b)).
(** Pearson's correlation coefficient of a list of pairs; 0 if one of the two variables is constant *)
Definition pearson (l : list (R * R)) : R :=
  let a := deviations (map fst l) in let b := deviations (map snd l) in
  if Req_EM_T (dot a a * dot b b) 0 then 0 else dot a b / sqrt (dot a a * dot b b).
(** the values are not all the same *)
Definition varies (l : list R) : Prop := exists x y, In x l /\ In y l /\ x <> y.
(** b is a brighter / darker copy of a *)
Definition affine_copy (a b : list R) : Prop := exists s t, 0 < s /\ b = map (fun x => s * x + t) a.

(** number of images and pixels of an argument *)
Definition depth (d : data) : Z := match d with One _ => 1%Z | Stack v => dep v end.
Definition height (d : data) : Z := match d with One m => nrow m | Stack v => hei v end.
Definition width (d : data) : Z := match d with One m => ncol m | Stack v => wid v end.
Definition value (d : data) (k i j : Z) : R := match d with One m => px m i j | Stack v => vx v k i j end.
Definition same_kind (a b : data) : Prop :=
  match a, b with One _, One _ => True | Stack v, Stack w => dep v = dep w | _, _ => False end.
(** the pixels of a window of [h] rows and [w] columns with corner (i, j) *)
Definition window (d : data) (i j h w : Z) : list R :=
  flat_map (fun k => flat_map (fun a => map (fun b => value d k (i + a) (j + b)) (zrange 0 w)) (zrange 0 h)) (zrange 0 (depth d)).
(** correlation of the whole of [mat] with the window of [ref] of the same size at (i, j) *)
Definition correlation_at (ref mat : data) (i j : Z) : R :=
  pearson (combine (window mat 0 0 (height mat) (width mat)) (window ref i j (height mat) (width mat))).
(** [mat] fits into [ref] *)
Definition fits (ref mat : data) : Prop :=
  same_kind ref mat /\ (1 <= depth mat /\ 1 <= height mat <= height ref /\ 1 <= width mat <= width ref)%Z.
(** block sizes of a GPU launch and an arbitrary order of its threads *)
Definition any_launch (block : Z * Z) (sched : list (Z * Z) -> list (Z * Z)) : Prop :=
  (1 <= fst block /\ 1 <= snd block)%Z /\ forall l, Permutation l (sched l).

(** ** peaks *)
Definition brightest (m : img R) (y x : Z) : Prop :=
  (0 <= y < nrow m /\ 0 <= x < ncol m /\ forall i j, 0 <= i < nrow m -> 0 <= j < ncol m -> (px m i j <= px m y x)%R)%Z.
Definition darkest (m : img R) (y x : Z) : Prop :=
  (0 <= y < nrow m /\ 0 <= x < ncol m /\ forall i j, 0 <= i < nrow m -> 0 <= j < ncol m -> (px m y x <= px m i j)%R)%Z.
(** [m] shows the surface c0 + c1 x + c2 y + c3 x^2 + c4 x y + c5 y^2, whose only critical point is (vy, vx) *)
Definition quadratic_surface (m : img R) (vy vx : R) : Prop :=
  exists c0 c1 c2 c3 c4 c5,
    (forall i j, (0 <= i < nrow m)%Z -> (0 <= j < ncol m)%Z ->
       px m i j = c0 + c1 * IZR j + c2 * IZR i + c3 * (IZR j * IZR j) + c4 * (IZR j * IZR i) + c5 * (IZR i * IZR i)) /\
    c4 * c4 <> 4 * c3 * c5 /\ c1 + 2 * c3 * vx + c4 * vy = 0 /\ c2 + c4 * vx + 2 * c5 * vy = 0.
(** np.polyfit(arange(n), l, 2): the normal equations of the least-squares parabola a t^2 + b t + c *)
Definition least_squares_parabola (l : list R) (a b : R) : Prop :=
  exists c, forall p, (p <= 2)%nat ->
    total (map (fun t => (a * (IZR t * IZR t) + b * IZR t + c - nth (Z.to_nat t) l 0) * IZR t ^ p) (zrange 0 (Z.of_nat (length l)))) = 0.

(** ** displaced images *)
(** away from a margin, [mat] is a brighter or darker copy of what [ref] shows dy rows below and dx columns to the right *)
Definition displaced (ref mat : data) (margin dy dx : Z) : Prop :=
  let h := (height mat - 2 * margin)%Z in let w := (width mat - 2 * margin)%Z in
  affine_copy (window mat margin margin h w) (window ref (margin + dy) (margin + dx) h w).

(** largest shift along y and x that is looked for *)
Definition reach_y (margin : Z) (axis : axis_option) : Z := match axis with Axis1 => 0%Z | _ => margin end.
Definition reach_x (margin : Z) (axis : axis_option) : Z := match axis with Axis0 => 0%Z | _ => margin end.
(** more than three rows and columns remain within the margins *)
Definition room (d : data) (margin : Z) (axis : axis_option) : Prop :=
  match axis with
  | Axis0 => (3 < height d - 2 * margin)%Z | Axis1 => (3 < width d - 2 * margin)%Z
  | NoAxis => (3 < height d - 2 * margin /\ 3 < width d - 2 * margin)%Z end.
(** correlation of [mat] without a margin of my rows and mx columns with [ref] displaced by (dy, dx) *)
Definition similarity (ref mat : data) (my mx dy dx : Z) : R :=
  let h := (height mat - 2 * my)%Z in let w := (width mat - 2 * mx)%Z in
  pearson (combine (window mat my mx h w) (window ref (my + dy) (mx + dx) h w)).
(** the same data with another brightness and contrast *)
Definition rescaled (s t : R) (d : data) : data :=
  match d with
  | One m => One (mkimg (nrow m) (ncol m) (fun i j => s * px m i j + t))
  | Stack v => Stack (mkvol (dep v) (hei v) (wid v) (fun k i j => s * vx v k i j + t)) end.
