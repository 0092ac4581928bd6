(** Model of algotom/util/calibration.py, exact real arithmetic. *)
From Coq Require Import Reals Lra ZArith Lia Bool List. Import ListNotations.
From Verif Require Import Np M_phase_R M_corr M_simR.
Open Scope Z_scope.

(** ** fit_points_to_ellipse, calibration.py:364-401.
    [svd_last A] is vh.T[:, -1]: the last row of vh returned by np.linalg.svd(A, full_matrices=False), a parameter.
    Simplified: no points at all (svd of an empty matrix) is not distinguished. *)
Definition design_row (x y : R) (k : Z) : R :=
  (if k =? 0 then x ^ 2 else if k =? 1 then x * y else if k =? 2 then y ^ 2 else if k =? 3 then x else if k =? 4 then y else 1)%R.
Definition design (x y : vec R) : img R := mkimg (vlen x) 6 (fun i k => design_row (vat x i) (vat y i) k).
Record ellipse_fit := mkfit { fit_roll : R; fit_major : R; fit_minor : R; fit_xc : R; fit_yc : R }.
Definition rad2deg (a : R) : R := (a * 180 / PI)%R.
(** 369-401, from the coefficients of the conic *)
Definition ellipse_from_conic (atan2 : R -> R -> R) (a0 b0 c0 d0 e0 f0 : R) : res ellipse_fit :=
  let denom := (b0 ^ 2 - 4 * a0 * c0)%R in
  if Req_EM_T denom 0 then Err ValueError else
  let xc := ((2 * c0 * d0 - b0 * e0) / denom)%R in
  let yc := ((2 * a0 * e0 - b0 * d0) / denom)%R in
  let root := sqrt ((a0 - c0) ^ 2 + b0 ^ 2) in
  let roll0 := rad2deg (atan2 (c0 - a0 - root) b0)%R in
  let roll1 := if Rlt_dec 90 roll0 then (- (180 - roll0))%R else roll0 in
  let roll2 := if Rlt_dec roll1 (-90) then (180 + roll1)%R else roll1 in
  let q := (a0 * e0 ^ 2 + c0 * d0 ^ 2 - b0 * d0 * e0 + denom * f0)%R in
  let a_term := (2 * q * (a0 + c0 + root))%R in
  if Rlt_dec a_term 0 then Err ValueError else
  let a_major := (-2 * sqrt a_term / denom)%R in
  let b_term := (2 * q * (a0 + c0 - root))%R in
  if Rlt_dec b_term 0 then Err ValueError else
  let b_minor := (-2 * sqrt b_term / denom)%R in
  if Rlt_dec a_major b_minor then
    Ok (mkfit (if Rlt_dec roll2 0 then 90 + roll2 else -90 + roll2)%R b_minor a_major xc yc)
  else Ok (mkfit roll2 a_major b_minor xc yc).
Definition fit_points_to_ellipse (atan2 : R -> R -> R) (svd_last : img R -> Z -> R) (x y : vec R) : res ellipse_fit :=
  if negb (vlen x =? vlen y) then Err ValueError else
  let v := svd_last (design x y) in
  ellipse_from_conic atan2 (v 0) (v 1) (v 2) (v 3) (v 4) (v 5).

(** ** np.polyfit(x, y, 1): the line of least squares, from the normal equations; used at 427 and 497 *)
Definition polyfit_line (x y : vec R) : R * R :=
  let n := IZR (vlen x) in
  let sx := rsum (vlen x) (vat x) in let sy := rsum (vlen x) (vat y) in
  let sxx := rsum (vlen x) (fun k => vat x k * vat x k)%R in let sxy := rsum (vlen x) (fun k => vat x k * vat y k)%R in
  let a := ((n * sxy - sx * sy) / (n * sxx - sx * sx))%R in
  (a, ((sy - a * sx) / n)%R).
Definition line_distance (a b : R) (x y : vec R) : vec R :=
  mkvec (vlen x) (fun k => Rabs (a * vat x k - vat y k + b) / sqrt (a ^ 2 + 1))%R.
Definition rmaxlist (l : list R) : res R := match l with [] => Err ValueError | _ => Ok (rmaximum l) end.
Definition vlistR (v : vec R) : list R := map (vat v) (zrange 0 (vlen v)).

(** ** find_tilt_roll_based_linear_fit, calibration.py:427-439.  [smooth] is ndimage.gaussian_filter1d(dist_list, 2) *)
Definition find_tilt_roll_based_linear_fit (atan2 : R -> R -> R) (smooth : vec R -> vec R) (x y : vec R) : res (R * R) :=
  let '(a, b) := polyfit_line x y in
  let dist := line_distance a b x y in
  do appr_major <- rmaxlist (flat_map (fun i => map (fun j => sqrt ((vat x i - vat x j) ^ 2 + (vat y i - vat y j) ^ 2))%R (prange (i + 1) (vlen x))) (zrange 0 (vlen x)));
  do top <- rmaxlist (vlistR (smooth dist));
  let appr_minor := (2 * top)%R in
  Ok (rad2deg (atan2 appr_minor appr_major), rad2deg (atan a)).
(** ** find_tilt_roll_based_ellipse_fit, calibration.py:461-468: None when the fit raises ValueError *)
Definition find_tilt_roll_based_ellipse_fit (atan2 : R -> R -> R) (svd_last : img R -> Z -> R) (x y : vec R) : res (option (R * R)) :=
  match fit_points_to_ellipse atan2 svd_last x y with
  | Ok f => Ok (Some (rad2deg (atan2 (fit_minor f) (fit_major f)), fit_roll f))
  | Err ValueError => Ok None
  | Err e => Err e
  end.
(** ** find_tilt_roll, calibration.py:492-512 *)
Inductive tilt_method := Linear | EllipseFit | OtherMethod.
Definition find_tilt_roll atan2 svd_last smooth (x y : vec R) (method : tilt_method) : res (R * R) :=
  if negb (vlen x =? vlen y) then Err ValueError else
  match method with
  | OtherMethod => Err ValueError
  | Linear => find_tilt_roll_based_linear_fit atan2 smooth x y
  | EllipseFit =>
      let '(a, b) := polyfit_line x y in
      do top <- rmaxlist (vlistR (smooth (line_distance a b x y)));
      if Rlt_dec top 1 then find_tilt_roll_based_linear_fit atan2 smooth x y else
      do r <- find_tilt_roll_based_ellipse_fit atan2 svd_last x y;
      match r with Some p => Ok p | None => find_tilt_roll_based_linear_fit atan2 smooth x y end
  end.

(** ** normalize_background and normalize_background_based_fft, calibration.py:58-63 and 89-104.
    [background] is the median-filtered or Gaussian-filtered image, already computed with the parameters of 58 or 89-99.
    [integer]: the background is an integer array (the median filter keeps the type of the image), so that the mean stored in
    place of the zeros (61, 102) is truncated.  A zero divisor gives inf or nan and a warning in the code, here ZeroDivisionError. *)
Definition rmean2 (m : img R) : R := (rsum2 (nrow m) (ncol m) (px m) / (IZR (nrow m) * IZR (ncol m)))%R.
Definition divisor (integer : bool) (background : img R) (i j : Z) : R :=
  let mean_val := rmean2 background in
  if Req_EM_T (px background i j) 0 then (if integer then IZR (rtrunc mean_val) else mean_val) else px background i j.
Definition divide_background (integer : bool) (mat background : img R) : res (img R) :=
  let mean_val := rmean2 background in
  if existsb (fun i => existsb (fun j => if Req_EM_T (divisor integer background i j) 0 then true else false) (zrange 0 (ncol mat))) (zrange 0 (nrow mat))
  then Err ZeroDivisionError else
  Ok (mkimg (nrow mat) (ncol mat) (fun i j => mean_val * px mat i j / divisor integer background i j)%R).
Definition normalize_background (integer : bool) (median_filter : img R -> Z -> img R) (mat : img R) (size : Z) : res (img R) :=
  divide_background integer mat (median_filter mat size).
(** sigma along x and y, 89-97 *)
Definition rceil (x : R) : Z := - Int_part (- x).
Definition fft_sigmas (height width : Z) (sigma : R) : R * R :=
  if height <=? width then (IZR (rceil (sigma / (IZR height / IZR width))), sigma)
  else (sigma, IZR (rceil (sigma / (IZR width / IZR height)))).
Definition normalize_background_based_fft (gaussian_filter : img R -> R -> R -> img R) (mat : img R) (sigma : R) : res (img R) :=
  let '(sx, sy) := fft_sigmas (nrow mat) (ncol mat) sigma in divide_background false mat (gaussian_filter mat sx sy).

(** ** invert_dot_contrast, calibration.py:121-126 *)
Definition invert_dot_contrast (mat : img R) : img R :=
  let ratio := (rsum2 (nrow mat) (ncol mat) (px mat) / (IZR (nrow mat * ncol mat)))%R in
  let mx := rmax2 mat in
  if Rlt_dec 0.5 ratio then imap (fun v => mx - v)%R mat else mat.

(** ** binarize_image, calibration.py:190-206.  [median3], [auto_threshold], [normalized] and [fill_holes] are
    ndimage.median_filter(., (3, 3)), calculate_threshold(., bgr), normalize_background_based_fft and ndimage.binary_fill_holes. *)
Definition rmin2 (m : img R) : R := (- rmax2 (imap Ropp m))%R.
Definition thresholded (mat : img R) (t : R) : img R := imap (fun v => if Rlt_dec t v then 1 else 0)%R mat.
Definition binarize_image (median3 : img R -> img R) (normalized : img R -> res (img R)) (auto_threshold : img R -> R) (fill_holes : img R -> img Z)
    (mat : img R) (threshold : option R) (norm denoise invert : bool) : res (img Z) :=
  let m1 := if denoise then median3 (imap Rabs mat) else mat in
  do m2 <- (if norm then normalized m1 else Ok m1);
  do t <- match threshold with
          | None => Ok (auto_threshold m2)
          | Some t => if Rlt_dec t (rmin2 m2) then Err ValueError else if Rlt_dec (rmax2 m2) t then Err ValueError else Ok t
          end;
  let m3 := thresholded m2 t in
  let m4 := if invert then invert_dot_contrast m3 else m3 in
  Ok (fill_holes m4).

(** ** get_dot_size, calibration.py:225-237.  [label m] is ndimage.label(m): labels and their number.
    Simplified: np.median is a parameter; no dots: np.min and np.max fail, np.median and np.mean give nan
    (not distinguished from the failure). *)
Inductive size_option := Median | Mean | Minimum | Maximum.   (* any other word counts as Maximum *)
Definition zsum2 (h w : Z) (f : Z -> Z -> Z) : Z :=
  fold_left Z.add (flat_map (fun i => map (f i) (zrange 0 w)) (zrange 0 h)) 0.
Definition dot_sum (m lab : img Z) (k : Z) : Z := zsum2 (nrow m) (ncol m) (fun i j => if px lab i j =? k then px m i j else 0).
Definition zmean (l : list Z) : R := (IZR (fold_left Z.add l 0%Z) / IZR (Z.of_nat (length l)))%R.
Definition get_dot_size (label : img Z -> img Z * Z) (median : list Z -> R) (m : img Z) (opt : size_option) : res R :=
  let '(lab, num) := label m in
  let sums := map (dot_sum m lab) (zrange 1 num) in
  match sums with
  | [] => Err ValueError
  | s :: rest => Ok match opt with
      | Median => median sums | Mean => zmean sums
      | Minimum => IZR (fold_left Z.min rest s) | Maximum => IZR (fold_left Z.max rest s) end
  end.
(** ** check_dot_size and select_dot_based_size, calibration.py:257-261, 283-293.  [find_objects lab num] gives, for labels 1 .. num,
    the bounding box (first row, end row, first column, end column), in that order. *)
Definition box := (Z * Z * Z * Z)%type.
Definition in_box (b : box) (i j : Z) : bool := let '(r0, r1, c0, c1) := b in (r0 <=? i) && (i <? r1) && (c0 <=? j) && (j <? c1).
Definition box_sum (m : img Z) (b : box) : Z := let '(r0, r1, c0, c1) := b in zsum2 (r1 - r0) (c1 - c0) (fun i j => px m (r0 + i) (c0 + j)).
Definition check_dot_size (m : img Z) (b : box) (min_size max_size : Z) : bool := (min_size <=? box_sum m b) && (box_sum m b <=? max_size).
Definition select_dot_based_size (label : img Z -> img Z * Z) (find_objects : img Z -> Z -> list box) (m : img Z) (dot_size ratio : R) : img Z :=
  let min_size := Z.max (rtrunc (dot_size - ratio * dot_size)) 1 in
  let max_size := Z.max (rtrunc (dot_size + ratio * dot_size)) 1 in
  let '(lab, num) := label m in
  let selected := filter (fun b => check_dot_size m b min_size max_size) (find_objects lab num) in
  mkimg (nrow m) (ncol m) (fun i j => if existsb (fun b => in_box b i j) selected then px m i j else 0).
(** ** calculate_distance, calibration.py:329-339; a selection without dots has no centre of mass: the code returns nan, here ZeroDivisionError *)
Definition center_of_mass (m : img Z) : res (R * R) :=
  let total := zsum2 (nrow m) (ncol m) (px m) in
  if total =? 0 then Err ZeroDivisionError else
  Ok (IZR (zsum2 (nrow m) (ncol m) (fun i j => (i * px m i j)%Z)) / IZR total, IZR (zsum2 (nrow m) (ncol m) (fun i j => (j * px m i j)%Z)) / IZR total)%R.
Definition calculate_distance (binarize : img R -> res (img Z)) (label : img Z -> img Z * Z) (find_objects : img Z -> Z -> list box)
    (median : list Z -> R) (opt : size_option) (mat1 mat2 : img R) : res R :=
  do b1 <- binarize mat1; do s1 <- get_dot_size label median b1 opt; let m1 := select_dot_based_size label find_objects b1 s1 (1 / 100) in
  do b2 <- binarize mat2; do s2 <- get_dot_size label median b2 opt; let m2 := select_dot_based_size label find_objects b2 s2 (1 / 100) in
  do c1 <- center_of_mass m1; do c2 <- center_of_mass m2;
  Ok (sqrt ((fst c1 - fst c2) ^ 2 + (snd c1 - snd c2) ^ 2))%R.
