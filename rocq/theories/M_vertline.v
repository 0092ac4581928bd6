(** Model of /repo/algotom/rec/vertrec.py:338-447: the points of the vertical slices, over the real numbers
    (exact cos, sin, tan, pi; no rounding). *)
From Coq Require Import Reals ZArith.
From Verif Require Import Np.
From Coq Require Import List. Import ListNotations.
Open Scope R_scope.

(** np.ceil(0.5 * (width - 1)) (361): the ceiling of half an integer *)
Definition line_center (width : Z) : Z := (- ((- (width - 1)) / 2))%Z.
(** np.arange(- center, width - center) (362-363, 373, 381) *)
Definition line_steps (width : Z) : vec R := mkvec width (fun k => IZR (- line_center width + k)%Z).
(** _get_points_single_line, 338-384; alpha in degrees.  The tests [angle <= 45] and [angle <= 90] (369, 377) compare the
    angle in radians, as in the code *)
Definition get_points_single_line (slice_index alpha : R) (width : Z) : res (vec R * vec R) :=
  if Rlt_dec alpha 0 then Err ValueError else if Rlt_dec 180 alpha then Err ValueError else
  if Rlt_dec slice_index 0 then Err ValueError else if Rlt_dec (IZR (width - 1)) slice_index then Err ValueError else
  let center := IZR (line_center width) in
  let angle := alpha * PI / 180 in
  let x0 := slice_index - center in
  let t := line_steps width in
  if (if Rle_dec alpha 45 then true else if Rle_dec 135 alpha then true else false) then
    let a_fact := tan angle in
    let b_fact := if Rle_dec angle 45 then - x0 / cos angle else x0 / cos angle in
    let xcr := - a_fact * b_fact / (1 + a_fact * a_fact) in
    let xlist := fun k => xcr + vat t k * cos angle in
    Ok (mkvec width xlist, mkvec width (fun k => a_fact * xlist k + b_fact))
  else
    let a_fact := cos angle / sin angle in
    let b_fact := if Rle_dec angle 90 then x0 / sin angle else - x0 / sin angle in
    let ycr := - a_fact * b_fact / (1 + a_fact * a_fact) in
    let ylist := fun k => ycr + vat t k * sin angle in
    Ok (mkvec width (fun k => a_fact * ylist k + b_fact), mkvec width ylist).
(** _get_points_multiple_lines, 387-418, for integer arguments; one row per line *)
Definition get_points_multiple_lines (start stop : Z) (alpha : R) (width step : Z) : res (list (vec R * vec R)) :=
  do ids <- prange_step_r start (stop + 1) step;
  mapr (fun i => get_points_single_line (IZR i) alpha width) ids.
(** _get_points_multiple_lines_different_angles, 421-447 (the lengths are checked by the caller, 1054) *)
Definition get_points_multiple_lines_different_angles (ids alphas : list R) (width : Z) : res (list (vec R * vec R)) :=
  mapr (fun ia => get_points_single_line (fst ia) (snd ia) width) (combine ids alphas).
