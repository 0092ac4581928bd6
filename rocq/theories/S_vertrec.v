(** Specification vocabulary for the vertical reconstruction functions (C54, C56, C88). *)
From Verif Require Import Np M_recon M_vertrec S_backproj S_recon.
From Coq Require Import QArith Qround.
From Coq Require Import List. Import ListNotations.
Open Scope Z_scope.

(** a detector value [v] at pixel (i, j) of the full image after the optional flat-field correction: a missing flat
    counts as 1, a missing dark as 0, and a difference of zero as 1 *)
Definition normalised (flat dark : option (img Q)) (i j : Z) (v : Q) : Q :=
  match flat, dark with
  | None, None => v
  | _, _ =>
      let f := match flat with Some m => px m i j | None => 1%Q end in
      let d := match dark with Some m => px m i j | None => 0%Q end in
      ((v - d) / (if Qeq_bool (f - d) 0 then 1 else f - d))%Q
  end.
(** the optional logarithm; a value that is not positive counts as 1 *)
Definition logged (apply_log : bool) (neglog : Q -> Q) (v : Q) : Q :=
  if apply_log then neglog (if Qle_bool v 0 then 1%Q else v) else v.
(** the cropped size *)
Definition crop_top (c : Z * Z * Z * Z) : Z := let '(t, _, _, _) := c in t.
Definition crop_left (c : Z * Z * Z * Z) : Z := let '(_, _, l, _) := c in l.
Definition cropped_height (c : Z * Z * Z * Z) (h : Z) : Z := let '(t, b, _, _) := c in h - t - b.
Definition cropped_width (c : Z * Z * Z * Z) (w : Z) : Z := let '(_, _, l, r) := c in w - l - r.
Definition no_negative_crop (c : Z * Z * Z * Z) : Prop := let '(t, b, l, r) := c in 0 <= t /\ 0 <= b /\ 0 <= l /\ 0 <= r.
(** columns kept by the optional mask: the 2 r columns in the middle, r the whole part of the distance from the rotation
    axis to the nearest side *)
Definition kept_column (width : Z) (center : Q) (j : Z) : bool :=
  let r := Qfloor (if Qle_bool center (inject_Z width - center) then center else inject_Z width - center) in
  ((width - 2 * r) / 2 <=? j) && (j <? (width - 2 * r) / 2 + 2 * r).

Section spec.
Context (cosf sinf neglog : Q -> Q) (pi : Q).
Context {window name mode : Type}.
Notation vargs := (vargs window name mode).
Context (wshape : window -> Z * Z) (make_2d_ramp_window : Z -> Z -> name -> window) (wabs : window -> window).
Context (np_pad_cols : img Q -> Z -> mode -> img Q) (fft_filter_rows fft_filter_ver : img Q -> window -> img Q).

Definition last_projection (o : vargs) (p : vol Q) : Z := if proj_stop o =? -1 then dep p else proj_stop o.
Definition projections_used (o : vargs) (p : vol Q) : Z := last_projection o p - proj_start o.
Definition slice_height (o : vargs) (p : vol Q) : Z := cropped_height (crop o) (hei p).
Definition slice_width (o : vargs) (p : vol Q) : Z := cropped_width (crop o) (wid p).
(** number of pixels added on either side before filtering *)
Definition side_pixels (o : vargs) (p : vol Q) : Z :=
  match pad o with Some n => n | None => Z.min (Qfloor ((15#100) * inject_Z (slice_width o p))) 150 end.
(** arguments the documentation allows *)
Record valid (o : vargs) (p : vol Q) : Prop := {
  v_start : 0 <= proj_start o;
  v_stop : last_projection o p <= dep p;
  v_two : 2 <= projections_used o p;
  v_crop : no_negative_crop (crop o);
  v_height : 1 <= slice_height o p;
  v_width : 1 <= slice_width o p;
  v_center : (0 <= center o)%Q /\ (center o <= inject_Z (slice_width o p - 1))%Q;
  v_angles : forall v, angles o = Some v -> vlen v = projections_used o p;
  v_flat : forall m, flat_field o = Some m -> nrow m = hei p /\ ncol m = wid p;
  v_dark : forall m, dark_field o = Some m -> nrow m = hei p /\ ncol m = wid p;
  v_pad : forall n, pad o = Some n -> 0 <= n;
  v_block : 1 <= fst (block o) /\ 1 <= snd (block o) }.
(** projection number n of the used range: cropped, normalised, logged *)
Definition prepared (o : vargs) (p : vol Q) (n : Z) : img Q :=
  mkimg (slice_height o p) (slice_width o p) (fun i j =>
    let i' := crop_top (crop o) + i in let j' := crop_left (crop o) + j in
    logged (apply_log o) neglog (normalised (flat_field o) (dark_field o) i' j' (vx p (proj_start o + n) i' j'))).
(** ... and ramp-filtered when the filter comes before the back-projection (apply_ramp_filter is the filter of the
    FBP method, with the window made for the cropped, padded size) *)
Definition projected (o : vargs) (p : vol Q) (n : Z) : img Q :=
  match ramp_filter o with
  | Before => apply_ramp_filter wshape make_2d_ramp_window np_pad_cols fft_filter_rows (prepared o p n)
                (Some (make_2d_ramp_window (slice_height o p) (slice_width o p + 2 * side_pixels o p) (filter_name o)))
                (filter_name o) (Some (side_pixels o p)) (pad_mode o)
  | _ => prepared o p n
  end.
(** outside the detector: the edge pixel, or nothing if the projections were filtered *)
Definition extends_edge (o : vargs) : bool := match ramp_filter o with Before => false | _ => true end.
(** the angle of projection n: given, or equally spaced from 0 to pi *)
Definition angle_of (o : vargs) (p : vol Q) (n : Z) : Q := vat (used_angles pi (projections_used o p) (angles o)) n.
(** pixel (row i, point (x, y)) of the back-projected slice: every projection once, with its own angle *)
Definition all_projections (o : vargs) (p : vol Q) (i : Z) (x y : Q) : Q :=
  sum_over (fun n => detector_value (extends_edge o) (slice_width o p) (px (projected o p n) i)
                       (seen_at (cosf (angle_of o p n)) (sinf (angle_of o p n)) (center o) x y))
           (zrange 0 (projections_used o p)).
(** the ramp filter after the back-projection: pad, filter, cut the middle *)
Definition filtered_after (o : vargs) (p : vol Q) (m : img Q) : img Q :=
  match ramp_filter o with
  | After =>
      let s := side_pixels o p in
      let f := fft_filter_ver (np_pad_cols m s (pad_mode o)) (wabs (make_2d_ramp_window (slice_height o p) (slice_width o p + 2 * s) (filter_name o))) in
      mkimg (nrow m) (slice_width o p) (fun i j => px f i (s + j))
  | _ => m
  end.
(** the slice through the points (xs, ys), computed from all projections at once *)
Definition slice_through (o : vargs) (p : vol Q) (xs ys : vec Q) : img Q :=
  let f := filtered_after o p (mkimg (slice_height o p) (slice_width o p) (fun i j => all_projections o p i (vat xs j) (vat ys j))) in
  mkimg (slice_height o p) (slice_width o p) (fun i j =>
    (px f i j * (if masking o then (if kept_column (slice_width o p) (center o) j then 1 else 0) else 1)
     * pi / inject_Z (projections_used o p - 1))%Q).
End spec.
(** the same request with another way of computing *)
Definition with_compute {window name mode} (o : vargs window name mode) (chunk : option Z) (device : bool) (blk : Z * Z)
  : vargs window name mode :=
  mkvargs _ _ _ (center o) (angles o) (flat_field o) (dark_field o) (crop o) (proj_start o) (proj_stop o) chunk (ramp_filter o)
    (filter_name o) (pad o) (pad_mode o) (apply_log o) device blk (masking o).
(** what is assumed of np.pad: the width, and that the values depend on the values only *)
Definition pads_sides {mode} (f : img Q -> Z -> mode -> img Q) : Prop :=
  pads_columns f /\ (forall m m' p md, 0 <= p -> img_Qeq m m' -> img_Qeq (f m p md) (f m' p md)).
(** joblib may finish the n filter tasks of a chunk in any order *)
Definition any_order (orders : Z -> Z -> list Z) : Prop := forall k n, schedule (zrange 0 n) (orders k n).
(** the point generator returns [width] points *)
Definition gives_points (points : Q -> Q -> Z -> res (vec Q * vec Q)) : Prop :=
  forall idx alpha width xs ys, points idx alpha width = Ok (xs, ys) -> vlen xs = width /\ vlen ys = width.
(** slice number s of a volume *)
Definition slice_of (v : vol Q) (s : Z) : img Q := mkimg (hei v) (wid v) (fun i j => vx v s i j).
(** what makes the arguments unacceptable *)
Definition wrong_arguments {window name mode} (o : vargs window name mode) (p : vol Q) : Prop :=
  projections_used o p < 1 \/
  (exists v, angles o = Some v /\ vlen v <> projections_used o p) \/
  slice_height o p < 1 \/ slice_width o p < 1 \/
  (center o < 0)%Q \/ (inject_Z (slice_width o p - 1) < center o)%Q \/
  (exists m, (flat_field o = Some m \/ dark_field o = Some m) /\ (nrow m <> hei p \/ ncol m <> wid p)).
