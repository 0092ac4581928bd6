(** Specifications for direct Fourier inversion (C100-C102), independent of the model's helpers. *)
From Coq Require Import Reals Lra ZArith Lia.
From Verif Require Import Np M_phase_R.
Open Scope Z_scope.

(** parallel-beam projections of width [w] as a function of the angle: opposite views are mirror images *)
Definition parallel_views (w : Z) (view : R -> Z -> R) : Prop :=
  forall angle x, in_rng w x -> view (angle + PI)%R x = view angle (w - 1 - x).
(** the sinogram [m] holds the views at the given angles *)
Definition views_at (view : R -> Z -> R) (angle : Z -> R) (m : img R) : Prop :=
  forall i x, in_rng (nrow m) i -> in_rng (ncol m) x -> px m i x = view (angle i) x.
(** shifting down by a whole number of rows: a row that would come from outside is taken from the other end; the image repeats
    with period (number of rows - 1), that is, its last row stands for its first one *)
Definition from_row (n i : Z) : Z := if i <? 0 then i + (n - 1) * (- i / (n - 1) + 1) else if n - 1 <? i then i - (n - 1) * (i / (n - 1)) else i.
Definition shifts_rows (shift : img R -> R -> img R) : Prop :=
  forall m s, 2 <= nrow m -> nrow (shift m (IZR s)) = nrow m /\ ncol (shift m (IZR s)) = ncol m /\
    forall i j, in_rng (nrow m) i -> in_rng (ncol m) j -> px (shift m (IZR s)) i j = px m (from_row (nrow m) (i - s)) j.
Definition keeps_size (shift : img R -> R -> img R) : Prop := forall m s, nrow (shift m s) = nrow m /\ ncol (shift m s) = ncol m.

(** ** centred spectra: frequency (i - c, j - c) of an image with 2 c + 1 rows and columns, frequency k - c of every row *)
Definition image_spectrum (c : Z) (m : img R) (i j : Z) : R * R :=
  let phase a b := (2 * PI * IZR ((i - c) * (a - c) + (j - c) * (b - c)) / IZR (2 * c + 1))%R in
  (rsum (2 * c + 1) (fun a => rsum (2 * c + 1) (fun b => px m a b * cos (phase a b)))%R,
   (- rsum (2 * c + 1) (fun a => rsum (2 * c + 1) (fun b => px m a b * sin (phase a b))))%R).
Definition view_spectrum (c : Z) (m : img R) (t k : Z) : R * R :=
  let phase b := (2 * PI * IZR ((k - c) * (b - c)) / IZR (2 * c + 1))%R in
  (rsum (2 * c + 1) (fun b => px m t b * cos (phase b))%R, (- rsum (2 * c + 1) (fun b => px m t b * sin (phase b)))%R).
Definition in_circle (c i j : Z) : Prop := (i - c) * (i - c) + (j - c) * (j - c) <= c * c.
(** the position (r, t) in the spectra of [h] views at angles 0 .. pi is the pixel (i, j) of the spectrum of the image: radius r - c
    along the view at angle t pi / (h - 1), x to the right and y upwards *)
Definition same_frequency (c h : Z) (r t : R) (i j : Z) : Prop :=
  let angle := (t * PI / (IZR h - 1))%R in
  ((r - IZR c) * cos angle = IZR (j - c) /\ (r - IZR c) * sin angle = IZR (c - i))%R.
(** the sinogram is that of the image: interpolated between its views, the spectrum has the value of the image's spectrum at every
    pixel in the circle (Fourier slice theorem with perfect interpolation) *)
Definition slices_of_image (interp : img R -> R -> R -> R) (c : Z) (sino image : img R) : Prop :=
  forall re im, (nrow re = nrow sino /\ ncol re = 2 * c + 1 /\ nrow im = nrow sino /\ ncol im = 2 * c + 1) ->
    (forall t k, in_rng (nrow sino) t -> in_rng (2 * c + 1) k -> (px re t k, px im t k) = view_spectrum c sino t k) ->
  forall i j r t, in_rng (2 * c + 1) i -> in_rng (2 * c + 1) j -> in_circle c i j ->
    (0 <= r <= IZR (2 * c))%R -> (0 <= t <= IZR (nrow sino) - 1)%R -> same_frequency c (nrow sino) r t i j ->
    (interp re r t, interp im r t) = image_spectrum c image i j.
(** no frequency outside the circle *)
Definition band_limited (c : Z) (image : img R) : Prop :=
  forall i j, in_rng (2 * c + 1) i -> in_rng (2 * c + 1) j -> ~ in_circle c i j -> image_spectrum c image i j = (0%R, 0%R).
(** ** for the whole reconstruction *)
(** the interpolation looks at the pixels of the image only *)
Definition reads_pixels (interp : img R -> R -> R -> R) : Prop := forall m m' r t, img_eq m m' -> interp m r t = interp m' r t.
Definition no_shift (shift : img R -> R -> img R) : Prop := forall m, img_eq (shift m 0%R) m.
(** the width of a sinogram after a column has been appended to make it odd *)
Definition odd_width (w : Z) : Z := if w mod 2 =? 0 then w + 1 else w.
(** [m], with its last column repeated if its width is even, moved so that the rotation axis is in the middle *)
Definition centred_rows (shift : img R -> R -> img R) (center : R) (m : img R) : img R :=
  let w := odd_width (ncol m) in
  shift (mkimg (nrow m) w (fun i j => px m i (if j <? ncol m then j else ncol m - 1))) ((IZR w - 1) / 2 - center)%R.
(** a shift looks at the pixels of the image only *)
Definition moves_pixels (shift : img R -> R -> img R) : Prop := forall m m' s, img_eq m m' -> img_eq (shift m s) (shift m' s).
(** the sinogram as reconstructed when the rotation axis is in the middle: made odd by repeating the last column, [p] columns added on
    both sides (the border column, or zeros), then, if asked for, minus the logarithm, values that are not positive counting as 1 *)
Definition prepared (zeros : bool) (p : Z) (apply_log : bool) (m : img R) : img R :=
  let w := odd_width (ncol m) in
  let value i j :=
    if j <? p then (if zeros then 0%R else px m i 0)
    else if j <? p + ncol m then px m i (j - p)
    else if j <? p + w then px m i (ncol m - 1)
    else (if zeros then 0%R else px m i (ncol m - 1)) in
  mkimg (nrow m) (w + 2 * p) (fun i j =>
    if apply_log then (if Rle_dec (value i j) 0 then 0%R else (- ln (value i j))%R) else value i j).
