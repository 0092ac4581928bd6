(** What deconvolution is about: a sharp image, a point spread function and its modulation transfer function. *)
From Coq Require Import Reals ZArith.
From Verif Require Import Np M_phase_R.
Open Scope Z_scope.

(** the point spread function looks the same from both sides *)
Definition symmetric_psf (h w : Z) (psf : Z -> Z -> R) : Prop :=
  forall d e, in_rng h d -> in_rng w e -> psf ((- d) mod h) ((- e) mod w) = psf d e.
(** every pixel of the blurred image collects the light of the pixels around it; the image is continued periodically *)
Definition blurred_by (psf : Z -> Z -> R) (sharp blurred : img R) : Prop :=
  nrow blurred = nrow sharp /\ ncol blurred = ncol sharp /\
  forall i j, in_rng (nrow sharp) i -> in_rng (ncol sharp) j ->
    px blurred i j = rsum (nrow sharp) (fun d => rsum (ncol sharp) (fun e =>
      (psf d e * px sharp ((i - d) mod nrow sharp) ((j - e) mod ncol sharp))%R)).
(** the window is the transfer function of the point spread function; frequency 0 is at row h/2 and column w/2 *)
Definition mtf_of (psf : Z -> Z -> R) (window : img R) : Prop :=
  let h := nrow window in let w := ncol window in
  forall i j, in_rng h i -> in_rng w j ->
    px window i j = rsum h (fun d => rsum w (fun e =>
      (psf d e * cos (2 * PI * (IZR ((i - h / 2) * d) / IZR h + IZR ((j - w / 2) * e) / IZR w)))%R)).
(** no frequency is lost *)
Definition no_zeros (window : img R) : Prop := forall i j, in_rng (nrow window) i -> in_rng (ncol window) j -> px window i j <> 0%R.
Definition same_image (a b : img R) : Prop :=
  nrow a = nrow b /\ ncol a = ncol b /\ forall i j, in_rng (nrow a) i -> in_rng (ncol a) j -> px a i j = px b i j.
