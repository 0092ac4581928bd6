(** Specification vocabulary for the speckle tracking by matching windows (UMPA); only the array types and sums of the model are used. *)
From Coq Require Import Reals ZArith.
From Verif Require Import Np M_corr S_corr.
Open Scope Z_scope.

(** mean of all pixels of a stack *)
Definition overall_mean (v : vol R) : R := (rsum3 (dep v) (hei v) (wid v) (vx v) / (IZR (dep v) * IZR (hei v) * IZR (wid v)))%R.
(** weighted sum of squares of what is left of the window of [mat] around (i, j) after subtracting k times the window of [ref]
    around (i + dy, j + dx) and b times the mean of [ref]; rows and columns of the windows are weighted with [taper] *)
Definition misfit (taper : Z -> R) (ref mat : vol R) (r i j dy dx : Z) (k b : R) : R :=
  rsum3 (dep ref) (2 * r + 1) (2 * r + 1) (fun q y x =>
    taper y * taper x * (vx mat q (i - r + y)%Z (j - r + x)%Z - (k * vx ref q (i + dy - r + y)%Z (j + dx - r + x)%Z + b * overall_mean ref)) ^ 2)%R.
(** the displacement (dy, dx) with factors k and b fits best; without dark signal only b = 0 is considered *)
Definition fits_best (dark : bool) (taper : Z -> R) (ref mat : vol R) (r margin i j dy dx : Z) (k b : R) : Prop :=
  - margin <= dy <= margin /\ - margin <= dx <= margin /\ (dark = false -> b = 0%R) /\
  forall dy' dx' k' b', - margin <= dy' <= margin -> - margin <= dx' <= margin -> (dark = false -> b' = 0%R) ->
    (misfit taper ref mat r i j dy dx k b <= misfit taper ref mat r i j dy' dx' k' b')%R.
(** no window of the reference is empty (with a dark signal: uniform) *)
Definition speckled (dark : bool) (ref : vol R) (r : Z) : Prop :=
  (dark = true -> overall_mean ref <> 0%R) /\
  forall i j, r <= i < hei ref - r -> r <= j < wid ref - r ->
    let uniform c := forall q y x, 0 <= q < dep ref -> 0 <= y < 2 * r + 1 -> 0 <= x < 2 * r + 1 -> vx ref q (i - r + y) (j - r + x) = c in
    if dark then forall c, ~ uniform c else ~ uniform 0%R.
(** [x], [y]: within one pixel (if [near]) of the displacement that fits best; [t], [v]: transmission and contrast of the best fit at
    a displacement nearest to (x, y) *)
Definition tracked (dark : bool) (taper : Z -> R) (ref mat : vol R) (r margin i j : Z) (near : Prop) (x y t v : R) : Prop :=
  (Rabs x <= IZR margin /\ Rabs y <= IZR margin)%R /\
  (exists dy dx k b, fits_best dark taper ref mat r margin i j dy dx k b /\ (near -> Rabs (x - IZR dx) < 1 /\ Rabs (y - IZR dy) < 1)%R) /\
  (dark = true -> exists dy dx k b,
     (- margin <= dy <= margin)%Z /\ (- margin <= dx <= margin)%Z /\ Rabs (x - IZR dx) <= 1 / 2 /\ Rabs (y - IZR dy) <= 1 / 2 /\
     (forall k' b', misfit taper ref mat r i j dy dx k b <= misfit taper ref mat r i j dy dx k' b') /\
     t = Rabs (k + b) /\ (k + b <> 0 -> v = Rabs (k / (k + b))))%R.
(** around pixel (i, j), the sample shows the pattern displaced by (dy, dx), with transmission t and contrast v *)
Definition shows (ref mat : vol R) (r i j dy dx : Z) (t v : R) : Prop :=
  forall q y x, 0 <= q < dep ref -> 0 <= y < 2 * r + 1 -> 0 <= x < 2 * r + 1 ->
    vx mat q (i - r + y) (j - r + x) = (t * (overall_mean ref + v * (vx ref q (i + dy - r + y)%Z (j + dx - r + x)%Z - overall_mean ref)))%R.
(** around pixel (i, j), the sample is k times the displaced reference plus b times its mean *)
Definition explains (ref mat : vol R) (r i j dy dx : Z) (k b : R) : Prop :=
  forall q y x, 0 <= q < dep ref -> 0 <= y < 2 * r + 1 -> 0 <= x < 2 * r + 1 ->
    vx mat q (i - r + y) (j - r + x) = (k * vx ref q (i + dy - r + y)%Z (j + dx - r + x)%Z + b * overall_mean ref)%R.
(** no other displacement explains the sample around pixel (i, j) *)
Definition only_there (dark : bool) (ref mat : vol R) (r margin i j dy dx : Z) : Prop :=
  forall dy' dx' k b, - margin <= dy' <= margin -> - margin <= dx' <= margin -> (dark = false -> b = 0%R) ->
    explains ref mat r i j dy' dx' k b -> dy' = dy /\ dx' = dx.
(** pixels with room for window and margin *)
Definition inner_pixel (ref : vol R) (e i j : Z) : Prop := e <= i < hei ref - e /\ e <= j < wid ref - e.
(** shift maps (zero where there is no room for the search) and, with a dark signal, transmission and dark-signal maps (continued outwards) *)
Definition tracked_maps (dark : bool) (taper : Z -> R) (ref mat : vol R) (r margin : Z) (near : Prop) (o : img R * img R * option (img R * img R)) : Prop :=
  let xs := fst (fst o) in let ys := snd (fst o) in let H := hei ref in let W := wid ref in let e := r + margin in
  (nrow xs = H /\ ncol xs = W) /\ (nrow ys = H /\ ncol ys = W) /\
  (forall i j, 0 <= i < H -> 0 <= j < W -> ~ inner_pixel ref e i j -> px xs i j = 0%R /\ px ys i j = 0%R) /\
  match snd o with
  | None => dark = false /\ forall i j, inner_pixel ref e i j -> tracked dark taper ref mat r margin i j near (px xs i j) (px ys i j) 1 1
  | Some (t, v) => dark = true /\ (nrow t = H /\ ncol t = W) /\ (nrow v = H /\ ncol v = W) /\
      (forall i j, inner_pixel ref e i j -> tracked dark taper ref mat r margin i j near (px xs i j) (px ys i j) (px t i j) (px v i j)) /\
      (forall i j, 0 <= i < H -> 0 <= j < W -> let i' := Z.max e (Z.min i (H - e - 1)) in let j' := Z.max e (Z.min j (W - e - 1)) in
         px t i j = px t i' j' /\ px v i j = px v i' j')
  end.
(** results that agree pixel by pixel *)
Definition same_maps (o o' : img R * img R * option (img R * img R)) : Prop :=
  img_eq (fst (fst o)) (fst (fst o')) /\ img_eq (snd (fst o)) (snd (fst o')) /\
  match snd o, snd o' with Some (t, v), Some (t', v') => img_eq t t' /\ img_eq v v' | None, None => True | _, _ => False end.
