(** Specifications for phase correlation (C111). *)
From Coq Require Import Reals ZArith.
From Verif Require Import Np M_phase_R.
Open Scope Z_scope.

(** [a] is [b] moved s rows down and t columns to the right, cyclically *)
Definition moved (a b : img R) (s t : Z) : Prop :=
  nrow a = nrow b /\ ncol a = ncol b /\
  forall i j, in_rng (nrow a) i -> in_rng (ncol a) j -> px a i j = px b ((i - s) mod nrow b) ((j - t) mod ncol b).
(** frequency (u, v) of a complex image of h rows and w columns given by its real and imaginary part *)
Definition frequency (h w : Z) (re im : Z -> Z -> R) (u v : Z) : R * R :=
  let phase a b := (2 * PI * (IZR (u * a) / IZR h + IZR (v * b) / IZR w))%R in
  (rsum h (fun a => rsum w (fun b => re a b * cos (phase a b) + im a b * sin (phase a b)))%R,
   rsum h (fun a => rsum w (fun b => im a b * cos (phase a b) - re a b * sin (phase a b)))%R).
(** it has two neighbouring frequencies in both directions *)
Definition rich (h w : Z) (re im : Z -> Z -> R) : Prop :=
  let present u v := frequency h w re im u v <> (0%R, 0%R) in
  (exists u v, in_rng h u /\ in_rng w v /\ present u v /\ present ((u + 1) mod h) v) /\
  (exists u v, in_rng h u /\ in_rng w v /\ present u v /\ present u ((v + 1) mod w)).
Definition rich_image (m : img R) : Prop := rich (nrow m) (ncol m) (px m) (fun _ _ => 0%R).
(** the same for its (cyclic) differences over two pixels *)
Definition rich_differences (m : img R) : Prop :=
  rich (nrow m) (ncol m) (fun i j => px m i ((j + 2) mod ncol m) - px m i j)%R (fun i j => px m ((i + 2) mod nrow m) j - px m i j)%R.
(** uniform background in the outer four rows and columns *)
Definition flat_border (m : img R) : Prop :=
  exists k, forall i j, in_rng (nrow m) i -> in_rng (ncol m) j ->
    i < 4 \/ nrow m - 4 <= i \/ j < 4 \/ ncol m - 4 <= j -> px m i j = k.
(** the shortest of the displacements that are s modulo n; half the length counts as positive *)
Definition shortest (n s s' : Z) : Prop := (s' - s) mod n = 0 /\ - n < 2 * s' <= n.
(** [a] is the mirror image of [b] about the vertical axis at column c2 / 2, cyclically *)
Definition mirror_image (a b : img R) (c2 : Z) : Prop :=
  nrow a = nrow b /\ ncol a = ncol b /\ forall i j, in_rng (nrow a) i -> in_rng (ncol a) j -> px a i j = px b i ((c2 - j) mod ncol a).
(** the top (or bottom) of the parabola through the values v0, v1, v2 at x - 1, x, x + 1; [x] itself if the three values are on a line or the
    top is further away than the neighbours *)
Definition parabola_top (x : Z) (v0 v1 v2 t : R) : Prop :=
  exists a b c, (let p z := a * z ^ 2 + b * z + c in p (IZR x - 1) = v0 /\ p (IZR x) = v1 /\ p (IZR x + 1) = v2)%R /\
    ((a <> 0 /\ 2 * a * t + b = 0 /\ IZR x - 1 <= t <= IZR x + 1) \/
     ((a = 0 \/ (forall z, 2 * a * z + b = 0 -> ~ (IZR x - 1 <= z <= IZR x + 1))) /\ t = IZR x))%R.
