(** Specifications for the correlation metric and the overlap search (C128). *)
From Coq Require Import Reals ZArith.
From Verif Require Import Np M_phase_R.
From Coq Require Import List. Import ListNotations.
Open Scope Z_scope.

Definition same_shape (a b : img R) : Prop := nrow a = nrow b /\ ncol a = ncol b.
(** the pixels of an image, column by column *)
Definition pixels (m : img R) : list R := flat_map (fun j => map (fun i => px m i j) (zrange 0 (nrow m))) (zrange 0 (ncol m)).
(** not all the pixels have the same value *)
Definition varied (m : img R) : Prop := exists i j i' j', in_rng (nrow m) i /\ in_rng (ncol m) j /\ in_rng (nrow m) i' /\ in_rng (ncol m) j' /\ px m i j <> px m i' j'.
(** [b] is [a] with the contrast multiplied by s and the brightness raised by t *)
Definition adjusted (s t : R) (a b : img R) : Prop := same_shape a b /\ forall i j, in_rng (nrow a) i -> in_rng (ncol a) j -> px b i j = (s * px a i j + t)%R.
Definition bright_copy (a b : img R) : Prop := exists s t, (0 < s)%R /\ adjusted s t a b.
(** the columns a .. a + n - 1 of an image *)
Definition strip (m : img R) (a n : Z) : img R := mkimg (nrow m) n (fun i j => px m i (a + j)).
(** [a] and [b] share [ov] columns, on the right of [a] and the left of [b] (side 1) or the other way round (side 0); g gives the value in [b] of a pixel of row i of [a] *)
Definition share (g : Z -> R -> R) (a b : img R) (ov side : Z) : Prop :=
  nrow a = nrow b /\ 0 <= ov /\ ov <= ncol a /\ ov <= ncol b /\
  forall i j, in_rng (nrow a) i -> 0 <= j < ov ->
    if side =? 1 then px b i j = g i (px a i (ncol a - ov + j)) else px b i (ncol b - ov + j) = g i (px a i j).
(** the part of the second image that is looked for, n columns wide *)
Definition searched (b : img R) (side n : Z) : img R := if side =? 1 then strip b 0 n else strip b (ncol b - n) n.
(** the mean of the absolute values of row i *)
Definition row_level (m : img R) (i : Z) : R := (rsum (ncol m) (fun j => Rabs (px m i j)) / IZR (ncol m))%R.
(** [a] with every row brought to the level of that row of [b] *)
Definition levelled (a b : img R) : img R := mkimg (nrow a) (ncol a) (fun i j => (px a i j * (row_level b i / row_level a i))%R).
(** the two strips blended into one: from the first into the second (side 1) or from the second into the first (side 0) *)
Definition blended (a b : img R) (side : Z) : img R :=
  let n := ncol a in
  mkimg (nrow a) n (fun i j => let t := (IZR j / IZR (n - 1))%R in if side =? 1 then (px a i j * (1 - t) + px b i j * t)%R else (px a i j * t + px b i j * (1 - t))%R).
(** one minus the correlation of the pixels of two images *)
Definition unlikeness (a b : img R) (coefficient : list (R * R) -> R) : R := (1 - coefficient (combine (pixels a) (pixels b)))%R.
(** how badly the strip [a] of the first image fits the strip [b] of the second one *)
Definition misfit (coefficient : list (R * R) -> R) (norm use_overlap : bool) (side : Z) (a0 b : img R) : R :=
  let a := if norm then levelled a0 b else a0 in
  let d x y := unlikeness x y coefficient in
  if use_overlap then ((d a b + d a (blended a b side) + d b (blended a b side)) / 3)%R else d a b.
