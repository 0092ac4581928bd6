(** Specifications for the double-wedge filter (C127). *)
From Coq Require Import Reals ZArith.
From Verif Require Import Np M_phase_R.
Open Scope Z_scope.

(** the whole number at or above x *)
Definition ceiling (x : R) (n : Z) : Prop := (IZR n - 1 < x <= IZR n)%R.
(** the half-width of the wedge k rows away from the row of zero frequency, in exact arithmetic *)
Definition wedge_line (height width : Z) (radius : R) (k : Z) : R :=
  (IZR k * (IZR height - 1) * IZR width / (2 * PI * IZR height * radius))%R.
(** the values of column j added up *)
Definition column_sum (m : img R) (j : Z) : R := rsum (nrow m) (fun i => px m i j).
(** all the rows are the same *)
Definition equal_rows (m : img R) : Prop := forall i i' j, in_rng (nrow m) i -> in_rng (nrow m) i' -> in_rng (ncol m) j -> px m i j = px m i' j.
(** the weight a mask with zero frequency in its middle gives to the frequency (u, v) *)
Definition weight (mask : img R) (u v : Z) : R := px mask (nrow mask / 2 + u) (ncol mask / 2 + v).
(** the frequency (u, v) and its opposite are both in the mask *)
Definition inside (height width u v : Z) : Prop := - height < 2 * u < height /\ - width < 2 * v < width.
