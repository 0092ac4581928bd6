(** Specifications for the Fresnel filter (C112). *)
From Coq Require Import Reals ZArith.
From Verif Require Import Np M_phase_R.
Open Scope Z_scope.

Definition positive (m : img R) : Prop := forall i j, in_rng (nrow m) i -> in_rng (ncol m) j -> (0 < px m i j)%R.
(** [c] is a times [m] plus b times [n], pixel by pixel *)
Definition combination (a b : R) (m n c : img R) : Prop :=
  nrow m = nrow n /\ ncol m = ncol n /\ nrow c = nrow m /\ ncol c = ncol m /\
  forall i j, in_rng (nrow c) i -> in_rng (ncol c) j -> px c i j = (a * px m i j + b * px n i j)%R.
(** [c] is a times [m] *)
Definition multiple (a : R) (m c : img R) : Prop :=
  nrow c = nrow m /\ ncol c = ncol m /\ forall i j, in_rng (nrow c) i -> in_rng (ncol c) j -> px c i j = (a * px m i j)%R.
(** mirrored left to right, turned by half a turn, transposed *)
Definition mirrored (m c : img R) : Prop :=
  nrow c = nrow m /\ ncol c = ncol m /\ forall i j, in_rng (nrow c) i -> in_rng (ncol c) j -> px c i j = px m i (ncol m - 1 - j).
Definition half_turned (m c : img R) : Prop :=
  nrow c = nrow m /\ ncol c = ncol m /\ forall i j, in_rng (nrow c) i -> in_rng (ncol c) j -> px c i j = px m (nrow m - 1 - i) (ncol m - 1 - j).
Definition transposed (m c : img R) : Prop :=
  nrow c = ncol m /\ ncol c = nrow m /\ forall i j, in_rng (nrow c) i -> in_rng (ncol c) j -> px c i j = px m j i.
(** a cosine with u periods over the height and v periods over the width *)
Definition is_wave (m : img R) (u v : Z) (amplitude phase : R) : Prop :=
  forall i j, in_rng (nrow m) i -> in_rng (ncol m) j ->
    px m i j = (amplitude * cos (2 * PI * (IZR (u * i) / IZR (nrow m) + IZR (v * j) / IZR (ncol m)) + phase))%R.
(** every row is a cosine with v periods over the width *)
Definition rows_are_waves (m : img R) (v : Z) (amplitude phase : Z -> R) : Prop :=
  forall i j, in_rng (nrow m) i -> in_rng (ncol m) j ->
    px m i j = (amplitude i * cos (2 * PI * (IZR (v * j) / IZR (ncol m)) + phase i))%R.
