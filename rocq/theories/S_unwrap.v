(** Specifications for the FFT-based phase unwrapping (C117). *)
From Coq Require Import Reals ZArith.
From Verif Require Import Np M_phase_R.
Open Scope Z_scope.

(** The two phase images differ by the constant c and, pixel by pixel, by whole turns *)
Definition congruent (c : R) (m m' : img R) : Prop :=
  nrow m' = nrow m /\ ncol m' = ncol m /\
  forall i j, in_rng (nrow m) i -> in_rng (ncol m) j -> exists k, px m' i j = (px m i j + c + 2 * PI * IZR k)%R.
Definition negated (m m' : img R) : Prop :=
  nrow m' = nrow m /\ ncol m' = ncol m /\ forall i j, in_rng (nrow m) i -> in_rng (ncol m) j -> px m' i j = (- px m i j)%R.
Definition upside_down (m c : img R) : Prop :=
  nrow c = nrow m /\ ncol c = ncol m /\ forall i j, in_rng (nrow c) i -> in_rng (ncol c) j -> px c i j = px m (nrow m - 1 - i) j.
Definition all_zero (m : img R) : Prop := forall i j, in_rng (nrow m) i -> in_rng (ncol m) j -> px m i j = 0%R.
(** The pixels of [M] have the phase t + x, the others the phase t *)
Definition two_level (t x : R) (M : Z -> Z -> bool) (m : img R) : Prop :=
  forall i j, in_rng (nrow m) i -> in_rng (ncol m) j -> px m i j = (if M i j then t + x else t)%R.
Definition average (m : img R) : R := (rsum (nrow m) (fun i => rsum (ncol m) (fun j => px m i j)) / (IZR (nrow m) * IZR (ncol m)))%R.
(** The height of a step of x after n rounds: each round adds the sine of what is missing *)
Fixpoint step_after (n : nat) (x : R) : R := match n with O => sin x | S k => (step_after k x + sin (x - step_after k x))%R end.
(** all pixels of the two images are within d of each other *)
Definition within (d : R) (m m' : img R) : Prop :=
  nrow m' = nrow m /\ ncol m' = ncol m /\ forall i j, in_rng (nrow m) i -> in_rng (ncol m) j -> (Rabs (px m' i j - px m i j) <= d)%R.
(** the image without its mean *)
Definition centred (m : img R) : img R := mkimg (nrow m) (ncol m) (fun i j => px m i j - average m)%R.
