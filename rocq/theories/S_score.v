(** Specification of the slice metrics. *)
From Coq Require Import Reals ZArith.
From Verif Require Import Np.
From Coq Require Import List. Import ListNotations.
Open Scope Z_scope.

(** 8-bit grey level of a value between 0 and 1 *)
Definition grey_level (v : R) (g : Z) : Prop := (IZR g <= 255 * v < IZR g + 1)%R.
(** [n] pixels of the image have grey level [g] *)
Definition pixels_of_level (m : img R) (g n : Z) : Prop :=
  exists l : list (Z * Z), NoDup l /\ Z.of_nat (length l) = n /\
    forall i j, In (i, j) l <-> in_rng (nrow m) i /\ in_rng (ncol m) j /\ grey_level (px m i j) g.
Definition unit_range (m : img R) : Prop :=
  forall i j, in_rng (nrow m) i -> in_rng (ncol m) j -> (0 <= px m i j <= 1)%R.
(** all pixels have the grey level g *)
Definition uniform_level (m : img R) (g : Z) : Prop :=
  forall i j, in_rng (nrow m) i -> in_rng (ncol m) j -> grey_level (px m i j) g.
(** all pixels are equal *)
Definition blank (m : img R) : Prop :=
  forall i j i' j', in_rng (nrow m) i -> in_rng (ncol m) j -> in_rng (nrow m) i' -> in_rng (ncol m) j' -> px m i j = px m i' j'.
