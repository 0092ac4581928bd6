(** Specification vocabulary for the regularisation filter (C123). *)
From Coq Require Import Reals.
From Verif Require Import Np.
Open Scope Z_scope.

(** sum over 0 .. n-1 *)
Fixpoint total (n : nat) (f : Z -> R) : R := match n with O => 0%R | S k => (total k f + f (Z.of_nat k))%R end.
(** the regularisation problem of a line of n points: stay close to the data [p] (weight alpha) and vary little from point to point *)
Definition energy (n : Z) (alpha : R) (p x : Z -> R) : R :=
  (alpha * total (Z.to_nat n) (fun i => (x i - p i) * (x i - p i)) + total (Z.to_nat (n - 1)) (fun i => (x (i + 1)%Z - x i) * (x (i + 1)%Z - x i)))%R.
Definition regularised (n : Z) (alpha : R) (p x : Z -> R) : Prop := forall y, (energy n alpha p x <= energy n alpha p y)%R.
(** the image a * m1 + b * m2 *)
Definition combined (a b : R) (m1 m2 : img R) : img R := mkimg (nrow m1) (ncol m1) (fun i j => (a * px m1 i j + b * px m2 i j)%R).
