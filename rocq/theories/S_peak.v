(** Specification of a sub-pixel maximum along a line. *)
From Coq Require Import Reals ZArith.
Open Scope R_scope.
(** v refines the largest sample p of the n samples f: the vertex of the parabola through the samples p - 1, p, p + 1, or p itself
    where p has only one neighbour *)
Definition refined_maximum (f : Z -> R) (n p : Z) (v : R) : Prop :=
  ((0 < p < n - 1)%Z -> exists a b c, (forall k, (p - 1 <= k <= p + 1)%Z -> f k = a * (IZR k * IZR k) + b * IZR k + c) /\ a <> 0 /\ 2 * a * v + b = 0) /\
  (~ (0 < p < n - 1)%Z -> v = IZR p).
