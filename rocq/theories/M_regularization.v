(** Real-number model of the regularisation matrix and of the profile correction it gives:
    util.calculate_regularization_coefficient (utility.py:382-413) and removal.py:568-581 (apply_log=False). *)
From Coq Require Import Reals ZArith.
Open Scope R_scope.

Fixpoint rsum (n : nat) (f : Z -> R) : R := match n with O => 0 | S k => rsum k f + f (Z.of_nat k) end.
(** utility.py:403-413 *)
Definition reg_tau (alpha : R) : R := 2 * arcsinh (sqrt alpha * / 2).
Definition calculate_regularization_coefficient (width : Z) (alpha : R) (i j : Z) : R :=
  let tau := reg_tau alpha in
  let mat1a := cosh (IZR (width - 1 - Z.abs (i - j)) * tau) in
  let mat2a := cosh (IZR (width - (i + j)) * tau) in
  - (tanh (/ 2 * tau) / (alpha * sinh (IZR width * tau))) * (mat1a + mat2a).
(** removal.py:576-578 *)
Definition list_grad (n : Z) (m : Z -> R) (j : Z) : R :=
  if Z.eqb j 0 then m 0%Z - m 1%Z
  else if Z.eqb j (n - 1) then m (n - 1)%Z - m (n - 2)%Z
  else - (m (j + 1)%Z - m j - (m j - m (j - 1)%Z)).
(** removal.py:579-580 *)
Definition profile_correction (n : Z) (alpha : R) (m : Z -> R) (i : Z) : R :=
  rsum (Z.to_nat n) (fun j => list_grad n m j * calculate_regularization_coefficient n alpha i j).
