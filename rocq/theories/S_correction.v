(** Specification vocabulary for correction.py, independent of the model. *)
From Verif Require Import Np.
From Coq Require Import QArith.
From Coq Require Import List. Import ListNotations.
Open Scope Z_scope.

(** [v] is the bilinear interpolation of [m] at row [y], column [x] (inside the image) *)
Definition interpolates (m : img Q) (y x v : Q) : Prop :=
  exists i j ty tx, in_rng (nrow m) i /\ in_rng (ncol m) j /\
    (0 <= ty < 1)%Q /\ (0 <= tx < 1)%Q /\ (y == inject_Z i + ty)%Q /\ (x == inject_Z j + tx)%Q /\
    (i = nrow m - 1 -> (ty == 0)%Q) /\ (j = ncol m - 1 -> (tx == 0)%Q) /\
    (v == (1 - ty) * ((1 - tx) * px m i j + tx * px m i (j + 1)%Z) + ty * ((1 - tx) * px m (i + 1)%Z j + tx * px m (i + 1)%Z (j + 1)%Z))%Q.
(** nearest point of [0, n-1] *)
Definition into (n : Z) (q : Q) : Q := if Qle_bool q 0 then 0%Q else if Qle_bool (inject_Z (n - 1)) q then inject_Z (n - 1) else q.
(** c0 + c1 r + c2 r^2 + ... *)
Definition polynomial (coefs : list Q) (r : Q) : Q :=
  qsum (Z.of_nat (length coefs)) (fun k => (nth (Z.to_nat k) coefs 0 * Qpower r k)%Q).
(** even rows are the rows of [s], odd rows those of [o] *)
Definition interleaved (s o : img Q) (out : img Q) : Prop :=
  nrow out = 2 * nrow s - 1 /\ ncol out = ncol s /\
  forall i j, in_rng (ncol s) j ->
    (in_rng (nrow s) i -> px out (2 * i) j = px s i j) /\ (0 <= i < nrow s - 1 -> px out (2 * i + 1) j = px o (2 * i + 1) j).
