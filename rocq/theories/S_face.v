(** Specifications for the face phantom and the simulated noise (C130, C131). *)
From Coq Require Import Reals ZArith.
From Verif Require Import Np M_phase_R.
Open Scope Z_scope.

(** position of pixel (i, j) from the centre pixel: to the right and upwards *)
Definition right_of (size j : Z) : R := IZR (j - size / 2).
Definition above (size i : Z) : R := IZR (size / 2 - i).
(** an upright ellipse of the given width and height around the centre, 1 percent larger *)
Definition in_head (width height x y : R) : Prop := ((x / (width / 2)) ^ 2 + (y / (height / 2)) ^ 2 <= 1.01 ^ 2)%R.

(** the number of non-zero pixels and their average *)
Definition nonzero_count (m : img R) : R := rsum (nrow m) (fun i => rsum (ncol m) (fun j => if Req_EM_T (px m i j) 0 then 0 else 1))%R.
Definition total (m : img R) : R := rsum (nrow m) (fun i => rsum (ncol m) (fun j => px m i j)).
Definition nonzero_average (m : img R) : R := (total m / nonzero_count m)%R.
Definition blank (m : img R) : Prop := forall i j, in_rng (nrow m) i -> in_rng (ncol m) j -> px m i j = 0%R.
(** numbers drawn by np.random.rand *)
Definition drawn (rand : Z -> R) : Prop := forall i, (0 <= rand i < 1)%R.
