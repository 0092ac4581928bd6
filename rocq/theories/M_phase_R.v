(** Model of algotom/prep/phase.py, parts that need real numbers (pi, cosine). *)
From Coq Require Import Reals ZArith.
From Verif Require Import Np.
From Coq Require Import List. Import ListNotations.
Open Scope Z_scope.

(** a % b of numpy for b > 0: floor modulo *)
Definition rmod (a b : R) : R := (a - b * IZR (Int_part (a / b)))%R.
(** ** phase.py:47-51 _wrap_to_pi (one element) *)
Definition wrap_to_pi (x : R) : R := (rmod (x + PI) (2 * PI) - PI)%R.

(** sum over 0 .. n - 1 *)
Fixpoint rsumn (n : nat) (f : Z -> R) : R :=
  match n with O => 0%R | S k => (rsumn k f + f (Z.of_nat k))%R end.
Definition rsum (n : Z) (f : Z -> R) : R := rsumn (Z.to_nat n) f.
Definition rmean2 (n m : Z) (f : Z -> Z -> R) : R := (rsum n (fun i => rsum m (f i)) / (IZR n * IZR m))%R.

(** basis functions of the cosine transform *)
Definition cosb (n k i : Z) : R := cos (PI * IZR k * (2 * IZR i + 1) / (2 * IZR n)).
(** scipy.fft.dctn, type 2, no normalisation (phase.py:217) *)
Definition dctn (m : img R) : img R :=
  mkimg (nrow m) (ncol m) (fun k l =>
    4 * rsum (nrow m) (fun i => rsum (ncol m) (fun j => px m i j * cosb (nrow m) k i * cosb (ncol m) l j)))%R.
(** scipy.fft.idctn, type 2: along each axis x_i = (1/n) (y_0 / 2 + sum_(k >= 1) y_k cos(pi k (2 i + 1) / (2 n))) (phase.py:217) *)
Definition half (k : Z) : R := if k =? 0 then (/ 2)%R else 1%R.
Definition idctn (y : img R) : img R :=
  mkimg (nrow y) (ncol y) (fun i j =>
    / (IZR (nrow y) * IZR (ncol y)) *
    rsum (nrow y) (fun k => rsum (ncol y) (fun l => half k * half l * px y k l * cosb (nrow y) k i * cosb (ncol y) l j)))%R.
(** ** phase.py:97-105 _make_cosine_window *)
Definition cosine_window (height width : Z) : img R :=
  mkimg height width (fun k l => if (k =? 0) && (l =? 0) then 1%R
     else (2 * (cos (PI * IZR k / IZR height) + cos (PI * IZR l / IZR width) - 2))%R).

(** [0] ++ d ++ [0], d of length n - 1, then np.diff (phase.py:214-215) *)
Definition ext0 (n : Z) (d : Z -> R) (j : Z) : R := if (1 <=? j) && (j <=? n - 1) then d (j - 1) else 0%R.
Definition diff0 (n : Z) (d : Z -> R) (j : Z) : R := (ext0 n d (j + 1) - ext0 n d j)%R.
(** ** phase.py:212-216 *)
Definition unwrap_rho (m : img R) : img R :=
  mkimg (nrow m) (ncol m) (fun i j =>
    diff0 (ncol m) (fun j' => wrap_to_pi (px m i (j' + 1) - px m i j')) j +
    diff0 (nrow m) (fun i' => wrap_to_pi (px m (i' + 1) j - px m i' j)) i)%R.
(** ** phase.py:186-218 unwrap_phase_based_cosine_transform, default window *)
Definition unwrap_cosine (m : img R) : img R :=
  let window := cosine_window (nrow m) (ncol m) in
  let d := dctn (unwrap_rho m) in
  idctn (mkimg (nrow m) (ncol m) (fun k l => px d k l / px window k l)%R).
