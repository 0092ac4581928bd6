(** Model of util.apply_1d_regularizer (utility.py:873-884) and util.apply_regularization_filter (887-922), over the reals.
    The coefficient matrix is M_regularization.calculate_regularization_coefficient (382-413). *)
From Coq Require Import Reals.
From Verif Require Import Np M_regularization.
From Coq Require Import List. Import ListNotations.
Open Scope Z_scope.

(** 878-884: list_data[0], list_data[1], list_data[-1], list_data[-2] are read, so a line needs two points; the slice assignment of
    880 is empty for two points *)
Definition apply_1d_regularizer (line : vec R) (sij : Z -> Z -> R) : res (vec R) :=
  if vlen line <? 2 then Err IndexError else
  Ok (mkvec (vlen line) (fun i => (vat line i + rsum (Z.to_nat (vlen line)) (fun j => list_grad (vlen line) (vat line) j * sij i j))%R)).
(** 912-922: joblib returns the lines in the order of the calls; axis=0 transposes before and after, any other value is axis=1.
    (For an image without rows np.asarray gives a 1d array; here an image without rows.) *)
Definition apply_regularization_filter (mat : img R) (alpha : R) (axis : Z) : res (img R) :=
  let m := if axis =? 0 then itrans mat else mat in
  do rows <- mapr (fun i => apply_1d_regularizer (irow m i) (calculate_regularization_coefficient (ncol m) alpha)) (zrange 0 (nrow m));
  let r := mkimg (nrow m) (ncol m) (fun i j => vat (nth (Z.to_nat i) rows (mkvec 0 (fun _ => 0%R))) j) in
  Ok (if axis =? 0 then itrans r else r).
