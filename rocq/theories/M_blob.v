(** Model of algotom/prep/removal.py:911-944, generate_blob_mask. *)
From Verif Require Import Np M_utility M_removal.
From Coq Require Import QArith.
From Coq Require Import List. Import ListNotations.
Open Scope Z_scope.

(** removal.py:936-938: [medline] is ndi.median_filter(_, size) of one row; zero values of the filtered row are
    replaced by its mean.  If the mean is zero too, numpy divides by zero; that case is not modelled (an error). *)
Definition normalised_row (medline : vec Q -> vec Q) (line : vec Q) : res (vec Q) :=
  let fil := medline line in
  let mean := qmean (vlen fil) (vat fil) in
  let fil' := mkvec (vlen fil) (fun j => if Qeq_bool (vat fil j) 0 then mean else vat fil j) in
  if existsb (fun j => Qeq_bool (vat fil' j) 0) (zrange 0 (vlen line)) then Err RuntimeError
  else Ok (mkvec (vlen line) (fun j => (vat line j / vat fil' j)%Q)).
(** removal.py:935-942: one row of the mask *)
Definition blob_mask_row (asort : argsort_fn) (medline : vec Q -> vec Q) (line : vec Q) (snr : Q) : res (vec Q) :=
  do line_norm <- normalised_row medline line;
  do mask_1d <- detect_stripe asort line_norm snr;
  Ok (dilate (clear_mask_ends mask_1d)).
(** removal.py:933-944: [median2] is ndi.median_filter(_, (2, 2)); the array is taken to be of a float type *)
Definition generate_blob_mask (asort : argsort_fn) (median2 : img Q -> img Q) (medline : vec Q -> vec Q)
    (flat : img Q) (snr : Q) : res (img Q) :=
  let mat := median2 flat in
  do rows <- mapr (fun i => blob_mask_row asort medline (irow mat i) snr) (zrange 0 (nrow mat));
  Ok (mkimg (nrow mat) (ncol mat) (fun i j => vat (nth (Z.to_nat i) rows (mkvec 0 (fun _ => 0%Q))) j)).
