(** Specification for generate_blob_mask (C124), independent of the model's helpers. *)
From Verif Require Import Np S_utility S_removal.
From Coq Require Import QArith Qabs.
From Coq Require Import List. Import ListNotations.
Open Scope Z_scope.

(** [background] is the filtered row with its zeros replaced by the mean of the filtered row *)
Definition background (smooth : vec Q -> vec Q) (row : vec Q) (j : Z) : Q :=
  if Qeq_bool (vat (smooth row) j) 0 then qmean (vlen row) (vat (smooth row)) else vat (smooth row) j.
(** [odd j]: relative to its background, column [j] lies outside the band of the fitted line of sorted values:
    the line is the least-squares line of the middle half of the sorted relative values [sorted 0 .. sorted (n-1)] *)
Definition outside_the_band (n : Z) (rel sorted : Z -> Q) (snr slope intercept : Q) (j : Z) : Prop :=
  let last := (intercept + slope * inject_Z (n - 1))%Q in
  let noise := Qabs (last - intercept) in
  ((snr * noise <= Qabs (sorted (n - 1)%Z - last))%Q /\ (last + noise * snr / 2 < rel j)%Q) \/
  ((snr * noise <= Qabs (intercept - sorted 0%Z))%Q /\ (rel j <= intercept - noise * snr / 2)%Q).
(** a row filter that keeps the length, sees only values, and scales with its input *)
Definition scales_vec (f : vec Q -> vec Q) : Prop :=
  forall c u, (0 < c)%Q -> vec_Qeq (f (vmap (fun x => c * x)%Q u)) (vmap (fun x => c * x)%Q (f u)).
Definition scales_img (f : img Q -> img Q) : Prop :=
  forall c u, (0 < c)%Q -> img_Qeq (f (imap (fun x => c * x)%Q u)) (imap (fun x => c * x)%Q (f u)).
