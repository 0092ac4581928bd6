(** Model of remove_all_stripe (algotom/prep/removal.py:374-412) and of the filters its three steps use by default:
    scipy.ndimage.median_filter and scipy.ndimage.uniform_filter1d, both with mode "reflect". *)
From Verif Require Import Np M_utility M_io_load M_conversion M_correction M_calculation M_removal.
From Coq Require Import QArith Qround Qabs String.
From Coq Require Import List. Import ListNotations.
Open Scope Z_scope.

(** The value of scipy.ndimage.median_filter for a window holding the values [l]: element number len // 2 of the sorted values
    (for an even number of values this is the upper of the two middle ones) *)
Fixpoint qput (a : Q) (l : list Q) : list Q :=
  match l with [] => [a] | b :: t => if Qle_bool a b then a :: l else b :: qput a t end.
Definition qsorted (l : list Q) : list Q := fold_right qput [] l.
Definition median_value (l : list Q) : Q := nth (Nat.div (List.length l) 2) (qsorted l) 0%Q.
(** ndi.median_filter(m, (1, size)), removal.py:72, 281: the window of position j starts at j - size // 2 *)
Definition median_along_rows (size : Z) (m : img Q) : img Q :=
  mkimg (nrow m) (ncol m) (fun i j =>
    median_value (map (fun d => px m i (reflect_idx (ncol m) (j - size / 2 + d))) (zrange 0 size))).
(** ndi.median_filter(m, (size, size)), removal.py:70 *)
Definition median_square (size : Z) (m : img Q) : img Q :=
  mkimg (nrow m) (ncol m) (fun i j =>
    median_value (flat_map (fun e => map (fun d => px m (reflect_idx (nrow m) (i - size / 2 + e)) (reflect_idx (ncol m) (j - size / 2 + d)))
      (zrange 0 size)) (zrange 0 size))).
(** ndi.median_filter(list, size), removal.py:351 *)
Definition median_line (size : Z) (v : vec Q) : vec Q :=
  mkvec (vlen v) (fun j => median_value (map (fun d => vat v (reflect_idx (vlen v) (j - size / 2 + d))) (zrange 0 size))).

(** removal.py:348-349: ndi.uniform_filter1d(column, smooth_strength) of every column.  Simplified: an integer sinogram is
    averaged in integers by scipy, here exactly *)
Definition smooth_columns (strength : Z) (m : img Q) : img Q :=
  mkimg (nrow m) (ncol m) (fun i j => qmean strength (fun d => px m (reflect_idx (nrow m) (i - strength / 2 + d)) j)).
(** removal.py:350 *)
Definition list_diff (strength : Z) (sino : img Q) : vec Q :=
  mkvec (ncol sino) (fun j => qsum (nrow sino) (fun i => Qabs (px sino i j - px (smooth_columns strength sino) i j))).
(** removal.py:351-352 *)
Definition diff_mean (size strength : Z) (sino : img Q) : Q :=
  let b := median_line size (list_diff strength sino) in qmean (vlen b) (fun j => Qabs (vat b j)).
(** removal.py:351-354 *)
Definition dead_profile (size strength : Z) (sino : img Q) : vec Q :=
  let d := list_diff strength sino in let b := median_line size d in
  mkvec (vlen d) (fun j => (vat d j / (if Qeq_bool (vat b j) 0 then diff_mean size strength sino else vat b j))%Q).

(** removal.py:318-371 with all its arguments.  If diff_mean is 0 line 354 computes 0/0 = nan, no comparison in detect_stripe
    holds and the mask is empty *)
Definition remove_dead_stripe_full (asort : argsort_fn) (sino : img Q) (snr : Q) (size : Z) (residual : bool) (strength : Z) : res (img Q) :=
  do s <- remove_dead_stripe (dead_profile size strength)
            (fun v => if Qeq_bool (diff_mean size strength sino) 0 then Ok (mkvec (vlen v) (fun _ => 0%Q)) else detect_stripe asort v snr) sino;
  if residual then remove_large_stripe asort (median_along_rows size) (fun v => detect_stripe asort v snr) s (1 # 10) true else Ok s.

(** removal.py:374-412.  [options]: the filter named in the options (used by both later steps instead of the median filter) *)
Definition remove_all_stripe (asort : argsort_fn) (sino : img Q) (snr : Q) (la_size sm_size : Z) (drop_ratio : Q) (dim : Z)
    (options : option (img Q -> img Q)) : res (img Q) :=
  let filt_or (f : img Q -> img Q) := match options with None => f | Some g => g end in
  do s1 <- remove_dead_stripe_full asort sino snr la_size false 10;
  do s2 <- remove_large_stripe asort (filt_or (median_along_rows la_size)) (fun v => detect_stripe asort v snr) s1 drop_ratio true;
  Ok (remove_stripe_based_sorting asort (filt_or (if dim =? 2 then median_square sm_size else median_along_rows sm_size)) s2).
