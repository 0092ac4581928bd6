(** Model of calculate_threshold (algotom/util/calibration.py), exact real arithmetic. *)
From Coq Require Import Reals ZArith Bool List. Import ListNotations.
From Verif Require Import Np M_phase_R M_global.
Open Scope Z_scope.

(** np.ndarray.flatten, 150 *)
Definition flat (m : img R) : list R := flat_map (fun i => map (px m i) (zrange 0 (ncol m))) (zrange 0 (nrow m)).
Definition vec_of (l : list R) : vec R := mkvec (Z.of_nat (List.length l)) (fun k => nth (Z.to_nat k) l 0%R).
(** np.polyval of a polynomial of degree 3, constant term first *)
Definition cubic_at (c : list R) (x : R) : R := (nth 0 c 0 + nth 1 c 0 * x + nth 2 c 0 * x ^ 2 + nth 3 c 0 * x ^ 3)%R.
(** calculate_threshold, 149-157.  [zoom v n] is ndi.zoom(v, n / len(v), mode='nearest'), of n values; [polyfit3 v] is the polynomial of
    degree 3 fitted by least squares to v at 0, 1, 2, ...: sig.savgol_filter (mode 'interp') replaces the first (last) half window by the values of the
    polynomial fitted to the first (last) window; only the first and the last value are used.  The window of 2 (n // 2) - 1 values must have more
    than 3 (ValueError).  Simplified: the pixels are floats (zoom rounds integers) *)
Definition calculate_threshold (zoom : vec R -> Z -> vec R) (polyfit3 : vec R -> list R) (mat : img R) (bright : bool) : res R :=
  let size := Z.max (nrow mat) (ncol mat) in                                        (* 149 *)
  let list0 := vec_of (rsort (flat mat)) in                                         (* 150 *)
  if vlen list0 =? 0 then Err ZeroDivisionError else
  let list1 := zoom list0 size in                                                   (* 151 *)
  let n := vlen list1 in
  let window := 2 * (n / 2) - 1 in                                                  (* 152 *)
  if window <=? 3 then Err ValueError else
  if bright then Ok (cubic_at (polyfit3 (mkvec window (vat list1))) 0)
  else Ok (cubic_at (polyfit3 (mkvec window (fun k => vat list1 (n - window + k)))) (IZR (window - 1))).
