(** Model of the quality map and the weight mask of algotom/prep/phase.py (108-183), exact real arithmetic. *)
From Coq Require Import Reals ZArith Bool List.
From Verif Require Import Np M_phase_R M_corr M_global.
Import ListNotations.
Open Scope Z_scope.

(** np.pad(mat, 1, mode="reflect"): the source index of position k = -1 .. n; an axis of length 1 is repeated *)
Definition pad_source (n k : Z) : Z := if n =? 1 then 0 else if k <? 0 then - k else if n <=? k then 2 * (n - 1) - k else k.
Definition pad1 (m : img R) : img R := mkimg (nrow m + 2) (ncol m + 2) (fun i j => px m (pad_source (nrow m) (i - 1)) (pad_source (ncol m) (j - 1))).
(** ndi.convolve(., mode="reflect"): (d c b a | a b c d | d c b a) *)
Definition mirror_source (n k : Z) : Z := let r := k mod (2 * n) in if r <? n then r else 2 * n - 1 - r.
(** ndi.convolve with a constant kernel of odd size, all entries 1 / win_size ** 2 *)
Definition convolve_box (m : img R) (win_size : Z) : img R :=
  let rad := win_size / 2 in
  mkimg (nrow m) (ncol m) (fun i j => rsum win_size (fun a => rsum win_size (fun b =>
    px m (mirror_source (nrow m) (i - (a - rad))) (mirror_source (ncol m) (j - (b - rad))) * (1 * 1 / IZR win_size ^ 2)))%R).
(** np.roll(np.roll(m, i, axis=0), j, axis=1) *)
Definition roll2 (m : img R) (i j : Z) : img R := mkimg (nrow m) (ncol m) (fun a b => px m ((a - i) mod nrow m) ((b - j) mod ncol m)).
(** ** get_quality_map, 131-147 (np.float32 sums are exact here) *)
Definition quality_map (mat : img R) (size : Z) : res (img R) :=
  let height := nrow mat in let width := ncol mat in
  let win_size := 2 * (size / 2) + 1 in
  if (height <=? 0) || (width <=? 0) then Err ValueError else      (* np.pad cannot reflect an empty axis *)
  let mat_pad := pad1 mat in
  let rho_x := mkimg height width (fun i j => wrap_to_pi (px mat_pad i (j + 1) - px mat_pad i j)) in
  let rho_y := mkimg height width (fun i j => wrap_to_pi (px mat_pad (i + 1) j - px mat_pad i j)) in
  if win_size <? 0 then Err ValueError else                        (* np.ones with a negative dimension *)
  let mean_x := convolve_box rho_x win_size in
  let mean_y := convolve_box rho_y win_size in
  let rad := win_size / 2 in
  let sum_of rho mean a b := rsum (2 * rad + 1) (fun i => rsum (2 * rad + 1) (fun j => (px (roll2 rho (i - rad) (j - rad)) a b - px mean a b) ^ 2))%R in
  Ok (mkimg height width (fun a b => (sqrt (sum_of rho_x mean_x a b) + sqrt (sum_of rho_y mean_y a b)) / IZR win_size ^ 2)%R).

(** ** get_weight_mask, 171-183.  [zoom l q] is ndi.zoom(l, q, mode='nearest').  np.polyfit(x, y, 1) is written in closed form for two or more points; one point
    is not modelled (RuntimeError here), none is numpy's TypeError. *)
Definition line_fit (a : Z) (y : list R) : R * R :=
  let n := Z.of_nat (length y) in
  let x k := IZR (a + k) in let v k := nth (Z.to_nat k) y 0%R in
  let xm := (rsum n x / IZR n)%R in let ym := (rsum n v / IZR n)%R in
  let slope := (rsum n (fun k => (x k - xm) * (v k - ym)) / rsum n (fun k => (x k - xm) ^ 2))%R in (slope, ym - slope * xm)%R.
Section mask.
Context (zoom : list R -> R -> list R).
Definition flatten (m : img R) : list R := flat_map (fun i => map (fun j => px m i j) (zrange 0 (ncol m))) (zrange 0 (nrow m)).
Definition mask_threshold (mat : img R) (snr : R) : res R :=
  let size := Z.max (nrow mat) (ncol mat) in
  let list_sort := rsort (flatten mat) in
  if Nat.eqb (length list_sort) 0 then Err ZeroDivisionError else
  let list_dsp := zoom list_sort (1 * IZR size / INR (length list_sort))%R in
  let npoint := Z.of_nat (length list_dsp) in
  let ndrop := npoint / 4 in
  let used := cut ndrop (npoint - ndrop - 1) list_dsp in
  if Nat.eqb (length used) 0 then Err TypeError else if Nat.eqb (length used) 1 then Err RuntimeError else
  let '(slope, intercept) := line_fit ndrop used in
  let y_end := (intercept + slope * IZR (npoint - 1))%R in
  let noise_level := Rabs (y_end - intercept) in
  Ok (y_end + noise_level * snr * 0.5)%R.
Definition weight_mask (mat : img R) (snr : R) : res (img R) :=
  do threshold <- mask_threshold mat snr;
  Ok (mkimg (nrow mat) (ncol mat) (fun i j => if Rltb threshold (px mat i j) then 1%R else 0%R)).
End mask.
