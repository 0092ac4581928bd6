(** Model of the correlation metric and the overlap search of algotom/prep/calculation.py (371-621) in exact real arithmetic, with
    scipy.stats.pearsonr itself instead of an abstract metric (M_calculation has the same functions over rationals for any metric). *)
From Coq Require Import Reals ZArith Bool.
From Verif Require Import Np M_phase_R M_corr M_calculation.
From Coq Require Import List. Import ListNotations.
Open Scope Z_scope.

(** mat.flatten('F'): column by column *)
Definition flatten_F (m : img R) : list R := flat_map (fun j => map (fun i => px m i j) (zrange 0 (nrow m))) (zrange 0 (ncol m)).
(** scipy.stats.pearsonr (the coefficient); for a constant input scipy returns nan, not modelled (here the value is that of a division by 0) *)
Definition lsum (l : list R) : R := fold_right Rplus 0%R l.
Definition pearsonr (x y : list R) : R :=
  let mean l := (lsum l / INR (length l))%R in
  let xm := map (fun v => v - mean x)%R x in let ym := map (fun v => v - mean y)%R y in
  let norm l := sqrt (lsum (map (fun v => v * v)%R l)) in
  let r := lsum (map (fun p => fst p * snd p)%R (combine (map (fun v => v / norm xm)%R xm) (map (fun v => v / norm ym)%R ym))) in
  Rmax (Rmin r 1) (-1).
(** ** correlation_metric, calculation.py:424-429 *)
Definition correlation_metric (mat1 mat2 : img R) : R := Rabs (1 - pearsonr (flatten_F mat1) (flatten_F mat2)).

(** np.linspace(1.0, 0.0, n) *)
Definition rramp (n k : Z) : R := if n =? 1 then 1%R else (1 - IZR k / IZR (n - 1))%R.
Definition rcols (m : img R) (a b : Z) : img R := islice m 0 (nrow m) a b.
Definition rweigh (f : Z -> R) (m : img R) : img R := mkimg (nrow m) (ncol m) (fun i j => (px m i j * f j)%R).
Definition rscale_rows (f : Z -> R) (m : img R) : img R := mkimg (nrow m) (ncol m) (fun i j => (px m i j * f i)%R).
Definition radd (a b : img R) : img R := mkimg (nrow a) (ncol a) (fun i j => (px a i j + px b i j)%R).
(** np.mean(np.abs(m), axis=1) *)
Definition abs_mean (m : img R) (i : Z) : R := (rsum (ncol m) (fun j => Rabs (px m i j)) / IZR (ncol m))%R.
(** ** __calc_overlap_metric, calculation.py:432-455 *)
Definition overlap_metric (mat1 : img R) (pos offset : Z) (use_overlap : bool) (side : Z) (norm : bool) (win_width : Z) (mat2_roi mat2_roi_wei : img R) : R :=
  let down := rramp win_width in let up := fun k => (1 - rramp win_width k)%R in
  let roi := rcols mat1 (pos - offset) (pos + offset) in
  let wei := rweigh (if side =? 1 then down else up) roi in
  let factor := fun i => (abs_mean mat2_roi i / abs_mean roi i)%R in
  let roi' := if norm then rscale_rows factor roi else roi in
  let wei' := if norm then rscale_rows factor wei else wei in
  if use_overlap then
    let comb := radd wei' mat2_roi_wei in
    ((correlation_metric roi' mat2_roi + correlation_metric roi' comb + correlation_metric mat2_roi comb) / 3)%R
  else correlation_metric roi' mat2_roi.

(** np.argmin of a list of reals: the first minimum *)
Definition argminR : list R -> res Z := argbest Rltb.
Definition Reqb (a b : R) : bool := if Req_EM_T a b then true else false.
Definition Rleb (a b : R) : bool := if Rle_dec a b then true else false.
Section with_blur.
(** scipy.ndimage.gaussian_filter(mat, (2, 2), mode="reflect") *)
Context (blur : img R -> img R).
(** ** search_overlap, calculation.py:492-540; [order] is the order in which the parallel loop runs *)
Definition search_overlap_R (mat1_0 mat2_0 : img R) (win_width side : Z) (denoise norm use_overlap : bool) (order : list Z) : res (list R * Z) :=
  let mat1 := if denoise then blur mat1_0 else mat1_0 in
  let mat2 := if denoise then blur mat2_0 else mat2_0 in
  if negb (nrow mat1 =? nrow mat2) then Err ValueError else
  let offset := search_offset (ncol mat1) (ncol mat2) win_width in
  let ww := 2 * offset in
  if ww <? 0 then Err ValueError else
  let down := rramp ww in let up := fun k => (1 - rramp ww k)%R in
  let mat2_roi := if side =? 1 then rcols mat2 0 ww else rcols mat2 (ncol mat2 - ww) (ncol mat2) in
  let mat2_roi_wei := rweigh (if side =? 1 then up else down) mat2_roi in
  let list_pos := prange offset (ncol mat1 - offset) in
  let nump := Z.of_nat (length list_pos) in
  do list_metric <- run_list (fun i => overlap_metric mat1 (nth (Z.to_nat i) list_pos 0) offset use_overlap side norm ww mat2_roi mat2_roi_wei) nump order;
  do k <- argminR list_metric;
  do mn <- lnth list_metric k;
  Ok (if negb (Reqb mn 0) then map (fun v => (v / mn)%R) list_metric else list_metric, offset).

(** ** calculate_curvature, calculation.py:392-408; np.polyfit as in M_calculation: the least-squares parabola of five points, the parabola through three *)
Definition rpolyfit5_a (l : list R) : R := match l with [y0; y1; y2; y3; y4] => ((2 * y0 - y1 - 2 * y2 - y3 + 2 * y4) / 14)%R | _ => 0%R end.
Definition rpolyfit3 (x : R) (l : list R) : R * R :=
  match l with [y0; y1; y2] => let a := ((y0 - 2 * y1 + y2) / 2)%R in (a, ((y2 - y0) / 2 - 2 * a * x)%R) | _ => (0, 0)%R end.
Definition curvature_R (list_metric : list R) : res (R * R) :=
  let radi := 2 in
  let num_metric := Z.of_nat (length list_metric) in
  do am <- argminR list_metric;
  let min_pos := clipZ am radi (num_metric - radi - 1) in
  let list1 := lslice list_metric (min_pos - radi) (min_pos + radi + 1) in
  let afact1 := rpolyfit5_a list1 in
  let list2 := lslice list_metric (min_pos - 1) (min_pos + 2) in
  let '(afact2, bfact2) := rpolyfit3 (IZR min_pos) list2 in
  let curvature := Rabs afact1 in
  if negb (Reqb afact2 0) then
    let num := (- bfact2 / (2 * afact2))%R in
    if Rleb (IZR (min_pos - 1)) num && Rleb num (IZR (min_pos + 1)) then Ok (curvature, num) else Ok (curvature, IZR min_pos)
  else Ok (curvature, IZR min_pos).

(** ** find_overlap, calculation.py:591-621 *)
Definition find_overlap_R (mat1 mat2 : img R) (win_width : Z) (side : option Z) (denoise norm use_overlap : bool) (order order' : list Z) : res (R * Z * R) :=
  let ncol1 := ncol mat1 in let ncol2 := ncol mat2 in
  let win_width := clipZ win_width 6 (Z.min ncol1 ncol2 / 2) in
  let half := IZR (win_width / 2) in
  let overlap_1 p := (IZR ncol1 - p + half)%R in
  let overlap_0 p := (p + half)%R in
  let one s := do lo <- search_overlap_R mat1 mat2 win_width s denoise norm use_overlap order;
               do cp <- curvature_R (fst lo);
               Ok (snd cp + IZR (snd lo))%R in
  let both :=
    do lo1 <- search_overlap_R mat1 mat2 win_width 1 norm denoise use_overlap order;
    do lo2 <- search_overlap_R mat1 mat2 win_width 0 norm denoise use_overlap order';
    do cp1 <- curvature_R (fst lo1);
    do cp2 <- curvature_R (fst lo2);
    let p1 := (snd cp1 + IZR (snd lo1))%R in
    let p2 := (snd cp2 + IZR (snd lo2))%R in
    if Rltb (fst cp2) (fst cp1) then Ok (overlap_1 p1, 1, p1) else Ok (overlap_0 p2, 0, p2) in
  match side with
  | Some s => if s =? 1 then do p <- one 1; Ok (overlap_1 p, s, p)
              else if s =? 0 then do p <- one 0; Ok (overlap_0 p, s, p)
              else both
  | None => both
  end.
End with_blur.
