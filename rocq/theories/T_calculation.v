(** Property theorems for calculation.py (C35, C36, C37, C69, C71, C72, C73, C74). *)
From Verif Require Import Np P_Np M_utility M_conversion M_correction M_calculation S_calculation P_calculation P_calculation2 P_calculation3 P_calculation4.
From Coq Require Import QArith Qround Qabs Permutation Lqa.
From Coq Require Import List. Import ListNotations.
Open Scope Z_scope.

(** C35.  [metric_of sino ratio hor ver c] is the metric of candidate [c]: the spectrum of the sinogram stacked
    on its mirror image about [c] (see C71), weighted by the double-wedge mask (see C72). *)
Theorem coarse_search_returns_the_best_integer_center :
  forall twopi blur_3_1 cubic fmetric sino0 start stop ratio (denoise : bool) hor ver order,
  let sino := if denoise then blur_3_1 sino0 else sino0 in
  let lo := Qtrunc (clipQ start 0 (inject_Z (ncol sino - 1))) in
  let hi := Qtrunc (clipQ stop 0 (inject_Z (ncol sino - 1))) in
  1 <= ncol sino -> lo <= hi -> Permutation (zrange 0 (hi - lo + 1)) order ->
  exists c, coarse_search_cor twopi blur_3_1 cubic fmetric sino0 start stop ratio denoise hor ver order = Ok c /\
    0 <= lo /\ lo <= c <= hi /\ hi <= ncol sino - 1 /\
    forall c', lo <= c' <= hi ->
      (metric_of twopi cubic fmetric sino ratio hor ver (inject_Z c) <= metric_of twopi cubic fmetric sino ratio hor ver (inject_Z c'))%Q.
Proof. exact coarse_best. Qed.
Print Assumptions coarse_search_returns_the_best_integer_center.
Theorem coarse_search_rejects_an_empty_range :
  forall twopi blur_3_1 cubic fmetric sino0 start stop ratio (denoise : bool) hor ver order,
  let sino := if denoise then blur_3_1 sino0 else sino0 in
  Qtrunc (clipQ stop 0 (inject_Z (ncol sino - 1))) < Qtrunc (clipQ start 0 (inject_Z (ncol sino - 1))) ->
  is_ok (coarse_search_cor twopi blur_3_1 cubic fmetric sino0 start stop ratio denoise hor ver order) = false.
Proof. exact coarse_empty. Qed.
Print Assumptions coarse_search_rejects_an_empty_range.
Theorem fine_search_returns_the_best_candidate :
  forall twopi blur_2_2 cubic fmetric sino0 start radius step ratio (denoise : bool) hor ver order,
  let sino := if denoise then blur_2_2 sino0 else sino0 in
  let cands := fine_cands (ncol sino) start radius step in
  (0 <= radius)%Q -> (0 < step)%Q -> Permutation (zrange 0 (Z.of_nat (length cands))) order ->
  exists c, fine_search_cor twopi blur_2_2 cubic fmetric sino0 start radius step ratio denoise hor ver order = Ok c /\
    best (metric_of twopi cubic fmetric sino ratio hor ver) cands c.
Proof. exact fine_best. Qed.
Print Assumptions fine_search_returns_the_best_candidate.
Theorem fine_search_candidates_lie_in_the_search_range : forall nc start radius step c, 1 <= nc -> (0 <= radius)%Q -> (0 < step)%Q ->
  In c (fine_cands nc start radius step) ->
  (0 <= c <= inject_Z nc - 1)%Q /\
  exists d, (c == clipQ (start + d) 0 (inject_Z nc - 1))%Q /\ (- radius <= d)%Q /\ (d < radius + step)%Q.
Proof. exact fine_cands_where. Qed.
Print Assumptions fine_search_candidates_lie_in_the_search_range.
Theorem fine_search_candidates_cover_the_search_range : forall nc start radius step x, 1 <= nc -> (0 <= radius)%Q -> (0 < step)%Q ->
  (start - radius <= x <= start + radius)%Q -> (0 <= x <= inject_Z nc - 1)%Q ->
  exists c, In c (fine_cands nc start radius step) /\ (c <= x)%Q /\ (x - c < step)%Q.
Proof. exact fine_cands_cover. Qed.
Print Assumptions fine_search_candidates_cover_the_search_range.
Theorem find_center_vo_without_downsampling :
  forall twopi blur_3_1 blur_2_2 cubic fmetric sino start stop step radius ratio hor ver order1 order2,
  let lo := Qtrunc (clipQ start 0 (inject_Z (ncol (blur_3_1 sino) - 1))) in
  let hi := Qtrunc (clipQ stop 0 (inject_Z (ncol (blur_3_1 sino) - 1))) in
  1 <= ncol sino -> ncol (blur_3_1 sino) = ncol sino -> ncol (blur_2_2 sino) = ncol sino -> lo <= hi ->
  (0 <= radius)%Q -> (0 < step)%Q -> Permutation (zrange 0 (hi - lo + 1)) order1 ->
  Permutation (zrange 0 (Z.max 0 (Qceiling ((radius + step - - radius) / step)))) order2 ->
  exists raw c, find_center_vo twopi blur_3_1 blur_2_2 cubic fmetric sino (Some start) (Some stop) step radius ratio false hor ver order1 order2 = Ok c /\
    lo <= raw <= hi /\
    (forall z, lo <= z <= hi -> (metric_of twopi cubic fmetric (blur_3_1 sino) ratio hor ver (inject_Z raw)
                                 <= metric_of twopi cubic fmetric (blur_3_1 sino) ratio hor ver (inject_Z z))%Q) /\
    best (metric_of twopi cubic fmetric (blur_2_2 sino) ratio hor ver) (fine_cands (ncol sino) (inject_Z raw) radius step) c /\
    (0 <= c <= inject_Z (ncol sino) - 1)%Q.
Proof. exact vo_nodsp. Qed.
Print Assumptions find_center_vo_without_downsampling.
Theorem find_center_vo_with_downsampling :
  forall twopi blur_3_1 blur_2_2 cubic fmetric sino start stop step radius ratio hor ver order1 order2,
  let d := if 1000 <? ncol sino then Qfloor (inject_Z (ncol sino) / 640) else 1 in
  let dr := if 1000 <? nrow sino then Qfloor (inject_Z (nrow sino) / 900) else 1 in
  let sd := downsample_cor (blur_3_1 sino) dr d in
  let lo := Qtrunc (clipQ (inject_Z (Qfloor (start / inject_Z d))) 0 (inject_Z (ncol sd - 1))) in
  let hi := Qtrunc (clipQ (inject_Z (Qceiling (stop / inject_Z d))) 0 (inject_Z (ncol sd - 1))) in
  let rad := Qmaxb radius (inject_Z d) in
  2 <= ncol sino -> ncol (blur_3_1 sino) = ncol sino -> ncol (blur_2_2 sino) = ncol sino -> lo <= hi ->
  (0 <= radius)%Q -> (0 < step)%Q -> Permutation (zrange 0 (hi - lo + 1)) order1 ->
  Permutation (zrange 0 (Z.max 0 (Qceiling ((rad + step - - rad) / step)))) order2 ->
  exists raw c, find_center_vo twopi blur_3_1 blur_2_2 cubic fmetric sino (Some start) (Some stop) step radius ratio true hor ver order1 order2 = Ok c /\
    lo <= raw <= hi /\
    (forall z, lo <= z <= hi -> (metric_of twopi cubic fmetric sd ratio hor ver (inject_Z raw) <= metric_of twopi cubic fmetric sd ratio hor ver (inject_Z z))%Q) /\
    best (metric_of twopi cubic fmetric (blur_2_2 sino) ratio hor ver) (fine_cands (ncol sino) (inject_Z (raw * d) + (1#2) * inject_Z d) rad step) c /\
    (0 <= c <= inject_Z (ncol sino) - 1)%Q /\
    (* the fine search covers the columns binned in the coarse pixel *)
    (forall x, (inject_Z (raw * d) <= x <= inject_Z (raw * d + d - 1))%Q ->
       exists c', In c' (fine_cands (ncol sino) (inject_Z (raw * d) + (1#2) * inject_Z d) rad step) /\ (c' <= x < c' + step)%Q).
Proof. exact vo_dsp. Qed.
Print Assumptions find_center_vo_with_downsampling.
Example ex_coarse : (* a metric whose minimum over all the image is at 3, outside and inside the given range *)
  let s := mkimg 2 6 (fun i j => inject_Z j) in
  let f := fun (m _ : img Q) => Qabs (px m 2 2 - 4) in
  coarse_search_cor 6 (fun m => m) (fun m _ => m) f s 1 4 (1#2) true None None [2; 0; 3; 1] = Ok 3 /\
  coarse_search_cor 6 (fun m => m) (fun m _ => m) f s 0 (5#2) (1#2) true None None [2; 0; 1] = Ok 0 /\
  Permutation (zrange 0 4) [2; 0; 3; 1].
Proof.
  vm_compute. split; [reflexivity|]. split; [reflexivity|].
  apply (Permutation_trans (l' := [2; 0; 1; 3])).
  - apply (Permutation_trans (l' := [0; 2; 1; 3])); repeat constructor.
  - do 2 constructor. constructor.
Qed.
Example ex_fine : fine_cands 6 (5#2) 1 (1#2) = [3#2; 2; 5#2; 3; 7#2]%Q \/ map Qred (fine_cands 6 (5#2) 1 (1#2)) = [3#2; 2; 5#2; 3; 7#2]%Q.
Proof. right. vm_compute. reflexivity. Qed.

(** the default range is the middle eighth of the detector *)
Theorem find_center_vo_default_range : forall twopi blur_3_1 blur_2_2 cubic fmetric sino start stop step radius ratio dsp hor ver o1 o2,
  let mid := ncol sino / 2 in let reach := ncol sino / 16 in
  find_center_vo twopi blur_3_1 blur_2_2 cubic fmetric sino start stop step radius ratio dsp hor ver o1 o2 =
  find_center_vo twopi blur_3_1 blur_2_2 cubic fmetric sino
    (Some (match start with Some s => s | None => inject_Z (mid - reach) end))
    (Some (match stop with Some s => s | None => inject_Z (mid + reach) end)) step radius ratio dsp hor ver o1 o2.
Proof. reflexivity. Qed.
Print Assumptions find_center_vo_default_range.

(** C71 *)
Theorem center_metric_compares_with_the_mirror_image : forall cubic sino c2, 1 <= nrow sino -> 1 <= ncol sino -> 0 <= c2 <= 2 * (ncol sino - 1) ->
  forall center, (center == inject_Z c2 / 2)%Q ->
  is_mirror_stack sino c2 (center_stack cubic center sino (ifliplr sino) (iflipud sino)).
Proof. exact center_stack_mirror. Qed.
Print Assumptions center_metric_compares_with_the_mirror_image.
Example ex_stack : let s := mkimg 1 5 (fun i j => inject_Z j) in
  map (px (center_stack (fun m _ => m) (3#2) s (ifliplr s) (iflipud s)) 1) (zrange 0 5) = [3; 2; 1; 0; 4]%Q.
Proof. vm_compute. reflexivity. Qed.

(** C72 *)
(** the mask is 1 exactly on the cells outside the dropped rows and columns whose distance to the central column is at most the
    wedge half-width [n] of their row: n = ceil((i - yc) * W * (H-1) / (H * 2 pi * radius)) *)
Theorem inverse_double_wedge_mask_shape : forall twopi height width radius hor ver i j n dr dc, 3 <= height -> 3 <= width -> in_rng height i -> in_rng width j ->
  (0 < twopi)%Q -> (0 < radius)%Q ->
  (let half := (inject_Z (i - height / 2) * inject_Z (width * (height - 1)) / (inject_Z height * twopi * radius))%Q in
   (inject_Z (n - 1) < half <= inject_Z n)%Q) ->
  match hor with None => dr = Z.min 20 (height / 20) | Some d => exists k, (d == inject_Z k)%Q /\ dr = Z.max 1 (Z.min k (height / 3)) end ->
  match ver with None => dc = 1 | Some d => exists k, (d == inject_Z k)%Q /\ dc = Z.max 1 (Z.min k (width / 3)) end ->
  let m := make_inverse_double_wedge_mask twopi height width radius hor ver in
  nrow m = height /\ ncol m = width /\
  px m i j = (if (dr <? Z.abs (i - height / 2)) && (dc <? Z.abs (j - width / 2)) && (Z.abs (j - width / 2) <=? Z.abs n) then 1%Q else 0%Q).
Proof. exact wedge_explicit. Qed.
Print Assumptions inverse_double_wedge_mask_shape.
Example ex_wedge : let m := make_inverse_double_wedge_mask (63#10) 12 11 1 (Some 1%Q) None in
  map (px m 9) (zrange 0 11) = [1; 1; 1; 1; 0; 0; 0; 1; 1; 1; 1]%Q /\ map (px m 6) (zrange 0 11) = repeat 0%Q 11.
Proof. vm_compute. split; reflexivity. Qed.

(** C73 *)
Theorem downsample_cor_averages_blocks : forall image f0 f1,
  2 <= nrow image -> 2 <= ncol image -> 1 <= f0 <= nrow image / 2 -> 1 <= f1 <= ncol image / 2 ->
  let d := downsample_cor image f0 f1 in
  nrow d = nrow image / f0 /\ ncol d = ncol image / f1 /\ 2 <= nrow d /\ 2 <= ncol d /\
  (forall i j, in_rng (nrow d) i -> in_rng (ncol d) j ->
     (forall a b, 0 <= a < f0 -> 0 <= b < f1 -> in_rng (nrow image) (i * f0 + a) /\ in_rng (ncol image) (j * f1 + b)) /\
     (px d i j * inject_Z (f0 * f1) == qsum f0 (fun a => qsum f1 (fun b => px image (i * f0 + a)%Z (j * f1 + b)%Z)))%Q).
Proof. exact downsample_spec. Qed.
Print Assumptions downsample_cor_averages_blocks.
Example ex_down : map (fun j => Qred (px (downsample_cor (mkimg 5 7 (fun i j => inject_Z (10 * i + j))) 2 3) 1 j)) (zrange 0 2) = [26; 29]%Q.
Proof. vm_compute. reflexivity. Qed.

(** C36 *)
Theorem find_overlap_with_a_side_honours_denoise : forall blur corr A B w s norm uo o o',
  (s = 0 \/ s = 1) -> ncol (blur A) = ncol A -> ncol (blur B) = ncol B ->
  find_overlap blur corr A B w (Some s) true norm uo o o' = find_overlap (fun m => m) corr (blur A) (blur B) w (Some s) false norm uo o o'.
Proof. exact some_denoise. Qed.
Print Assumptions find_overlap_with_a_side_honours_denoise.
Theorem find_overlap_without_side_swaps_the_flags_refuted : forall blur corr A B w den norm uo o o' ov s p,
  find_overlap blur corr A B w None den norm uo o o' = Ok (ov, s, p) ->
  (s = 0 \/ s = 1) /\
  find_overlap blur corr A B w (Some s) (* denoise := *) norm (* norm := *) den uo (if s =? 1 then o else o') o' = Ok (ov, s, p).
Proof. exact none_swaps. Qed.
Print Assumptions find_overlap_without_side_swaps_the_flags_refuted.
Theorem find_overlap_default_never_denoises_refuted : forall corr A B w uo o o' blur blur',
  find_overlap blur corr A B w None (* denoise := *) true (* norm := *) false uo o o' =
  find_overlap blur' corr A B w None true false uo o o'.
Proof. exact default_never_denoises. Qed.
Print Assumptions find_overlap_default_never_denoises_refuted.
Theorem find_overlap_without_side_equal_flags_partial : forall blur corr A B w flag uo o o' ov s p,
  find_overlap blur corr A B w None flag flag uo o o' = Ok (ov, s, p) ->
  (s = 0 \/ s = 1) /\ find_overlap blur corr A B w (Some s) flag flag uo (if s =? 1 then o else o') o' = Ok (ov, s, p).
Proof. intros *. exact (none_swaps blur corr A B w flag flag uo o o' ov s p). Qed.
Print Assumptions find_overlap_without_side_equal_flags_partial.

(** C37 *)
Theorem overlap_search_windows_inside_the_images : forall n1 n2 w pos, 2 <= n1 -> 2 <= n2 ->
  let off := search_offset n1 n2 w in
  In pos (prange off (n1 - off)) -> 0 <= pos - off /\ pos + off <= n1 /\ 0 <= n2 - 2 * off /\ 2 * off <= n2.
Proof. exact windows_inside. Qed.
Print Assumptions overlap_search_windows_inside_the_images.
Theorem overlap_search_schedule_independent : forall blur corr A B w s (den : bool) norm uo o1 o2,
  let m1 := if den then blur A else A in let m2 := if den then blur B else B in
  let n := ncol m1 - 2 * search_offset (ncol m1) (ncol m2) w in
  0 <= n -> Permutation (zrange 0 n) o1 -> Permutation (zrange 0 n) o2 ->
  search_overlap blur corr A B w s den norm uo o1 = search_overlap blur corr A B w s den norm uo o2.
Proof. exact search_schedule. Qed.
Print Assumptions overlap_search_schedule_independent.
Theorem curvature_position_is_within_half_a_pixel_of_the_minimum : forall l, 5 <= Z.of_nat (length l) -> exists k cv p,
  argminQ l = Ok k /\ calculate_curvature l = Ok (cv, p) /\ (0 <= cv)%Q /\
  (2 <= k <= Z.of_nat (length l) - 3 -> (Qabs (p - inject_Z k) <= 1#2)%Q) /\
  (1 <= p)%Q /\ (p <= inject_Z (Z.of_nat (length l) - 2))%Q.
Proof. exact curvature_spec. Qed.
Print Assumptions curvature_position_is_within_half_a_pixel_of_the_minimum.
(** the curvature is that of the parabola fitted to the five values around the minimum, the position the vertex of the parabola through the
    three values around it, if it lies within one pixel *)
Theorem curvature_and_position_are_those_of_the_fitted_parabolas : forall l, 5 <= Z.of_nat (length l) ->
  let n := Z.of_nat (length l) in let y := fun k => nth (Z.to_nat k) l 0%Q in
  exists k cv p a b c a2 b2 c2, argminQ l = Ok k /\ calculate_curvature l = Ok (cv, p) /\
  let q := Z.max 2 (Z.min k (n - 3)) in
  (cv == Qabs a)%Q /\
  (forall a' b' c', (sse5 a b c (y (q - 2)%Z) (y (q - 1)%Z) (y q) (y (q + 1)%Z) (y (q + 2)%Z) <= sse5 a' b' c' (y (q - 2)%Z) (y (q - 1)%Z) (y q) (y (q + 1)%Z) (y (q + 2)%Z))%Q) /\
  (quadratic a2 b2 c2 (inject_Z (q - 1)) == y (q - 1)%Z /\ quadratic a2 b2 c2 (inject_Z q) == y q /\ quadratic a2 b2 c2 (inject_Z (q + 1)) == y (q + 1)%Z)%Q /\
  (((2 * a2 * p + b2 == 0)%Q /\ ~ (a2 == 0)%Q /\ (Qabs (p - inject_Z q) <= 1)%Q) \/
   ((p == inject_Z q)%Q /\ forall v, (2 * a2 * v + b2 == 0)%Q -> ~ (a2 == 0)%Q -> (1 < Qabs (v - inject_Z q))%Q)).
Proof. exact curvature_fits. Qed.
Print Assumptions curvature_and_position_are_those_of_the_fitted_parabolas.
Theorem curvature_is_the_least_squares_coefficient : forall y0 y1 y2 y3 y4, exists b c, forall a' b' c',
  (sse5 (polyfit5_a [y0; y1; y2; y3; y4]) b c y0 y1 y2 y3 y4 <= sse5 a' b' c' y0 y1 y2 y3 y4)%Q.
Proof. exact polyfit5_least_squares. Qed.
Print Assumptions curvature_is_the_least_squares_coefficient.
Theorem subpixel_parabola_interpolates : forall x y0 y1 y2, exists c, let '(a, b) := polyfit3 x [y0; y1; y2] in
  (quadratic a b c (x - 1) == y0 /\ quadratic a b c x == y1 /\ quadratic a b c (x + 1) == y2)%Q.
Proof. exact polyfit3_interpolates. Qed.
Print Assumptions subpixel_parabola_interpolates.
(** two images that share exactly [ov] columns; the metric vanishes on equal windows and is positive on the other
    candidate windows; the window half-width used by the search is that used by find_overlap *)
Theorem find_overlap_recovers_the_overlap_partial : forall blur corr,
  (forall a b, (0 <= corr a b)%Q) -> (forall a b, img_Qeq a b -> (corr a b == 0)%Q) ->
  forall A B w side ov uo order order', (side = 0 \/ side = 1) -> 2 <= ncol A -> 2 <= ncol B -> 0 <= nrow A ->
  overlapping A B ov side ->
  6 <= w -> w < Z.min (ncol A) (ncol B) / 2 ->
  let off := w / 2 in
  let n := ncol A - 2 * off in
  let k := if side =? 1 then ncol A - ov else ov - 2 * off in
  2 <= k <= n - 3 ->
  (forall i, 0 <= i < n -> i <> k ->
     (0 < corr (cols A i (i + 2 * off)) (if side =? 1 then cols B 0 (2 * off) else cols B (ncol B - 2 * off) (ncol B)))%Q) ->
  Permutation (zrange 0 n) order ->
  exists overlap p, find_overlap blur corr A B w (Some side) false false uo order order' = Ok (overlap, side, p) /\
    (Qabs (overlap - inject_Z ov) <= 1#2)%Q.
Proof.
  intros blur corr Cn Cs A B w side ov uo order order' Hs HA HB Hr HO W1 W2 off n k Hk Hp P.
  pose proof (half_small _ _ w W1 W2) as E. cbv zeta in E.
  assert (Ew : clipZ w 6 (Z.min (ncol A) (ncol B) / 2) = w) by (unfold clipZ; lia). rewrite Ew in E.
  destruct (find_overlap_off blur corr Cn Cs A B w side ov uo order order' Hs HA HB Hr HO) as (overlap & p & F & G);
    rewrite ?Ew, <- ?E; try assumption.
  exists overlap, p. split; [exact F|]. rewrite Ew, <- E in G. replace (ov + (w / 2 - w / 2)) with ov in G by lia. exact G.
Qed.
Print Assumptions find_overlap_recovers_the_overlap_partial.
(** with a window as wide as half the smaller image (or wider) and that half being even, the answer is one pixel off *)
Theorem find_overlap_wide_window_is_one_pixel_off_refuted : forall blur corr,
  (forall a b, (0 <= corr a b)%Q) -> (forall a b, img_Qeq a b -> (corr a b == 0)%Q) ->
  forall A B w side ov uo order order', (side = 0 \/ side = 1) -> 2 <= ncol A -> 2 <= ncol B -> 0 <= nrow A ->
  overlapping A B ov side ->
  let h := Z.min (ncol A) (ncol B) / 2 in
  7 <= h -> h <= w -> h mod 2 = 0 ->
  let off := h / 2 - 1 in
  let n := ncol A - 2 * off in
  let k := if side =? 1 then ncol A - ov else ov - 2 * off in
  2 <= k <= n - 3 ->
  (forall i, 0 <= i < n -> i <> k ->
     (0 < corr (cols A i (i + 2 * off)) (if side =? 1 then cols B 0 (2 * off) else cols B (ncol B - 2 * off) (ncol B)))%Q) ->
  Permutation (zrange 0 n) order ->
  exists overlap p, find_overlap blur corr A B w (Some side) false false uo order order' = Ok (overlap, side, p) /\
    (Qabs (overlap - inject_Z (ov + 1)) <= 1#2)%Q.
Proof.
  intros blur corr Cn Cs A B w side ov uo order order' Hs HA HB Hr HO h H7 Hw Hm off n k Hk Hp P.
  pose proof (half_large (ncol A) (ncol B) w H7 Hw Hm) as E. cbv zeta in E. fold h in E.
  assert (Ew : clipZ w 6 h = h) by (unfold clipZ; lia). rewrite Ew in E.
  assert (Eo : search_offset (ncol A) (ncol B) h = off) by (unfold off; lia).
  destruct (find_overlap_off blur corr Cn Cs A B w side ov uo order order' Hs HA HB Hr HO) as (overlap & p & F & G);
    fold h; rewrite ?Ew, ?Eo; try assumption.
  exists overlap, p. split; [exact F|]. fold h in G. rewrite Ew, Eo in G. replace (ov + (h / 2 - off)) with (ov + 1) in G by (unfold off; lia). exact G.
Qed.
Print Assumptions find_overlap_wide_window_is_one_pixel_off_refuted.

(** C69 and C74: the axis of rotation from an overlap *)
Theorem overlap_of_mirrored_images : forall a b c2 side,
  nrow a = nrow b -> ncol a = ncol b -> 0 <= c2 <= 2 * ncol a - 2 -> (side = 0 \/ side = 1) ->
  mirrored a b c2 -> let ov := if side =? 0 then c2 + 1 else 2 * ncol a - 1 - c2 in
  ov <= ncol a -> overlapping a (ifliplr b) ov side /\ (axis_of_overlap (ncol a) (inject_Z ov) side == inject_Z c2 / 2)%Q.
Proof. exact mirror_overlap. Qed.
Print Assumptions overlap_of_mirrored_images.
Theorem find_center_360_returns_the_axis_of_the_overlap : forall blur corr sino w side den norm uo o o' ov s p,
  let n180 := nrow sino / 2 + 1 in
  find_overlap blur corr (islice sino 0 n180 0 (ncol sino)) (ifliplr (islice sino (- n180) (nrow sino) 0 (ncol sino))) w side den norm uo o o' = Ok (ov, s, p) ->
  exists cor, find_center_360 blur corr sino w side den norm uo o o' = Ok (cor, ov, s, p) /\ (cor == axis_of_overlap (ncol sino) ov s)%Q.
Proof. exact center_360_axis. Qed.
Print Assumptions find_center_360_returns_the_axis_of_the_overlap.
Theorem find_center_360_recovers_the_axis : forall blur corr sino w side uo o o' c2,
  (forall a b, (0 <= corr a b)%Q) -> (forall a b, img_Qeq a b -> (corr a b == 0)%Q) ->
  1 <= nrow sino -> 2 <= ncol sino -> (side = 0 \/ side = 1) -> 0 <= c2 <= 2 * ncol sino - 2 ->
  let n180 := nrow sino / 2 + 1 in
  let top := islice sino 0 n180 0 (ncol sino) in
  let last := islice sino (nrow sino - n180) (nrow sino) 0 (ncol sino) in
  mirrored top last c2 ->
  let ov := if side =? 0 then c2 + 1 else 2 * ncol sino - 1 - c2 in
  6 <= w < ncol sino / 2 ->
  let off := w / 2 in
  let n := ncol sino - 2 * off in
  let k := if side =? 1 then ncol sino - ov else ov - 2 * off in
  2 <= k <= n - 3 ->
  (forall i, 0 <= i < n -> i <> k ->
     (0 < corr (cols top i (i + 2 * off)) (if side =? 1 then cols (ifliplr last) 0 (2 * off) else cols (ifliplr last) (ncol sino - 2 * off) (ncol sino)))%Q) ->
  Permutation (zrange 0 n) o ->
  exists cor overlap p, find_center_360 blur corr sino w (Some side) false false uo o o' = Ok (cor, overlap, side, p) /\
    (Qabs (cor - inject_Z c2 / 2) <= 1#4)%Q.
Proof. exact center_360_recovers. Qed.
Print Assumptions find_center_360_recovers_the_axis.
Theorem find_center_projection_is_half_a_pixel_low_refuted : forall blur corr mat1 mat2 (flip : bool) w ch sr den norm uo o o' ov s p,
  let '(start, stop) := projection_rows (nrow mat1) ch sr in
  let m2 := if flip then ifliplr mat2 else mat2 in
  find_overlap blur corr (islice mat1 start stop 0 (ncol mat1)) (islice m2 start stop 0 (ncol m2)) w None den norm uo o o' = Ok (ov, s, p) ->
  exists cor, find_center_projection blur corr mat1 mat2 flip w ch sr den norm uo o o' = Ok cor /\
    (cor == axis_of_overlap (ncol mat1) ov s - (1#2))%Q.
Proof. exact center_projection_axis. Qed.
Print Assumptions find_center_projection_is_half_a_pixel_low_refuted.
Theorem find_center_projection_rows_inside : forall nr ch sr, 2 <= nr -> let '(start, stop) := projection_rows nr ch sr in
  0 <= start /\ start < stop /\ stop <= nr.
Proof. exact projection_rows_inside. Qed.
Print Assumptions find_center_projection_rows_inside.

Theorem find_center_projection_rows_are_the_requested_strip : forall nr ch, 2 <= nr -> 1 <= ch <= nr - 1 ->
  projection_rows nr ch None = (Z.min (nr / 2 - ch / 2) (nr - ch - 1), nr / 2 - ch / 2 + ch) /\
  forall r, 0 <= r <= nr / 2 - ch / 2 -> projection_rows nr ch (Some r) = (Z.min r (nr - ch - 1), r + ch).
Proof. intros nr ch H1 H2. split; [exact (projection_rows_default nr ch H1 H2)|]. intros r Hr. exact (projection_rows_given nr ch r H1 H2 Hr). Qed.
Print Assumptions find_center_projection_rows_are_the_requested_strip.
(** the k-th entry is the overlap of images k and k+1, in this order *)
Theorem find_overlap_multiple_compares_neighbours : forall blur corr mats w side den norm uo o o' out,
  find_overlap_multiple blur corr mats w side den norm uo o o' = Ok out ->
  length out = (length mats - 1)%nat /\
  forall k a b, nth_error mats k = Some a -> nth_error mats (S k) = Some b ->
    exists r, nth_error out k = Some r /\ find_overlap blur corr a b w side den norm uo o o' = Ok r.
Proof.
  intros blur corr mats w side den norm uo o o' out H. unfold find_overlap_multiple in H. destruct (1 <? _); [|discriminate].
  exact (overlap_pairs_spec _ mats out H).
Qed.
Print Assumptions find_overlap_multiple_compares_neighbours.
Theorem find_overlap_multiple_rejects_a_single_image : forall blur corr mats w side den norm uo o o', (length mats <= 1)%nat ->
  find_overlap_multiple blur corr mats w side den norm uo o o' = Err ValueError.
Proof. intros blur corr mats w side den norm uo o o' H. unfold find_overlap_multiple. replace (1 <? _) with false by lia. reflexivity. Qed.
Print Assumptions find_overlap_multiple_rejects_a_single_image.

(** C75: phase correlation *)
(** the sub-pixel parts [dy], [dx] are the vertices of the parabolas through the peak and its two (cyclic) neighbours *)
Theorem phase_correlation_shift_is_the_wrapped_peak : forall m ty tx,
  1 <= nrow m -> 1 <= ncol m -> in_rng (nrow m) ty -> in_rng (ncol m) tx ->
  (forall i j, in_rng (nrow m) i -> in_rng (ncol m) j -> (px m i j <= px m ty tx)%Q) ->
  let up := px m ((ty - 1) mod nrow m) tx in let down := px m ((ty + 1) mod nrow m) tx in
  let before := px m ty ((tx - 1) mod ncol m) in let after := px m ty ((tx + 1) mod ncol m) in
  exists sy sx dy dx, peak_shift m ty tx = Ok (sy, sx) /\
    (Qabs dy <= 1#2)%Q /\ (Qabs dx <= 1#2)%Q /\
    (dy * (2 * (up - 2 * px m ty tx + down)) == up - down)%Q /\
    (dx * (2 * (before - 2 * px m ty tx + after)) == before - after)%Q /\
    (sy == inject_Z ty + dy \/ sy == inject_Z ty + dy - inject_Z (nrow m))%Q /\
    (sx == inject_Z tx + dx \/ sx == inject_Z tx + dx - inject_Z (ncol m))%Q /\
    (- (inject_Z (nrow m - nrow m / 2)) <= sy)%Q /\ (sy <= inject_Z (nrow m / 2))%Q /\
    (- (inject_Z (ncol m - ncol m / 2)) <= sx)%Q /\ (sx <= inject_Z (ncol m / 2))%Q.
Proof. exact peak_spec. Qed.
Print Assumptions phase_correlation_shift_is_the_wrapped_peak.
Theorem phase_correlation_center_is_the_mirror_axis : forall a b t c2, nrow a = nrow b -> ncol a = ncol b -> c2 = ncol a - 1 + t ->
  (forall i x, in_rng (nrow a) i -> in_rng (ncol a) x -> in_rng (ncol a) (x - t) -> (px a i x == px (ifliplr b) i (x - t)%Z)%Q) ->
  mirrored a b c2 /\ (center_from_shift (ncol a) (inject_Z t) == inject_Z c2 / 2)%Q.
Proof. exact shift_mirror. Qed.
Print Assumptions phase_correlation_center_is_the_mirror_axis.
Example ex_peak : let m := mkimg 4 8 (fun i j => if (i =? 3) && (j =? 6) then 4 else if (i =? 3) && (j =? 7) then 1 else 0)%Q in
  match peak_shift m 3 6 with Ok (sy, sx) => (Qred sy, Qred sx) = (-1, -27#14)%Q | Err _ => False end.
Proof. vm_compute. reflexivity. Qed.
(** a concrete pair of images meeting the hypotheses of the recovery theorems: sum of absolute differences as metric,
    36 columns, overlap 20 *)
Definition sad (a b : img Q) : Q := qsum (nrow a) (fun i => qsum (ncol a) (fun j => Qabs (px a i j - px b i j))).
Example ex_recover :
  let A := mkimg 1 36 (fun _ j => inject_Z (j * j)) in let B := mkimg 1 36 (fun _ j => inject_Z ((j + 16) * (j + 16))) in
  overlapping A B 20 1 /\
  (let off := 8 / 2 in let n := 36 - 2 * off in
   2 <= 36 - 20 <= n - 3 /\ forall i, 0 <= i < n -> i <> 36 - 20 -> (0 < sad (cols A i (i + 2 * off)) (cols B 0 (2 * off)))%Q) /\
  match find_overlap (fun m => m) sad A B 8 (Some 1) false false true (zrange 0 28) [] with
  | Ok (o, s, p) => (Qle_bool (Qabs (o - 20)) (1#2), s) = (true, 1) | Err _ => False end /\
  match find_overlap (fun m => m) sad A B 36 (Some 1) false false false (zrange 0 20) [] with
  | Ok (o, s, p) => (Qle_bool (Qabs (o - 21)) (1#2), s) = (true, 1) | Err _ => False end.
Proof.
  cbv zeta. split; [|split; [|split; vm_compute; reflexivity] ].
  - split; [reflexivity|]. cbn [ncol]. split; [lia|]. split; [lia|]. split; [lia|]. intros i j _ Hj.
    change (1 =? 1) with true. cbn iota. cbn [px]. replace (36 - 20 + j) with (j + 16) by lia. reflexivity.
  - split; [cbn; lia|]. intros i Hi Hne.
    assert (I : In i (filter (fun i => negb (i =? 16)) (zrange 0 28))).
    { apply filter_In. split; [apply zrange_In; change (36 - 2 * (8 / 2)) with 28 in Hi; lia|].
      change (36 - 20) with 16 in Hne. destruct (Z.eqb_spec i 16); [contradiction|reflexivity]. }
    change (filter (fun i => negb (i =? 16)) (zrange 0 28)) with (zrange 0 16 ++ zrange 17 11) in I.
    cbn in I. repeat (destruct I as [<- | I]; [vm_compute; reflexivity|]). contradiction.
Qed.
