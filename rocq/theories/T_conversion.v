(** Property theorems for conversion.py (C25-C31, C68). *)
From Verif Require Import Np P_Np M_utility M_conversion S_conversion P_utility P_grid P_conversion P_conversion2 P_conversion3 P_conversion4 P_conversion5.
From Coq Require Import QArith Qround Qabs Lqa.
From Coq Require Import List. Import ListNotations.
Open Scope Z_scope.

(** C25 *)
Theorem stitch_image_blends_linearly_partial : forall shift m1 m2 k side,
  1 <= k -> k <= ncol m1 -> k <= ncol m2 -> nrow m1 = nrow m2 -> (side = 0 \/ side = 1) ->
  exists out, stitch_image shift m1 m2 (inject_Z k) side PNone PNone false None = Ok out /\
    if side =? 1 then is_stitch m1 m2 k out else is_stitch m2 m1 k out.
Proof. exact stitch_plain. Qed.
Print Assumptions stitch_image_blends_linearly_partial.
Theorem stitch_image_norm_scales_the_second_image_partial : forall shift m1 m2 k side,
  1 <= k -> k <= ncol m1 -> k <= ncol m2 -> nrow m1 = nrow m2 -> 0 <= nrow m1 -> (side = 0 \/ side = 1) ->
  let f1 := if side =? 1 then mean_of_columns m1 (ncol m1 - k) (ncol m1) else mean_of_columns m1 0 k in
  let f2 := if side =? 1 then mean_of_columns m2 0 k else mean_of_columns m2 (ncol m2 - k) (ncol m2) in
  stitch_image shift m1 m2 (inject_Z k) side PNone PNone true None =
  stitch_image shift m1 (img_scale (f1 / f2) m2) (inject_Z k) side PNone PNone false None.
Proof. exact stitch_norm. Qed.
Print Assumptions stitch_image_norm_scales_the_second_image_partial.
Theorem stitch_image_rejects_different_heights : forall shift m1 m2 ov side w1 w2 norm tw,
  nrow m1 <> nrow m2 -> stitch_image shift m1 m2 ov side w1 w2 norm tw = Err ValueError.
Proof. exact stitch_height. Qed.
Print Assumptions stitch_image_rejects_different_heights.
Theorem stitch_image_total_width_pads_with_the_last_column : forall shift m1 m2 k side norm t,
  1 <= k -> k <= ncol m1 -> k <= ncol m2 -> nrow m1 = nrow m2 -> (side = 0 \/ side = 1) ->
  forall out, stitch_image shift m1 m2 (inject_Z k) side PNone PNone norm None = Ok out ->
  exists out', stitch_image shift m1 m2 (inject_Z k) side PNone PNone norm (Some t) = Ok out' /\
    nrow out' = nrow out /\ ncol out' = Z.max t (ncol m1 + ncol m2 - k) /\
    (ncol out = ncol m1 + ncol m2 - k ->
     forall i j, 0 <= j < ncol out' -> px out' i j = px out i (Z.min j (ncol out - 1))).
Proof. exact stitch_total. Qed.
Print Assumptions stitch_image_total_width_pads_with_the_last_column.
Theorem stitch_image_width_is_the_sum_minus_the_rounded_overlap : forall shift m1 m2 ov side w1 w2 norm out,
  stitch_image shift m1 m2 ov side w1 w2 norm None = Ok out ->
  exists n, nearest_integer (ov + (1#1000)) n /\ ncol out = ncol m1 + ncol m2 - n /\ nrow out = nrow m1.
Proof. exact stitch_width. Qed.
Print Assumptions stitch_image_width_is_the_sum_minus_the_rounded_overlap.
Theorem stitch_image_sides_are_mirror_images : forall shift m1 m2 k out1 out0,
  2 <= k -> k <= ncol m1 -> k <= ncol m2 -> nrow m1 = nrow m2 ->
  stitch_image shift m1 m2 (inject_Z k) 1 PNone PNone false None = Ok out1 ->
  stitch_image shift (ifliplr m1) (ifliplr m2) (inject_Z k) 0 PNone PNone false None = Ok out0 ->
  img_Qeq out0 (ifliplr out1).
Proof. exact stitch_mirror. Qed.
Print Assumptions stitch_image_sides_are_mirror_images.
Theorem stitch_image_zero_overlap_refuted : forall shift m1 m2 side w norm tw,
  2 <= ncol m1 -> 2 <= ncol m2 -> (side = 0 \/ side = 1) ->
  stitch_image shift m1 m2 0 side w PNone norm tw = Err ValueError.
Proof. exact stitch_zero. Qed.
Print Assumptions stitch_image_zero_overlap_refuted.
Example ex_stitch :
  let a := mkimg 2 4 (fun i j => inject_Z (10 * i + j)) in
  let b := mkimg 2 5 (fun i j => inject_Z (100 + 10 * i + j)) in
  match stitch_image (fun m _ => m) a b 3 1 PNone PNone false (Some 8) with
  | Ok o => (nrow o, ncol o) = (2, 8) /\ map (fun j => Qred (px o 1 j)) (zrange 0 8) =
      [10; 11; (123 # 2); 112; 113; 114; 114; 114]%Q
  | Err _ => False end.
Proof. vm_compute. split; reflexivity. Qed.

(** C26 *)
Theorem stitch_image_multiple_is_the_normalised_fold_partial : forall shift m0 rest norm, rest <> [] ->
  stitch_image_multiple shift (m0 :: map fst rest) (map snd rest) norm None =
  fold_res (fun c x => stitch_image shift c (fst x) (fst (snd x)) (snd (snd x)) PNone PNone true None) m0 rest.
Proof. exact multiple_norm_true. Qed.
Print Assumptions stitch_image_multiple_is_the_normalised_fold_partial.
Theorem stitch_image_multiple_ignores_norm : forall shift mats ovs tw,
  stitch_image_multiple shift mats ovs true tw = stitch_image_multiple shift mats ovs false tw.
Proof. exact multiple_ignores_norm. Qed.
Print Assumptions stitch_image_multiple_ignores_norm.
Theorem stitch_image_multiple_needs_every_overlap : forall shift mats ovs norm tw,
  (length ovs + 1 < length mats)%nat -> is_ok (stitch_image_multiple shift mats ovs norm tw) = false.
Proof. exact stitch_missing. Qed.
Print Assumptions stitch_image_multiple_needs_every_overlap.
Theorem stitch_image_multiple_norm_false_refuted : exists m0 m1 ov side, forall shift, exists o1 o2,
  stitch_image_multiple shift [m0; m1] [(ov, side)] false None = Ok o1 /\
  stitch_image shift m0 m1 ov side PNone PNone false None = Ok o2 /\ ~ img_Qeq o1 o2.
Proof. exact multiple_norm_refuted. Qed.
Print Assumptions stitch_image_multiple_norm_false_refuted.

(** C27 *)
Theorem join_image_keeps_data_and_interpolates_partial : forall shift m1 m2 g side,
  nrow m1 = nrow m2 -> 2 <= nrow m1 -> 4 <= ncol m1 -> 4 <= ncol m2 -> 0 <= g -> (side = 0 \/ side = 1) ->
  exists out, join_image shift m1 m2 (inject_Z g) side false None = Ok out /\
    if side =? 1 then is_join m1 m2 g out else is_join m2 m1 g out.
Proof. exact join_plain. Qed.
Print Assumptions join_image_keeps_data_and_interpolates_partial.
Theorem join_image_norm_scales_the_second_image : forall shift m1 m2 g side,
  3 <= ncol m1 -> 3 <= ncol m2 -> nrow m1 = nrow m2 -> 0 <= nrow m1 -> (side = 0 \/ side = 1) ->
  let f1 := if side =? 1 then mean_of_columns m1 (ncol m1 - 3) (ncol m1) else mean_of_columns m1 0 3 in
  let f2 := if side =? 1 then mean_of_columns m2 0 3 else mean_of_columns m2 (ncol m2 - 3) (ncol m2) in
  join_image shift m1 m2 (inject_Z g) side true None =
  join_image shift m1 (img_scale (f1 / f2) m2) (inject_Z g) side false None.
Proof. exact join_norm. Qed.
Print Assumptions join_image_norm_scales_the_second_image.
Theorem join_image_rejects_different_heights : forall shift m1 m2 g side norm tw,
  nrow m1 <> nrow m2 -> join_image shift m1 m2 g side norm tw = Err ValueError.
Proof. exact join_height. Qed.
Print Assumptions join_image_rejects_different_heights.
Theorem join_image_width_is_the_sum_plus_the_rounded_gap : forall shift m1 m2 g side norm out,
  join_image shift m1 m2 g side norm None = Ok out ->
  exists n, nearest_integer (g + (1#1000)) n /\ ncol out = ncol m1 + ncol m2 + n /\ nrow out = nrow m1.
Proof. exact join_width. Qed.
Print Assumptions join_image_width_is_the_sum_plus_the_rounded_gap.
Theorem join_image_multiple_needs_every_gap : forall shift mats gs norm tw,
  (length gs + 1 < length mats)%nat -> is_ok (join_image_multiple shift mats gs norm tw) = false.
Proof. exact join_missing. Qed.
Print Assumptions join_image_multiple_needs_every_gap.
Theorem join_image_multiple_is_the_fold : forall shift m0 rest norm, rest <> [] ->
  join_image_multiple shift (m0 :: map fst rest) (map snd rest) norm None =
  fold_res (fun c x => join_image shift c (fst x) (fst (snd x)) (snd (snd x)) norm None) m0 rest.
Proof. exact join_multiple_fold. Qed.
Print Assumptions join_image_multiple_is_the_fold.
Example ex_join :
  let a := mkimg 2 4 (fun i j => inject_Z (10 * i + j)) in
  let b := mkimg 2 5 (fun i j => inject_Z (10 * i + j + 6)) in
  match join_image (fun m _ => m) a b 2 1 false None with
  | Ok o => (nrow o, ncol o) = (2, 11) /\ map (fun j => Qred (px o 0 j)) (zrange 0 11) =
      [0; 1; 2; 3; 4; 5; 6; 7; 8; 9; 10]%Q
  | Err _ => False end.
Proof. vm_compute. split; reflexivity. Qed.

(** C28 *)
Theorem convert_360_to_180_centre_or_tuple : forall shift sino k side w1 w2 norm tw,
  (side = 0 \/ side = 1) -> 1 <= k -> k <= ncol sino -> (side = 1 -> k < ncol sino) ->
  let cor := if side =? 1 then (inject_Z (ncol sino) - inject_Z k / 2 - (1#2))%Q else (inject_Z k / 2 - (1#2))%Q in
  convert_sinogram_360_to_180 shift sino (CNum cor) w1 w2 norm tw =
  convert_sinogram_360_to_180 shift sino (CTup (inject_Z k) side) w1 w2 norm tw.
Proof. exact convert_cor_tuple. Qed.
Print Assumptions convert_360_to_180_centre_or_tuple.
Theorem convert_360_to_180_stitches_the_half_turns : forall shift sino k side,
  (side = 0 \/ side = 1) -> 1 <= k -> k <= ncol sino -> 2 <= nrow sino ->
  exists out c top bot,
    convert_sinogram_360_to_180 shift sino (CTup (inject_Z k) side) PNone PNone false None = Ok (out, c) /\
    nrow out = nrow sino / 2 + 1 /\ ncol out = 2 * ncol sino - k /\ (c == inject_Z (ncol out - 1) / 2)%Q /\
    nrow top = nrow sino / 2 + 1 /\ ncol top = ncol sino /\ nrow bot = nrow sino / 2 + 1 /\ ncol bot = ncol sino /\
    (forall i j, px top i j = px sino i j) /\
    (forall i j, px bot i j = px sino (nrow sino - (nrow sino / 2 + 1) + i) (ncol sino - 1 - j)) /\
    (if side =? 1 then is_stitch top bot k out else is_stitch bot top k out).
Proof. exact convert_shape. Qed.
Print Assumptions convert_360_to_180_stitches_the_half_turns.
Example ex_360 :
  let s := mkimg 5 4 (fun i j => inject_Z (10 * i + j)) in
  match convert_sinogram_360_to_180 (fun m _ => m) s (CNum (5#2)) PNone PNone false None with
  | Ok (o, c) => (nrow o, ncol o) = (3, 6) /\ Qred c = (5 # 2)%Q /\
      map (fun j => Qred (px o 0 j)) (zrange 0 6) = [0; 1; 2; 22; 21; 20]%Q
  | Err _ => False end.
Proof. vm_compute. repeat split; reflexivity. Qed.

(** C29 *)
Theorem extend_sinogram_complementary_weights_partial : forall shift sino k side,
  2 <= k -> k <= ncol sino -> (side = 0 \/ side = 1) ->
  exists out c (W : Z -> Q), extend_sinogram shift sino (CTup (inject_Z k) side) = Ok (out, c) /\
    nrow out = nrow sino /\ ncol out = 2 * ncol sino - k /\ (c == inject_Z (ncol out - 1) / 2)%Q /\
    (forall j, in_rng (ncol out) j -> (0 <= W j <= 1)%Q /\ (W j + W (ncol out - 1 - j)%Z == 1)%Q) /\
    let off := if side =? 1 then 0 else ncol sino - k in
    (forall i j, in_rng (ncol out) j -> (px out i j == 2 * W j * px sino i (clipZ (j - off) 0 (ncol sino - 1)))%Q) /\
    (forall j, in_rng (ncol out) j -> (if side =? 1 then j < ncol sino - k else ncol sino <= j) -> (W j == 1)%Q).
Proof. exact extend_plain. Qed.
Print Assumptions extend_sinogram_complementary_weights_partial.
Theorem extend_sinogram_overlap_one_refuted : forall shift side, (side = 0 \/ side = 1) ->
  exists sino out c j, ncol sino = 4 /\ (forall i j, px sino i j = 1%Q) /\
    extend_sinogram shift sino (CTup 1 side) = Ok (out, c) /\ in_rng (ncol out) j /\
    ~ (px out 0 j + px out 0 (ncol out - 1 - j)%Z == 2)%Q.
Proof. exact extend_one_refuted. Qed.
Print Assumptions extend_sinogram_overlap_one_refuted.
Example ex_extend :
  let s := mkimg 1 4 (fun i j => 1%Q) in
  match extend_sinogram (fun m _ => m) s (CTup 3 0) with
  | Ok (o, c) => map (fun j => Qred (px o 0 j)) (zrange 0 5) = [0; 0; 1; 2; 2]%Q /\ Qred c = 2%Q
  | Err _ => False end.
Proof. vm_compute. split; reflexivity. Qed.

(** C30 *)
Theorem convert_180_to_360_shape : forall shift sino c,
  (forall m s, nrow (shift m s) = nrow m /\ ncol (shift m s) = ncol m) -> 1 <= nrow sino ->
  let out := convert_sinogram_180_to_360 shift sino c in
  nrow out = 2 * nrow sino - 1 /\ ncol out = ncol sino /\
  forall i j, in_rng (nrow sino) i -> px out i j = px sino i j.
Proof. exact to_360_shape. Qed.
Print Assumptions convert_180_to_360_shape.
Theorem convert_180_to_360_mirrors_integer : forall shift sino c2,
  integer_shift shift -> 1 <= nrow sino -> 1 <= ncol sino -> (c2 - (ncol sino - 1)) mod 2 = 0 ->
  let out := convert_sinogram_180_to_360 shift sino (inject_Z c2 / 2) in
  forall r j, 1 <= r < nrow sino -> in_rng (ncol sino) j ->
    px out (nrow sino - 1 + r) j = px sino r (clipZ (c2 - j) 0 (ncol sino - 1)).
Proof. exact to_360_integer. Qed.
Print Assumptions convert_180_to_360_mirrors_integer.
Theorem convert_180_to_360_mirrors_scene : forall shift sino c al be,
  ideal_shift shift -> 1 <= nrow sino -> 2 <= ncol sino -> samples al be 0 sino ->
  let out := convert_sinogram_180_to_360 shift sino c in
  forall r j, 1 <= r < nrow sino -> in_rng (ncol sino) j ->
    (px out (nrow sino - 1 + r)%Z j == al r + be r * (2 * c - inject_Z j))%Q.
Proof. exact to_360_ideal. Qed.
Print Assumptions convert_180_to_360_mirrors_scene.
(** hypotheses are satisfiable *)
Example ex_ideal_shift : ideal_shift line_shift.
Proof. exact line_shift_ideal. Qed.
Definition nearest_shift (m : img Q) (s : Q) : img Q :=
  mkimg (nrow m) (ncol m) (fun i j => px m i (clipZ (j - Qfloor s) 0 (ncol m - 1))).
Example ex_integer_shift : integer_shift nearest_shift.
Proof.
  intros m s k E. cbn. split; [reflexivity|]. split; [reflexivity|]. intros i j _ _.
  rewrite (Qfloor_comp _ _ E), Qfloor_Z. reflexivity.
Qed.
Example ex_180_360 :
  let o := convert_sinogram_180_to_360 nearest_shift (mkimg 2 5 (fun i j => inject_Z (10 * i + j))) 3 in
  map (fun j => px o 2 j) (zrange 0 5) = [14; 14; 14; 13; 12]%Q.
Proof. vm_compute. reflexivity. Qed.

(** C31 *)
Theorem helical_rows_are_convex_combinations :
  forall full index d num_proj pixel y_start y_stop pitch t180 angles flat dark blob ct cb cl cr rows angs,
  helical full index d num_proj pixel y_start y_stop pitch t180 angles flat dark blob (ct, cb, cl, cr) = Ok (rows, angs) ->
  exists i0, 0 <= i0 /\ (rows <> [] -> i0 + Z.of_nat (length rows) <= dep d) /\
    (vlen angles = dep d -> vlen angs = Z.of_nat (length rows) /\
      forall t, 0 <= t < vlen angs -> vat angs t = vat angles (i0 + t)) /\
    (full = false -> Z.of_nat (length rows) = if t180 then num_proj else 2 * num_proj - 1) /\
    forall t row, nth_error rows t = Some row ->
      exists rd ru lam lo hi, ct <= rd /\ rd <= ru <= rd + 1 /\ ru < hei d - cb /\
        corrected_row d flat dark blob (i0 + Z.of_nat t) rd cl (wid d - cr) = Ok lo /\
        corrected_row d flat dark blob (i0 + Z.of_nat t) ru cl (wid d - cr) = Ok hi /\
        (0 <= lam <= 1)%Q /\ vlen row = vlen lo /\
        forall k, (vat row k == lam * vat lo k + (1 - lam) * vat hi k)%Q.
Proof. exact helical_spec. Qed.
Print Assumptions helical_rows_are_convex_combinations.
Theorem helical_row_interpolates_at_its_height :
  forall d flat dark blob y_e y_pos y_step pixel fov height ct l r i row,
  helical_row d flat dark blob y_e y_pos y_step pixel fov height ct l r i = Ok row ->
  let pos := ((y_e + fov - inject_Z i * y_step - y_pos) / pixel - 1)%Q in
  exists jd ju lam lo hi, 0 <= jd /\ jd <= ju <= jd + 1 /\ ju <= height - 1 /\
    corrected_row d flat dark blob i (jd + ct) l r = Ok lo /\
    corrected_row d flat dark blob i (ju + ct) l r = Ok hi /\
    (0 <= lam <= 1)%Q /\ vlen row = vlen lo /\
    (forall k, (vat row k == lam * vat lo k + (1 - lam) * vat hi k)%Q) /\
    (0 <= pos < inject_Z height)%Q /\
    (lam * inject_Z jd + (1 - lam) * inject_Z ju == Qminb pos (inject_Z (height - 1)))%Q.
Proof. exact helical_row_spec. Qed.
Print Assumptions helical_row_interpolates_at_its_height.
(** the same, in terms of the raw data: [corr] is the flat-field-corrected pixel; row [t] belongs to projection [i0 + t], [i0] being the
    first projection taken at or below the requested height, and samples the detector at the (fractional) row [pos] *)
Theorem helical_rows_interpolate_the_raw_data :
  forall full index d num_proj pixel y_start y_stop pitch t180 angles flat dark ct cb cl cr rows angs,
  helical full index d num_proj pixel y_start y_stop pitch t180 angles flat dark (fun _ v => Ok v) (ct, cb, cl, cr) = Ok (rows, angs) ->
  0 <= ct -> 0 <= cb -> 0 <= cl -> 0 <= cr ->
  nrow flat = hei d -> ncol flat = wid d -> nrow dark = hei d -> ncol dark = wid d ->
  let margin := (if (t180 : bool) then pitch / 2 else pitch)%Q in
  let y_s := (y_start + margin)%Q in let y_e := (y_stop - margin)%Q in
  let height := hei d - cb - ct in
  let y_step := (pitch / (2 * inject_Z (num_proj - 1)))%Q in
  let y_pos := (inject_Z (index - 1) * pixel + y_s)%Q in
  let corr i r k := ((vx d i r (cl + k) - px dark r (cl + k)) / (px flat r (cl + k) - px dark r (cl + k)))%Q in
  exists i0, (inject_Z (i0 - 1) < (y_e - y_pos) / y_step <= inject_Z i0)%Q /\
  forall t row, nth_error rows t = Some row ->
    let i := i0 + Z.of_nat t in
    let pos := ((y_e + pixel * inject_Z height - inject_Z i * y_step - y_pos) / pixel - 1)%Q in
    vlen row = wid d - cr - cl /\ (0 <= pos < inject_Z height)%Q /\
    exists j lam, 0 <= j < height /\ (0 <= lam <= 1)%Q /\ (j = height - 1 -> (lam == 1)%Q) /\
      (inject_Z j + (1 - lam) == Qminb pos (inject_Z (height - 1)))%Q /\
      forall k, 0 <= k < wid d - cr - cl ->
        (vat row k == lam * corr i (ct + j)%Z k + (1 - lam) * corr i (ct + j + 1)%Z k)%Q.
Proof. exact helical_value. Qed.
Print Assumptions helical_rows_interpolate_the_raw_data.
(** an index is accepted only for a height inside the reconstructable range *)
Theorem helical_index_lies_in_the_reconstructable_range :
  forall index d num_proj pixel y_start y_stop pitch t180 angles flat dark blob ct cb cl cr rows angs,
  helical false index d num_proj pixel y_start y_stop pitch t180 angles flat dark blob (ct, cb, cl, cr) = Ok (rows, angs) ->
  let margin := (if (t180 : bool) then pitch / 2 else pitch)%Q in
  let y_s := (y_start + margin)%Q in let y_e := (y_stop - margin)%Q in
  (0 < pixel)%Q -> (y_s <= y_e)%Q -> 0 <= index /\ (y_s + inject_Z (index - 1) * pixel <= y_e)%Q.
Proof. exact helical_index. Qed.
Print Assumptions helical_index_lies_in_the_reconstructable_range.
(** and conversely every height in the range whose projections exist and see it is converted *)
Theorem helical_converts_every_visible_height :
  forall index d num_proj pixel y_start y_stop pitch t180 angles flat dark ct cb cl cr i0,
  let margin := (if (t180 : bool) then pitch / 2 else pitch)%Q in
  let y_s := (y_start + margin)%Q in let y_e := (y_stop - margin)%Q in
  let height := hei d - cb - ct in
  let y_step := (pitch / (2 * inject_Z (num_proj - 1)))%Q in
  let y_pos := (inject_Z (index - 1) * pixel + y_s)%Q in
  let num := if (t180 : bool) then num_proj else 2 * num_proj - 1 in
  (0 < pixel)%Q -> (0 < pitch)%Q -> 2 <= num_proj -> (y_s <= y_e)%Q ->
  0 <= ct -> 0 <= cb -> 0 <= cl -> 0 <= cr -> cl + cr <= wid d ->
  nrow flat = hei d -> ncol flat = wid d -> nrow dark = hei d -> ncol dark = wid d ->
  0 <= index -> (y_pos <= y_e)%Q ->
  (inject_Z (i0 - 1) < (y_e - y_pos) / y_step <= inject_Z i0)%Q -> i0 + num <= dep d ->
  (forall i, i0 <= i < i0 + num ->
     (0 <= (y_e + pixel * inject_Z height - inject_Z i * y_step - y_pos) / pixel - 1 < inject_Z height)%Q) ->
  exists rows angs, helical false index d num_proj pixel y_start y_stop pitch t180 angles flat dark (fun _ v => Ok v) (ct, cb, cl, cr) = Ok (rows, angs).
Proof. exact helical_total. Qed.
Print Assumptions helical_converts_every_visible_height.
(** the largest index of the range is one of them *)
Example ex_helical_last_index :
  let d := mkvol 60 8 3 (fun a b c => inject_Z (100 * a + 10 * b + c)) in
  let flat := mkimg 8 3 (fun _ _ => 1%Q) in let dark := mkimg 8 3 (fun _ _ => 0%Q) in
  is_ok (helical false 15 d 5 1 0 20 6 true (mkvec 60 inject_Z) flat dark (fun _ v => Ok v) (1, 1, 0, 0)) = true.
Proof. vm_compute. reflexivity. Qed.
Example ex_helical :
  let d := mkvol 60 8 3 (fun a b c => inject_Z (100 * a + 10 * b + c)) in
  let flat := mkimg 8 3 (fun _ _ => 1%Q) in let dark := mkimg 8 3 (fun _ _ => 0%Q) in
  match helical false 9 d 5 1 0 20 6 true (mkvec 60 inject_Z) flat dark (fun _ v => Ok v) (1, 1, 0, 0) with
  | Ok (rows, angs) => (length rows, vlen angs) = (5%nat, 5) /\
      map (fun r => Qred (vat r 0)) rows = [860; (1905 # 2); 1045; (2275 # 2); 1230]%Q
  | Err _ => False end.
Proof. vm_compute. split; reflexivity. Qed.

(** C68 *)
Theorem stitch_image_aligns_the_scene_partial : forall shift m1 m2 k al be,
  1 <= k -> k <= ncol m1 -> k <= ncol m2 -> nrow m1 = nrow m2 ->
  samples al be 0 m1 -> samples al be (inject_Z (ncol m1 - k)) m2 ->
  exists out, stitch_image shift m1 m2 (inject_Z k) 1 PNone PNone false None = Ok out /\ samples al be 0 out.
Proof. exact stitch_aligned. Qed.
Print Assumptions stitch_image_aligns_the_scene_partial.
Theorem join_image_aligns_the_scene_partial : forall shift m1 m2 g al be,
  0 <= g -> 4 <= ncol m1 -> 4 <= ncol m2 -> nrow m1 = nrow m2 -> 2 <= nrow m1 ->
  samples al be 0 m1 -> samples al be (inject_Z (ncol m1 + g)) m2 ->
  exists out, join_image shift m1 m2 (inject_Z g) 1 false None = Ok out /\ samples al be 0 out.
Proof. exact join_aligned. Qed.
Print Assumptions join_image_aligns_the_scene_partial.
Theorem stitch_image_fractional_overlap_misaligns_refuted : forall shift, ideal_shift shift -> forall m1 m2 k s al be,
  (0 < s)%Q -> (s < 499#1000)%Q -> 1 <= k -> k < ncol m1 -> k < ncol m2 -> nrow m1 = nrow m2 ->
  let ov := (inject_Z k + s)%Q in
  samples al be 0 m1 -> samples al be (inject_Z (ncol m1) - ov)%Q m2 ->
  exists out, stitch_image shift m1 m2 ov 1 PNone PNone false None = Ok out /\
   ncol out = ncol m1 + ncol m2 - k /\ nrow out = nrow m1 /\
   forall i j, in_rng (nrow m1) i -> in_rng (ncol out) j ->
    (j < ncol m1 - k -> (px out i j == al i + be i * (inject_Z j - s))%Q) /\
    (ncol m1 <= j -> (px out i j == al i + be i * inject_Z j)%Q).
Proof. exact stitch_subpixel. Qed.
Print Assumptions stitch_image_fractional_overlap_misaligns_refuted.
Theorem join_image_fractional_gap_misaligns_refuted : forall shift, ideal_shift shift -> forall m1 m2 g s al be,
  (0 < s)%Q -> (s < 499#1000)%Q -> 0 <= g -> 4 <= ncol m1 -> 4 <= ncol m2 -> nrow m1 = nrow m2 -> 2 <= nrow m1 ->
  let gap := (inject_Z g + s)%Q in
  samples al be 0 m1 -> samples al be (inject_Z (ncol m1) + gap)%Q m2 ->
  exists out, join_image shift m1 m2 gap 1 false None = Ok out /\
   ncol out = ncol m1 + ncol m2 + g /\ nrow out = nrow m1 /\
   forall i j, in_rng (nrow m1) i -> in_rng (ncol out) j ->
    (j < ncol m1 - 2 -> (px out i j == al i + be i * (inject_Z j - s))%Q) /\
    (ncol m1 + g + 3 <= j -> (px out i j == al i + be i * (inject_Z j + 2 * s))%Q).
Proof. exact join_subpixel. Qed.
Print Assumptions join_image_fractional_gap_misaligns_refuted.
Theorem extend_sinogram_fractional_overlap_moves_the_axis_refuted : forall shift, ideal_shift shift -> forall sino k s al be,
  (0 < s)%Q -> (s < 499#1000)%Q -> 2 <= k -> k < ncol sino ->
  let ov := (inject_Z k + s)%Q in
  let centre := (inject_Z (ncol sino) - ov / 2 - (1#2))%Q in
  samples al be (- centre)%Q sino ->
  exists out c, extend_sinogram shift sino (CTup ov 1) = Ok (out, c) /\ nrow out = nrow sino /\
    ncol out = 2 * ncol sino - k /\
    forall i j, in_rng (nrow sino) i -> 0 <= j < ncol sino - k ->
      (px out i j == 2 * (al i + be i * (inject_Z j - c - s / 2)))%Q.
Proof. exact extend_subpixel. Qed.
Print Assumptions extend_sinogram_fractional_overlap_moves_the_axis_refuted.
