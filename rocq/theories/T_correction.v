(** Property theorems for correction.py (C24, C32, C33, C34, C43, C70). *)
From Coq Require Import Reals Lra.
From Verif Require Import Np P_Np M_conversion M_correction S_correction P_correction P_correction2 P_correction3 M_beam P_beam.
From Coq Require Import QArith Qround Lqa.
From Coq Require Import List. Import ListNotations.
Open Scope Z_scope.

(** C24 *)
Theorem flat_field_correction_with_dark : forall proj flat dark ratio, nrow proj = nrow flat -> ncol proj = ncol flat ->
  let out := flat_field_correction proj flat dark ratio true in
  nrow out = nrow proj /\ ncol out = ncol proj /\
  exists den : Z -> Z -> Q, forall i j, in_rng (nrow proj) i -> in_rng (ncol proj) j ->
    ~ (den i j == 0)%Q /\ (px out i j == (px proj i j - px dark i j) / den i j)%Q /\
    (~ (ratio * px flat i j - px dark i j == 0)%Q -> (den i j == ratio * px flat i j - px dark i j)%Q) /\
    ((ratio * px flat i j - px dark i j == 0)%Q -> let mean := qmean2 (nrow flat) (ncol flat) (fun i j => (ratio * px flat i j - px dark i j)%Q) in
       (~ (mean == 0)%Q -> (den i j == mean)%Q) /\ ((mean == 0)%Q -> (den i j == 1)%Q)).
Proof. exact ffc_dark. Qed.
Print Assumptions flat_field_correction_with_dark.
Theorem flat_field_correction_without_dark : forall proj flat dark ratio, nrow proj = nrow flat -> ncol proj = ncol flat ->
  let out := flat_field_correction proj flat dark ratio false in
  nrow out = nrow proj /\ ncol out = ncol proj /\
  exists den : Z -> Z -> Q, forall i j, in_rng (nrow proj) i -> in_rng (ncol proj) j ->
    ~ (den i j == 0)%Q /\ (px out i j == px proj i j / den i j)%Q /\
    (~ (ratio * px flat i j == 0)%Q -> (den i j == ratio * px flat i j)%Q) /\
    ((ratio * px flat i j == 0)%Q -> let mean := qmean2 (nrow flat) (ncol flat) (fun i j => (ratio * px flat i j)%Q) in
       (~ (mean == 0)%Q -> (den i j == mean)%Q) /\ ((mean == 0)%Q -> (den i j == 1)%Q)).
Proof. exact ffc_nodark. Qed.
Print Assumptions flat_field_correction_without_dark.
Theorem flat_field_correction_maps_flat_to_1_and_dark_to_0 : forall proj flat dark ratio i j,
  nrow proj = nrow flat -> ncol proj = ncol flat -> in_rng (nrow proj) i -> in_rng (ncol proj) j ->
  ~ (ratio * px flat i j - px dark i j == 0)%Q ->
  let v := px (flat_field_correction proj flat dark ratio true) i j in
  ((px proj i j == ratio * px flat i j)%Q -> (v == 1)%Q) /\ ((px proj i j == px dark i j)%Q -> (v == 0)%Q).
Proof. exact ffc_flat_is_one. Qed.
Print Assumptions flat_field_correction_maps_flat_to_1_and_dark_to_0.
Example ex_ffc :
  let f := mkimg 1 3 (fun _ j => inject_Z (j + 1)) in let d := mkimg 1 3 (fun _ _ => 1%Q) in
  let p := mkimg 1 3 (fun _ _ => 2%Q) in
  map (fun j => Qred (px (flat_field_correction p f d 1 true) 0 j)) (zrange 0 3) = [1; 1; 1 # 2]%Q.
Proof. reflexivity. Qed.

(** C33 (and C32): a sinogram is the stack of the rows of the unwarped projections *)
Theorem unwarp_sinogram_equals_rows_of_unwarped_projections :
  forall radius d index xc yc facts opt idxs, 1 <= wid d -> 1 <= hei d ->
  opt_range (dep d) opt = Ok idxs -> (forall idx, In idx idxs -> in_rng (dep d) idx) ->
  exists rows, unwarp_sinogram radius d index xc yc facts opt = Ok rows /\
    Forall2 (fun idx row => vlen row = wid d /\
      forall j, in_rng (wid d) j -> (vat row j == px (unwarp_projection radius (vol_img d idx) xc yc facts) index j)%Q)
      idxs rows.
Proof. exact unwarp_sinogram_spec. Qed.
Print Assumptions unwarp_sinogram_equals_rows_of_unwarped_projections.
Theorem unwarp_sinogram_chunk_equals_rows_partial :
  forall radius d start stop xc yc facts opt idxs,
  let yr := fun j y => (yc + dist_fact radius facts (inject_Z j - xc) (inject_Z y - yc) * (inject_Z y - yc))%Q in
  1 <= wid d -> start < stop -> stop <> -1 ->
  (forall j y, in_rng (wid d) j -> start <= y < stop -> (yr j y + 1 <= yr j (y + 1)%Z)%Q) ->
  (forall j, in_rng (wid d) j -> (0 <= yr j start)%Q /\ (yr j stop <= inject_Z (hei d - 1))%Q) ->
  opt_range (dep d) opt = Ok idxs -> (forall idx, In idx idxs -> in_rng (dep d) idx) ->
  exists rows, unwarp_sinogram_chunk radius d start stop xc yc facts opt = Ok rows /\
    Forall2 (fun idx m => nrow m = stop - start /\ ncol m = wid d /\
      forall r j, in_rng (stop - start) r -> in_rng (wid d) j ->
        (px m r j == px (unwarp_projection radius (vol_img d idx) xc yc facts) (start + r)%Z j)%Q)
      idxs rows.
Proof. exact unwarp_chunk_spec. Qed.
Print Assumptions unwarp_sinogram_chunk_equals_rows_partial.
(** every pixel is the interpolation of the raw projection at the coordinates of the radial distortion model *)
Theorem unwarp_projection_follows_the_radial_model : forall radius proj xc yc facts y j, in_rng (nrow proj) y -> in_rng (ncol proj) j ->
  let xu := (inject_Z j - xc)%Q in let yu := (inject_Z y - yc)%Q in
  let f := polynomial facts (radius xu yu) in
  interpolates proj (into (nrow proj) (yc + f * yu)) (into (ncol proj) (xc + f * xu)) (px (unwarp_projection radius proj xc yc facts) y j).
Proof. exact unwarp_value. Qed.
Print Assumptions unwarp_projection_follows_the_radial_model.
(** [c], [s]: cosine and sine of the tilt; the image is rotated about its centre *)
Theorem tilted_profile_line_interpolates_the_whole_image : forall c s m index, 1 <= ncol m -> 1 <= nrow m ->
  let xc := ((inject_Z (ncol m) - 1) / 2)%Q in let yc := ((inject_Z (nrow m) - 1) / 2)%Q in
  exists v, generate_tilted_profile_line c s m index = Ok v /\ vlen v = ncol m /\
    forall j, in_rng (ncol m) j ->
      interpolates m (into (nrow m) (yc + ((inject_Z j - xc) * s + (inject_Z index - yc) * c)))
        (into (ncol m) (xc + ((inject_Z j - xc) * c - (inject_Z index - yc) * s))) (vat v j).
Proof. exact tilt_line_value. Qed.
Print Assumptions tilted_profile_line_interpolates_the_whole_image.
Theorem tilted_profile_chunk_interpolates_the_whole_image : forall c s m start stop, 1 <= ncol m -> 1 <= nrow m -> start <= stop ->
  let xc := ((inject_Z (ncol m) - 1) / 2)%Q in let yc := ((inject_Z (nrow m) - 1) / 2)%Q in
  exists o, generate_tilted_profile_chunk c s m start stop = Ok o /\ nrow o = stop - start + 1 /\ ncol o = ncol m /\
    forall r j, in_rng (stop - start + 1) r -> in_rng (ncol m) j ->
      interpolates m (into (nrow m) (yc + ((inject_Z j - xc) * s + (inject_Z (start + r) - yc) * c)))
        (into (ncol m) (xc + ((inject_Z j - xc) * c - (inject_Z (start + r) - yc) * s))) (px o r j).
Proof. exact tilt_chunk_value. Qed.
Print Assumptions tilted_profile_chunk_interpolates_the_whole_image.
(** a concrete value: quarter-turn of a 3x3 image *)
Example ex_tilt : match generate_tilted_profile_line 0 1 (mkimg 3 3 (fun i j => inject_Z (10 * i + j))) 0 with
  | Ok v => map (fun j => Qred (vat v j)) (zrange 0 3) = [2; 12; 22]%Q | Err _ => False end.
Proof. vm_compute. reflexivity. Qed.
Theorem tilted_sinogram_is_made_of_profile_lines : forall c s d index opt idxs, 1 <= wid d -> 1 <= hei d ->
  opt_range (dep d) opt = Ok idxs -> (forall idx, In idx idxs -> in_rng (dep d) idx) ->
  exists rows, generate_tilted_sinogram c s d index opt = Ok rows /\
    Forall2 (fun idx row => exists v, generate_tilted_profile_line c s (vol_img d idx) index = Ok v /\ vec_Qeq row v) idxs rows.
Proof. exact tilted_sinogram_spec. Qed.
Print Assumptions tilted_sinogram_is_made_of_profile_lines.
Theorem tilted_sinogram_chunk_is_made_of_profile_lines : forall c s d start stop opt idxs,
  1 <= wid d -> 1 <= hei d -> start <= stop ->
  opt_range (dep d) opt = Ok idxs -> (forall idx, In idx idxs -> in_rng (dep d) idx) ->
  exists rows, generate_tilted_sinogram_chunk c s d start stop opt = Ok rows /\
    Forall2 (fun idx m => nrow m = stop - start + 1 /\ ncol m = wid d /\
      forall r, in_rng (stop - start + 1) r ->
        exists v, generate_tilted_profile_line c s (vol_img d idx) (start + r) = Ok v /\ vec_Qeq (irow m r) v) idxs rows.
Proof. exact tilted_sinogram_chunk_spec. Qed.
Print Assumptions tilted_sinogram_chunk_is_made_of_profile_lines.
Theorem tilted_profile_line_angle_zero : forall m index, 1 <= ncol m -> in_rng (nrow m) index ->
  exists v, generate_tilted_profile_line 1 0 m index = Ok v /\ vec_Qeq v (irow m index).
Proof. exact tilt_zero. Qed.
Print Assumptions tilted_profile_line_angle_zero.
Example ex_tilt_quarter_turn :
  let m := mkimg 5 4 (fun i j => inject_Z (10 * i + j)) in
  match generate_tilted_profile_line (4#5) (3#5) m 2 with
  | Ok v => map (fun j => Qred (vat v j)) (zrange 0 4) = [113 # 10; 181 # 10; 249 # 10; 317 # 10]%Q
  | Err _ => False end.
Proof. vm_compute. reflexivity. Qed.

(** C32 *)
Theorem unwarp_projection_identity : forall radius proj xc yc,
  img_Qeq (unwarp_projection radius proj xc yc [1%Q]) proj.
Proof. exact unwarp_projection_id. Qed.
Print Assumptions unwarp_projection_identity.
Theorem unwarp_sinogram_identity : forall radius d index xc yc opt idxs, 1 <= wid d -> in_rng (hei d) index ->
  opt_range (dep d) opt = Ok idxs -> (forall idx, In idx idxs -> in_rng (dep d) idx) ->
  exists rows, unwarp_sinogram radius d index xc yc [1%Q] opt = Ok rows /\
    Forall2 (fun idx row => vlen row = wid d /\ forall j, in_rng (wid d) j -> (vat row j == vx d idx index j)%Q) idxs rows.
Proof. exact unwarp_sinogram_id. Qed.
Print Assumptions unwarp_sinogram_identity.
Theorem unwarp_sinogram_chunk_identity_partial : forall radius d start stop xc yc opt idxs,
  1 <= wid d -> 0 <= start -> start < stop -> stop < hei d ->
  opt_range (dep d) opt = Ok idxs -> (forall idx, In idx idxs -> in_rng (dep d) idx) ->
  exists rows, unwarp_sinogram_chunk radius d start stop xc yc [1%Q] opt = Ok rows /\
    Forall2 (fun idx m => nrow m = stop - start /\ ncol m = wid d /\
      forall r j, in_rng (stop - start) r -> in_rng (wid d) j -> (px m r j == vx d idx (start + r) j)%Q) idxs rows.
Proof. exact unwarp_chunk_id. Qed.
Print Assumptions unwarp_sinogram_chunk_identity_partial.
Theorem unwarp_sinogram_chunk_loses_the_last_row_refuted : forall radius d start xc yc opt idxs,
  1 <= wid d -> 0 <= start -> start < hei d - 1 ->
  opt_range (dep d) opt = Ok idxs -> (forall idx, In idx idxs -> in_rng (dep d) idx) ->
  exists rows, unwarp_sinogram_chunk radius d start (-1) xc yc [1%Q] opt = Ok rows /\
    Forall2 (fun idx m => nrow m = hei d - start /\
      forall j, in_rng (wid d) j -> (px m (hei d - 1 - start)%Z j == vx d idx (hei d - 2) j)%Q) idxs rows.
Proof. exact unwarp_chunk_last_row. Qed.
Print Assumptions unwarp_sinogram_chunk_loses_the_last_row_refuted.
Example ex_unwarp_range : opt_range 7 (Some (1, 7, 2)) = Ok [1; 3; 5] /\ (forall i, In i [1; 3; 5] -> in_rng 7 i).
Proof. split; [reflexivity|]. unfold in_rng. cbn. intros i H. lia. Qed.
Example ex_unwarp : (* a magnification by 3/2 about row 1 satisfies the guard of the chunk theorem for rows 1..2 of 4 *)
  let d := mkvol 1 5 2 (fun _ r j => inject_Z (10 * r + j)) in
  match unwarp_sinogram_chunk (fun _ _ => 0%Q) d 1 3 0 1 [3#2]%Q None with
  | Ok [m] => (nrow m, Qred (px m 0 0), Qred (px m 1 0)) = (2, 10%Q, 25%Q)
  | _ => False end.
Proof. vm_compute. reflexivity. Qed.

(** C34 *)
Theorem beam_hardening_keeps_the_grey_range : forall q n, (0 < q)%R -> (2 <= n)%R -> forall top m opt,
  (exists i j, in_rng (nrow m) i /\ in_rng (ncol m) j /\ top = px m i j) (* the maximum is some grey level *) ->
  (forall i j, in_rng (nrow m) i -> in_rng (ncol m) j -> (0 <= px m i j <= 1)%R) ->
  exists out, beam_hardening_correction top m q n opt = Ok out /\ nrow out = nrow m /\ ncol out = ncol m /\
    forall i j, in_rng (nrow m) i -> in_rng (ncol m) j -> (0 <= px out i j <= 1)%R /\
      (px m i j = 0%R -> px out i j = 0%R) /\ (px m i j = 1%R -> px out i j = 1%R) /\
      (* the response of a polychromatic beam, applied to the grey level or to its complement *)
      (let response := fun x => if Req_EM_T x 0 then 0%R else (ln (1 + q * (n * x - Rpower x n)) / ln (1 + q * (n - 1)))%R in
       px out i j = if opt then (1 - response (1 - px m i j))%R else response (px m i j)) /\
      forall i' j', in_rng (nrow m) i' -> in_rng (ncol m) j' -> (px m i j < px m i' j')%R -> (px out i j < px out i' j')%R.
Proof. exact bhc. Qed.
Print Assumptions beam_hardening_keeps_the_grey_range.
Theorem beam_hardening_rejects_small_n : forall top m q n opt, (n < 2)%R -> beam_hardening_correction top m q n opt = Err ValueError.
Proof. exact bhc_reject_n. Qed.
Print Assumptions beam_hardening_rejects_small_n.
Theorem beam_hardening_rejects_unnormalised : forall top m q n opt, (2 <= top)%R -> beam_hardening_correction top m q n opt = Err ValueError.
Proof. exact bhc_reject_max. Qed.
Print Assumptions beam_hardening_rejects_unnormalised.

(** C43 *)
Theorem upsample_sinogram_intervals : forall filter to360,
  (forall m, nrow (filter m) = nrow m /\ ncol (filter m) = ncol m) -> forall sino scale center t180,
  1 <= nrow sino -> 0 < scale -> scale mod 2 = 0 -> (0 < center)%Q ->
  (forall m, nrow (to360 m) = 2 * nrow m - 1 /\ ncol (to360 m) = ncol m) ->
  exists out, upsample_sinogram filter to360 sino scale center t180 = Ok out /\
    nrow out - 1 = 2 ^ (scale / 2) * (nrow sino - 1).
Proof. exact upsample_rows. Qed.
Print Assumptions upsample_sinogram_intervals.
Theorem upsample_sinogram_multiplies_the_sampling_partial : forall filter to360,
  (forall m, nrow (filter m) = nrow m /\ ncol (filter m) = ncol m) -> forall sino scale center t180,
  1 <= nrow sino -> scale = 2 \/ scale = 4 -> (0 < center)%Q ->
  (forall m, nrow (to360 m) = 2 * nrow m - 1 /\ ncol (to360 m) = ncol m) ->
  exists out, upsample_sinogram filter to360 sino scale center t180 = Ok out /\ nrow out - 1 = scale * (nrow sino - 1).
Proof. exact upsample_ok. Qed.
Print Assumptions upsample_sinogram_multiplies_the_sampling_partial.
Theorem upsample_sinogram_scale_from_6_refuted : forall filter to360,
  (forall m, nrow (filter m) = nrow m /\ ncol (filter m) = ncol m) -> forall sino scale center t180,
  2 <= nrow sino -> 6 <= scale -> scale mod 2 = 0 -> (0 < center)%Q ->
  (forall m, nrow (to360 m) = 2 * nrow m - 1 /\ ncol (to360 m) = ncol m) ->
  exists out, upsample_sinogram filter to360 sino scale center t180 = Ok out /\ nrow out - 1 > scale * (nrow sino - 1).
Proof. exact upsample_wrong. Qed.
Print Assumptions upsample_sinogram_scale_from_6_refuted.
(** scale 2 on a 360-degree sinogram: the measured rows are re-inserted as the even rows, the odd rows being the
    filtered zero-filled sinogram scaled to the mean of the input; the result is the filtered interleaving *)
Theorem upsample_sinogram_keeps_the_measured_rows : forall filter to360,
  (forall m, nrow (filter m) = nrow m /\ ncol (filter m) = ncol m) -> forall sino center,
  exists first guess second, upsample_sinogram filter to360 sino 2 center false = Ok (filter second) /\
    interleaved sino (mkimg (nrow first) (ncol first) (fun _ _ => 0%Q)) first /\
    nrow guess = nrow first /\ ncol guess = ncol first /\
    (forall i j, (px guess i j == px (filter first) i j * (qmean2 (nrow sino) (ncol sino) (px sino) / qmean2 (nrow first) (ncol first) (px (filter first))))%Q) /\
    interleaved sino guess second.
Proof. exact upsample_twice. Qed.
Print Assumptions upsample_sinogram_keeps_the_measured_rows.
Example ex_upsample : match upsample_sinogram (fun m => m) (fun m => m) (mkimg 3 2 (fun i j => inject_Z (i + 1))) 4 1 false with
  | Ok o => nrow o = 9 | Err _ => False end.
Proof. vm_compute. reflexivity. Qed.

(** C70 *)
Theorem mtf_deconvolution_with_flat_window_is_identity : forall deconv rv m window pad,
  (forall a w, (forall i j, in_rng (nrow w) i -> in_rng (ncol w) j -> (px w i j == 1)%Q) -> img_Qeq (deconv a w) a) ->
  nrow m <= nrow window -> ncol m <= ncol window -> 0 <= nrow m -> 0 <= ncol m -> 0 <= pad ->
  (forall i j, in_rng (nrow window) i -> in_rng (ncol window) j -> (px window i j == 1)%Q) ->
  exists out, mtf_deconvolution deconv rv m window pad = Ok out /\ img_Qeq out m.
Proof. exact mtf_id. Qed.
Print Assumptions mtf_deconvolution_with_flat_window_is_identity.
Theorem mtf_deconvolution_rejects_small_window : forall deconv rv m window pad,
  nrow window < nrow m \/ ncol window < ncol m -> mtf_deconvolution deconv rv m window pad = Err ValueError.
Proof. exact mtf_too_large. Qed.
Print Assumptions mtf_deconvolution_rejects_small_window.
Example ex_mtf : match mtf_deconvolution (fun a _ => a) (fun _ _ _ => 7%Q) (mkimg 2 3 (fun i j => inject_Z (10 * i + j)))
    (mkimg 4 3 (fun _ _ => 1%Q)) 2 with Ok o => (nrow o, ncol o, px o 1 2) = (2, 3, 12%Q) | Err _ => False end.
Proof. vm_compute. reflexivity. Qed.
Example ex_beam : let m := mkimg 1 2 (fun _ j => if j =? 0 then (1/4)%R else (3/4)%R) in
  (exists i j, in_rng (nrow m) i /\ in_rng (ncol m) j /\ (3/4)%R = px m i j) /\
  (forall i j, in_rng (nrow m) i -> in_rng (ncol m) j -> (0 <= px m i j <= 1)%R).
Proof.
  cbn. unfold in_rng. split; [exists 0, 1; cbn; repeat split; lia|].
  intros i j _ _. destruct (j =? 0); split; Lra.lra.
Qed.
