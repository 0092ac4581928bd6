(** Property theorems for the automatic threshold (C139). *)
From Coq Require Import Reals Lra ZArith Lia Bool List Permutation Sorted. Import ListNotations.
From Verif Require Import Np P_Np M_phase_R P_phase_R P_simR M_corr M_global M_calib M_threshold S_threshold P_threshold.
Open Scope Z_scope.

(** the value: the pixels in ascending order, resampled to as many values as the longer side has pixels; the cubic that comes closest
    to the first (dark background: last) values, two at most left out, taken at the end *)
Theorem threshold_is_an_end_of_a_fitted_cubic : forall zoom polyfit3, fair_zoom zoom -> (forall v, 4 <= vlen v -> best_cubic v (polyfit3 v)) ->
  forall (mat : img R) (bright : bool), 1 <= nrow mat -> 1 <= ncol mat -> let size := Z.max (nrow mat) (ncol mat) in 6 <= size ->
  exists (u : vec R) (c : list R) (n : Z), ascending u /\ pixels_are mat (map (vat u) (zrange 0 (vlen u))) /\ n < size <= n + 2 /\ Z.odd n = true /\
    let first := mkvec n (vat (zoom u size)) in let final := mkvec n (fun k => vat (zoom u size) (size - n + k)) in
    best_cubic (if bright then first else final) c /\
    calculate_threshold zoom polyfit3 mat bright = Ok (cubic (nth 0 c 0) (nth 1 c 0) (nth 2 c 0) (nth 3 c 0) (if bright then 0 else IZR (n - 1)))%R.
Proof.
  intros zoom polyfit3 HZ HP mat bright Hh Hw size Hs. assert (W := window_range mat Hs). set (u := vec_of (rsort (flat mat))).
  exists u, (polyfit3 (if bright then head_part zoom mat else tail_part zoom mat)), (window mat). split; [|split; [|split; [|split] ] ].
  - intros k l Hk Hl. unfold u, vec_of in *. cbn [vlen vat] in *. apply sorted_nth; [apply rsort_sorted|]. lia.
  - unfold u. rewrite vec_of_list. apply flat_positions. symmetry. apply rsort_perm.
  - change (P_threshold.size mat) with size in W. unfold window in *. change (P_threshold.size mat) with size in *. assert (D := Z.div_mod size 2 ltac:(lia)). assert (B := Z.mod_pos_bound size 2 ltac:(lia)). lia.
  - unfold window. rewrite Z.odd_sub, Z.odd_mul. reflexivity.
  - intros first final. split.
    + assert (H1 := HP (head_part zoom mat) ltac:(unfold head_part; cbn [vlen]; lia)). assert (H2 := HP (tail_part zoom mat) ltac:(unfold tail_part; cbn [vlen]; lia)). destruct bright; assumption.
    + rewrite (threshold_value zoom polyfit3 HZ) by assumption. destruct bright; reflexivity.
Qed.
Print Assumptions threshold_is_an_end_of_a_fitted_cubic.

(** brighter or more contrast: the threshold follows; a negative: the options "bright" and "dark" change places *)
Theorem threshold_follows_brightness_and_contrast : forall zoom polyfit3, fair_zoom zoom -> (forall v, 4 <= vlen v -> best_cubic v (polyfit3 v)) ->
  forall (mat mat' : img R) (a b : R) (bright : bool), 1 <= nrow mat -> 1 <= ncol mat -> 6 <= Z.max (nrow mat) (ncol mat) -> a <> 0%R ->
  nrow mat' = nrow mat -> ncol mat' = ncol mat -> (forall i j, in_rng (nrow mat) i -> in_rng (ncol mat) j -> px mat' i j = (a * px mat i j + b)%R) ->
  exists t, calculate_threshold zoom polyfit3 mat (if Rlt_dec a 0 then negb bright else bright) = Ok t /\ calculate_threshold zoom polyfit3 mat' bright = Ok (a * t + b)%R.
Proof.
  intros zoom polyfit3 HZ HP mat mat' a b bright Hh Hw Hs Ha E1 E2 E3. destruct (Rlt_dec a 0) as [L|L].
  - apply (threshold_down zoom polyfit3 HZ HP); try assumption. split; [exact E1|]. split; [exact E2|exact E3].
  - apply (threshold_up zoom polyfit3 HZ HP); try assumption; [lra|]. split; [exact E1|]. split; [exact E2|exact E3].
Qed.
Print Assumptions threshold_follows_brightness_and_contrast.

(** only the values count, not where the pixels are *)
Theorem threshold_ignores_positions : forall zoom polyfit3 (mat mat' : img R) l bright,
  Z.max (nrow mat') (ncol mat') = Z.max (nrow mat) (ncol mat) -> pixels_are mat l -> pixels_are mat' l ->
  calculate_threshold zoom polyfit3 mat' bright = calculate_threshold zoom polyfit3 mat bright.
Proof. intros zoom polyfit3 mat mat' l bright S P P'. apply (threshold_positions zoom polyfit3 mat mat' l l bright S P P'). reflexivity. Qed.
Print Assumptions threshold_ignores_positions.
(** a transposed image has the same pixels *)
Example positions_case : pixels_are (mkimg 2 1 (fun i _ => IZR i)) [1; 0]%R /\ pixels_are (mkimg 1 2 (fun _ j => IZR j)) [1; 0]%R.
Proof. split; apply flat_positions; apply perm_swap. Qed.

Theorem threshold_of_a_uniform_image : forall zoom polyfit3, fair_zoom zoom -> (forall v, 4 <= vlen v -> best_cubic v (polyfit3 v)) ->
  forall (mat : img R) (c : R) (bright : bool), 1 <= nrow mat -> 1 <= ncol mat -> 6 <= Z.max (nrow mat) (ncol mat) ->
  (forall i j, in_rng (nrow mat) i -> in_rng (ncol mat) j -> px mat i j = c) -> calculate_threshold zoom polyfit3 mat bright = Ok c.
Proof. intros zoom polyfit3 HZ HP mat c bright. exact (threshold_constant zoom polyfit3 HZ HP mat c bright). Qed.
Print Assumptions threshold_of_a_uniform_image.

(** images with less than six rows and columns are refused *)
Theorem threshold_refuses_small_images : forall zoom polyfit3, fair_zoom zoom -> forall (mat : img R) (bright : bool),
  1 <= nrow mat < 6 -> 1 <= ncol mat < 6 -> calculate_threshold zoom polyfit3 mat bright = Err ValueError.
Proof. intros zoom polyfit3 HZ mat bright H1 H2. apply (threshold_small zoom polyfit3 HZ); [lia..|unfold P_threshold.size; lia]. Qed.
Print Assumptions threshold_refuses_small_images.

(** for equal steps of the grey level, one pixel on each and in any places, it is the smallest (dark background: the largest) pixel *)
Theorem threshold_of_equal_steps_is_the_extreme_pixel_partial : forall zoom polyfit3, fair_zoom zoom -> (forall v, 4 <= vlen v -> best_cubic v (polyfit3 v)) ->
  forall (mat : img R) (a b : R) (bright : bool), 1 <= nrow mat -> 1 <= ncol mat -> let size := Z.max (nrow mat) (ncol mat) in 6 <= size -> (0 <= b)%R ->
  pixels_are mat (map (fun k => a + b * IZR k)%R (zrange 0 size)) ->
  calculate_threshold zoom polyfit3 mat bright = Ok (if bright then a else a + b * IZR (size - 1))%R.
Proof. intros zoom polyfit3 HZ HP mat a b bright Hh Hw size. exact (steps_threshold zoom polyfit3 mat a b bright HZ HP Hh Hw). Qed.
Print Assumptions threshold_of_equal_steps_is_the_extreme_pixel_partial.
Example equal_steps_case : pixels_are (mkimg 7 1 (fun i _ => 3 + 2 * IZR i)%R) (map (fun k => 3 + 2 * IZR k)%R (zrange 0 (Z.max 7 1))).
Proof. apply flat_positions. reflexivity. Qed.

(** the threshold need not lie between the smallest and the largest pixel: two pixels 0 and five pixels 1 have the threshold -3/70 for a
    bright background; five pixels 0 and two pixels 1 have 73/70 for a dark one *)
Theorem threshold_within_the_pixels_refuted : exists mat mat' : img R,
  (forall i j, in_rng (nrow mat) i -> in_rng (ncol mat) j -> px mat i j = (if j <? 2 then 0 else 1)%R) /\ nrow mat = 1 /\ ncol mat = 7 /\
  (forall i j, in_rng (nrow mat') i -> in_rng (ncol mat') j -> px mat' i j = (if j <? 2 then 1 else 0)%R) /\ nrow mat' = 1 /\ ncol mat' = 7 /\
  forall zoom polyfit3, fair_zoom zoom -> (forall v, 4 <= vlen v -> best_cubic v (polyfit3 v)) ->
  calculate_threshold zoom polyfit3 mat true = Ok (- (3 / 70))%R /\ calculate_threshold zoom polyfit3 mat' false = Ok (73 / 70)%R.
Proof.
  exists two_levels, (mkimg 1 7 (fun _ j => if j <? 2 then 1 else 0)%R). split; [reflexivity|]. split; [reflexivity|]. split; [reflexivity|]. split; [reflexivity|]. split; [reflexivity|]. split; [reflexivity|].
  intros zoom polyfit3 HZ HP. assert (T := two_threshold zoom polyfit3 HZ HP). split; [exact T|].
  destruct (threshold_follows_brightness_and_contrast zoom polyfit3 HZ HP two_levels (mkimg 1 7 (fun _ j => if j <? 2 then 1 else 0)%R) (-1) 1 false) as (t & T1 & T2); try reflexivity; try (cbn; lia); try lra.
  - intros i j _ _. cbn [px two_levels]. destruct (j <? 2); lra.
  - destruct (Rlt_dec (-1) 0) as [_|X]; [|exfalso; lra]. cbn [negb] in T1. rewrite T in T1. assert (E : t = (- (3 / 70))%R) by congruence. rewrite T2, E. f_equal. field.
Qed.
Print Assumptions threshold_within_the_pixels_refuted.

(** the image is then binarised to a single level *)
Theorem binarize_with_automatic_threshold_refuted : exists mat : img R,
  (forall i j, in_rng (nrow mat) i -> in_rng (ncol mat) j -> px mat i j = (if j <? 2 then 0 else 1)%R) /\ nrow mat = 1 /\ ncol mat = 7 /\
  forall zoom polyfit3 median3 normalized fill_holes, fair_zoom zoom -> (forall v, 4 <= vlen v -> best_cubic v (polyfit3 v)) ->
  exists m, binarize_image median3 normalized (fun x => match calculate_threshold zoom polyfit3 x true with Ok t => t | Err _ => 0%R end) fill_holes mat None false false false
      = Ok (fill_holes m) /\ nrow m = 1 /\ ncol m = 7 /\ forall i j, in_rng 1 i -> in_rng 7 j -> px m i j = 1%R.
Proof.
  exists two_levels. split; [reflexivity|]. split; [reflexivity|]. split; [reflexivity|]. intros zoom polyfit3 median3 normalized fill_holes HZ HP.
  unfold binarize_image. cbn [bindr]. rewrite (two_threshold zoom polyfit3 HZ HP). cbn [bindr]. eexists. split; [reflexivity|]. split; [reflexivity|]. split; [reflexivity|].
  intros i j _ _. cbn [px thresholded imap two_levels]. destruct (j <? 2); destruct (Rlt_dec _ _) as [_|X]; try reflexivity; exfalso; lra.
Qed.
Print Assumptions binarize_with_automatic_threshold_refuted.

(** least-squares cubics exist for all values, and a fair zoom that reads the nearest values exists *)
Definition fitted (v : vec R) : list R := proj1_sig (best_cubic_exists v).
Definition mean_zoom (v : vec R) (n : Z) : vec R :=
  mkvec n (fun k => if vlen v =? n then vat v k else if vlen v <=? 0 then 0%R else (rsum (vlen v) (vat v) / IZR (vlen v))%R).
Lemma fitted_best v : best_cubic v (fitted v).
Proof. exact (proj2_sig (best_cubic_exists v)). Qed.
Example threshold_case : fair_zoom mean_zoom /\ (forall v, 4 <= vlen v -> best_cubic v (fitted v)) /\ calculate_threshold mean_zoom fitted two_levels true = Ok (- (3 / 70))%R.
Proof.
  assert (H : fair_zoom mean_zoom).
  { split; [reflexivity|]. split; [|split].
    - intros v w a b n Hn Hv Lw E k Hk. unfold mean_zoom. cbn [vat]. rewrite Lw. destruct (Z.eqb_spec (vlen v) n) as [N|N]; [apply E; rewrite N; exact Hk|].
      destruct (Z.leb_spec (vlen v) 0) as [C|_]; [lia|]. rewrite (rsum_ext (vlen v) (vat w) (fun k => a * vat v k + b)%R) by (intros i Hi; apply E; exact Hi).
      rewrite rsum_add, rsum_scal, rsum_const by lia. field. apply not_0_IZR. lia.
    - intros v w n Hn Hv Lw E k Hk. unfold mean_zoom. cbn [vat]. rewrite Lw. destruct (Z.eqb_spec (vlen v) n) as [N|N]; [rewrite E by (rewrite N; exact Hk); f_equal; lia|].
      destruct (Z.leb_spec (vlen v) 0) as [C|_]; [lia|]. f_equal. rewrite (rsum_ext (vlen v) (vat w) (fun k => vat v (vlen v - 1 - k))) by (intros i Hi; apply E; exact Hi).
      apply (rsum_rev (vlen v) (vat v)). lia.
    - intros v k Hk. unfold mean_zoom. cbn [vat]. rewrite Z.eqb_refl. reflexivity. }
  split; [exact H|]. split; [intros v _; apply fitted_best|]. apply two_threshold; [exact H|intros v _; apply fitted_best].
Qed.
