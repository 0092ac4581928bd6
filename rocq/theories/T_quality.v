(** Theorems for C118: quality map and weight mask of a phase image. *)
From Coq Require Import Reals ZArith Lia Lra Bool List.
From Verif Require Import Np M_phase_R P_phase_R M_global M_quality S_fresnel S_unwrap S_quality P_quality P_quality2.
Import ListNotations.
Open Scope Z_scope.

(** A map of the size of the image, nowhere negative, for every non-empty image and window size; an even size means the next odd one, windows of one pixel give zeros;
    empty images and negative sizes are rejected *)
Theorem quality_map_size_and_window (m : img R) (size : Z) :
  (0 < nrow m -> 0 < ncol m -> 0 <= size -> exists f, quality_map m size = Ok f /\ nrow f = nrow m /\ ncol f = ncol m /\ (forall i j, (0 <= px f i j)%R) /\
     (Z.even size = true -> quality_map m (size + 1) = Ok f) /\
     (size <= 1 -> forall i j, in_rng (nrow m) i -> in_rng (ncol m) j -> px f i j = 0%R)) /\
  (size < 0 \/ nrow m <= 0 \/ ncol m <= 0 -> quality_map m size = Err ValueError).
Proof.
  split.
  - intros Hh Hw Hs. destruct (quality_is m size Hh Hw Hs) as (f & E & R & C & V). assert (0 <= size / 2) by (apply Z.div_pos; lia). exists f. split; [exact E|]. split; [exact R|]. split; [exact C|].
    split; [intros i j; rewrite V; apply qual_nonneg; assumption|]. split.
    + intros Ev. apply Z.even_spec in Ev. destruct Ev as (k & ->). rewrite <- E. unfold quality_map. replace ((2 * k + 1) / 2) with (2 * k / 2) by (rewrite Z.mul_comm, Z.div_mul by lia; rewrite Z.mul_comm, half_odd; reflexivity). reflexivity.
    + intros S i j Hi Hj. rewrite V. replace (size / 2) with 0 by (assert (size = 0 \/ size = 1) as [-> | ->] by lia; reflexivity).
      assert (Z0 : forall g, sqrt (dev (nrow m) (ncol m) 0 g i j) = 0%R).
      { intros g. rewrite dev_inside by (unfold in_rng in *; lia). change (spread 0 g i j = 0%R). apply spread_zero; [lia|]. intros a b Ha Hb. f_equal; lia. }
      unfold qual. rewrite !Z0. unfold Rdiv. ring.
  - intros D. unfold quality_map. destruct (Z.leb_spec (nrow m) 0), (Z.leb_spec (ncol m) 0); cbn [orb]; try reflexivity. assert (size < 0) by lia. assert (size / 2 < 0) by (apply Z.div_lt_upper_bound; lia). replace (2 * (size / 2) + 1 <? 0) with true by lia. reflexivity.
Qed.
Print Assumptions quality_map_size_and_window.
Example quality_map_case : exists f, quality_map (mkimg 3 4 (fun i j => IZR (i * j))) 4 = Ok f /\ nrow f = 3 /\ ncol f = 4 /\ quality_map (mkimg 3 4 (fun i j => IZR (i * j))) 5 = Ok f.
Proof. destruct (proj1 (quality_map_size_and_window (mkimg 3 4 (fun i j => IZR (i * j))) 4) eq_refl eq_refl ltac:(lia)) as (f & E & R & C & _ & V & _). exists f. repeat split; try assumption; try (apply V; reflexivity). Qed.

(** Whole turns at any pixels and a constant do not change the map; exchanging rows and columns of the image exchanges them in the map *)
Theorem quality_map_ignores_whole_turns_and_transposition (m m' f f' : img R) (size : Z) (c : R) : 0 < nrow m -> 0 < ncol m -> 0 <= size ->
  quality_map m size = Ok f -> quality_map m' size = Ok f' -> (congruent c m m' -> img_eq f' f) /\ (transposed m m' -> transposed f f').
Proof.
  intros Hh Hw Hs F F'. destruct (quality_is m size Hh Hw Hs) as (g & E & R & C & V). assert (g = f) by congruence. subst g. split.
  - intros K. assert (R' := proj1 K). assert (C' := proj1 (proj2 K)). destruct (quality_is m' size) as (g & E' & GR & GC & V'); try congruence. assert (g = f') by congruence. subst g.
    split; [congruence|]. split; [congruence|]. intros i j _ _. rewrite V, V'. apply (qual_congruent c); assumption.
  - intros K. assert (R' := proj1 K). assert (C' := proj1 (proj2 K)). destruct (quality_is m' size) as (g & E' & GR & GC & V'); try congruence. assert (g = f') by congruence. subst g.
    split; [congruence|]. split; [congruence|]. intros i j _ _. rewrite V, V'. apply qual_trans; assumption.
Qed.
Print Assumptions quality_map_ignores_whole_turns_and_transposition.
Example quality_turns_case : congruent 1 (mkimg 2 2 (fun _ j => IZR j)) (mkimg 2 2 (fun i j => IZR j + 1 + 2 * PI * IZR (i - j))%R) /\ transposed (mkimg 2 2 (fun _ j => IZR j)) (mkimg 2 2 (fun i _ => IZR i)).
Proof. split; (split; [reflexivity|]); (split; [reflexivity|]); intros i j _ _; [exists (i - j)|]; reflexivity. Qed.

(** The value at a pixel is the deviation of the wrapped steps in the window around this pixel.  Away from the border this is so up to one row for the horizontal steps and one column for
    the vertical ones: the windows are centred on the upper and on the left neighbour.  It is zero exactly if the steps in the two windows are all the same *)
Theorem quality_map_inside_partial (m f : img R) (size i j : Z) sx sy : 0 <= size -> quality_map m size = Ok f -> steps_x m sx -> steps_y m sy ->
  size / 2 + 1 <= i < nrow m - size / 2 -> size / 2 + 1 <= j < ncol m - size / 2 ->
  let k := IZR (2 * (size / 2) + 1) in
  px f i j = ((spread (size / 2) sx (i - 1) j + spread (size / 2) sy i (j - 1)) / (k * k))%R /\
  (px f i j = 0%R <-> steady (size / 2) sx (i - 1) j /\ steady (size / 2) sy i (j - 1)).
Proof.
  intros Hs F X Y Hi Hj k. assert (Hr : 0 <= size / 2) by (apply Z.div_pos; lia). destruct (quality_is m size) as (g & E & R & C & V); try lia. assert (g = f) by congruence. subst g.
  rewrite V, (qual_inside m (size / 2) i j sx sy) by assumption. fold k. split; [reflexivity|]. assert (P : (0 < k)%R) by (apply (IZR_lt 0); lia).
  rewrite <- !spread_zero by exact Hr. assert (A := spread_nonneg (size / 2) sx (i - 1) j). assert (B := spread_nonneg (size / 2) sy i (j - 1)).
  assert (K : (0 < / (k * k))%R) by (apply Rinv_0_lt_compat, Rmult_lt_0_compat; assumption). split.
  - intros Q. apply Rmult_integral in Q. destruct Q as [Q|Q]; lra.
  - intros [-> ->]. unfold Rdiv. ring.
Qed.
Print Assumptions quality_map_inside_partial.
Example quality_inside_case : let m := mkimg 7 7 (fun i j => IZR (2 * i + j)) in steps_x m (fun _ _ => 1%R) /\ steps_y m (fun _ _ => 2%R) /\ steady 1 (fun _ _ => 1%R) 2 3.
Proof.
  cbv zeta. assert (P := PI2_1). split; [|split].
  - intros i j _ _. cbn [px]. split; [lra|]. exists 0. rewrite !plus_IZR, minus_IZR. lra.
  - intros i j _ _. cbn [px]. split; [lra|]. exists 0. rewrite !plus_IZR, !mult_IZR, minus_IZR. lra.
  - intros a b _ _. reflexivity.
Qed.

(** The value at a pixel depends on its surroundings only: not true near the border, where the window continues at the opposite border *)
Theorem quality_map_is_local_refuted : ~ (forall (m m' f f' : img R) size i j, 0 <= size -> agree_near (size + 2) m m' i j -> in_rng (nrow m) i -> in_rng (ncol m) j ->
  quality_map m size = Ok f -> quality_map m' size = Ok f' -> px f' i j = px f i j).
Proof.
  intros H. set (m := mkimg 9 9 (fun _ _ => 0%R)). set (m' := mkimg 9 9 (fun i j => if (i =? 8) && (j =? 0) then 1%R else 0%R)).
  destruct (quality_is m 3) as (f & F & _ & _ & V); [reflexivity|reflexivity|lia|]. destruct (quality_is m' 3) as (f' & F' & _ & _ & V'); [reflexivity|reflexivity|lia|].
  assert (E : px f' 0 0 = px f 0 0).
  { apply (H m m' f f' 3 0 0); try assumption; try (unfold in_rng; cbn; lia). split; [reflexivity|]. split; [reflexivity|]. intros a b _ _ A B. cbn [m m' px]. replace (a =? 8) with false by lia. reflexivity. }
  rewrite V, V' in E. change (3 / 2) with 1 in E.
  assert (Q : qual m 1 0 0 = 0%R).
  { unfold qual. rewrite !dev_flat; try reflexivity; [rewrite sqrt_0; unfold Rdiv; ring| |]; intros a b _ _; unfold gx, gy; cbn [pad1 m px]; rewrite Rminus_diag_eq by reflexivity; apply wrap_0. }
  rewrite Q in E. assert (K1 := qual_zero m' 1 0 0 ltac:(lia) E 2 0 ltac:(unfold in_rng; lia) ltac:(unfold in_rng; lia)). assert (K2 := qual_zero m' 1 0 0 ltac:(lia) E 1 0 ltac:(unfold in_rng; lia) ltac:(unfold in_rng; lia)).
  destruct K1 as [_ K1]. destruct K2 as [_ K2]. rewrite <- K2 in K1.
  change ((0 - (2 - 1)) mod nrow m') with 8 in K1. change ((0 - (0 - 1)) mod ncol m') with 1 in K1. change ((0 - (1 - 1)) mod nrow m') with 0 in K1.
  assert (A : gy m' 8 1 = 1%R) by (unfold gy; cbn; rewrite Rminus_0_r; apply wrap_1). assert (B : gy m' 0 1 = 0%R) by (unfold gy; cbn; rewrite Rminus_0_r; apply wrap_0).
  rewrite A, B in K1. lra.
Qed.
Print Assumptions quality_map_is_local_refuted.

(** A mirrored image has the mirrored map: not true, the last pixel of the last row never matters and the first one does *)
Theorem quality_map_of_the_mirrored_image_refuted : ~ (forall (m m' f f' : img R) size, 0 < nrow m -> 0 < ncol m -> 0 <= size -> mirrored m m' -> quality_map m size = Ok f -> quality_map m' size = Ok f' -> mirrored f f').
Proof.
  intros H. set (m := mkimg 3 3 (fun i j => if (i =? 2) && (j =? 2) then 1%R else 0%R)). set (m' := mkimg 3 3 (fun i j => if (i =? 2) && (j =? 0) then 1%R else 0%R)).
  destruct (quality_is m 3) as (f & F & R & C & V); [reflexivity|reflexivity|lia|]. destruct (quality_is m' 3) as (f' & F' & R' & C' & V'); [reflexivity|reflexivity|lia|].
  assert (M : mirrored m m'). { split; [reflexivity|]. split; [reflexivity|]. cbn [m m' nrow ncol px]. intros i j Hi Hj. replace (3 - 1 - j =? 2) with (j =? 0) by lia. reflexivity. }
  destruct (H m m' f f' 3 eq_refl eq_refl ltac:(lia) M F F') as (_ & _ & E). assert (E1 := E 1 1). rewrite R', C' in E1. specialize (E1 ltac:(unfold in_rng; cbn; lia) ltac:(unfold in_rng; cbn; lia)). rewrite C, V, V' in E1. cbn [m ncol] in E1. fold m in E1.
  change (3 - 1 - 1) with 1 in E1. change (3 / 2) with 1 in E1.
  assert (Q : qual m 1 1 1 = 0%R).
  { unfold qual. rewrite !dev_flat; try reflexivity; [rewrite sqrt_0; unfold Rdiv; ring| |]; intros a b Ha Hb; cbn [m nrow ncol] in Ha, Hb; unfold in_rng in *;
      assert (a = 0 \/ a = 1 \/ a = 2) as [-> | [-> | ->] ] by lia; assert (b = 0 \/ b = 1 \/ b = 2) as [-> | [-> | ->] ] by lia; unfold gx, gy; cbn; rewrite Rminus_0_r; apply wrap_0. }
  rewrite Q in E1. assert (K1 := qual_zero m' 1 1 1 ltac:(lia) E1 0 1 ltac:(unfold in_rng; lia) ltac:(unfold in_rng; lia)). assert (K2 := qual_zero m' 1 1 1 ltac:(lia) E1 1 1 ltac:(unfold in_rng; lia) ltac:(unfold in_rng; lia)).
  destruct K1 as [_ K1]. destruct K2 as [_ K2]. rewrite <- K2 in K1.
  change ((1 - (0 - 1)) mod nrow m') with 2 in K1. change ((1 - (1 - 1)) mod ncol m') with 1 in K1. change ((1 - (1 - 1)) mod nrow m') with 1 in K1.
  assert (A : gy m' 2 1 = 1%R) by (unfold gy; cbn; rewrite Rminus_0_r; apply wrap_1). assert (B : gy m' 1 1 = 0%R) by (unfold gy; cbn; rewrite Rminus_0_r; apply wrap_0).
  rewrite A, B in K1. lra.
Qed.
Print Assumptions quality_map_of_the_mirrored_image_refuted.

(** The weight mask, for every resampling function [zoom]: zeros and ones only; a pixel at least as bright as a selected one is selected; a larger ratio selects no more pixels; rearranging the
    pixels rearranges the mask *)
Theorem weight_mask_selects_the_bright_pixels (zoom : list R -> R -> list R) (m f : img R) (snr : R) : weight_mask zoom m snr = Ok f ->
  nrow f = nrow m /\ ncol f = ncol m /\
  (forall i j, px f i j = 0%R \/ px f i j = 1%R) /\
  (forall i j a b, px f i j = 1%R -> (px m i j <= px m a b)%R -> px f a b = 1%R) /\
  (forall snr', (snr <= snr')%R -> exists f', weight_mask zoom m snr' = Ok f' /\ forall i j, px f' i j = 1%R -> px f i j = 1%R) /\
  (forall p m', rearranged p m m' -> exists f', weight_mask zoom m' snr = Ok f' /\ rearranged p f f').
Proof.
  intros F. destruct (mask_at zoom m snr f F) as (t & T & R & C & V). split; [exact R|]. split; [exact C|]. split; [|split; [|split] ].
  - intros i j. destruct (V i j); tauto.
  - intros i j a b E L. destruct (V i j) as [ [_ Q]|[Q _] ]; [|lra]. destruct (V a b) as [ [A _]|[_ A] ]; [exact A|lra].
  - intros s' L. destruct (threshold_snr_ok zoom m snr s' t T) as (t' & T'). unfold weight_mask. rewrite T'. cbn [bindr]. eexists. split; [reflexivity|]. intros i j E.
    assert (LT := threshold_snr zoom m snr s' t t' L T T'). destruct (V i j) as [ [A _]|[_ A] ]; [exact A|]. cbn [px] in E. unfold M_corr.Rltb in E. destruct (Rlt_dec t' (px m i j)); lra.
  - intros p m' S. unfold weight_mask. rewrite (threshold_rearranged zoom p m m' snr S), T. cbn [bindr]. eexists. split; [reflexivity|]. destruct S as (S & W & I). cbn [rearranged nrow ncol px]. split; [cbn [nrow ncol]; rewrite R, C; exact S|].
    cbn [nrow ncol px]. split; [|exact I]. intros i j Hi Hj. destruct (W i j Hi Hj) as (A & B & E). rewrite R, C. split; [exact A|]. split; [exact B|].
    unfold M_corr.Rltb. destruct (V (fst (p (i, j))) (snd (p (i, j)))) as [ [-> Q]|[-> Q] ]; destruct (Rlt_dec t (px m' i j)); (reflexivity || lra).
Qed.
Print Assumptions weight_mask_selects_the_bright_pixels.

(** The mask does not depend on brightness and contrast, and a flat image is not masked, if the resampling keeps these *)
Theorem weight_mask_brightness_and_flat_images (zoom : list R -> R -> list R) (m f : img R) (snr a b : R) : weight_mask zoom m snr = Ok f ->
  ((0 < a)%R -> (forall l q, zoom (map (fun v => a * v + b)%R l) q = map (fun v => a * v + b)%R (zoom l q)) -> forall m', rescaled a b m m' -> exists f', weight_mask zoom m' snr = Ok f' /\ img_eq f' f) /\
  ((forall k q, exists n, zoom (repeat a k) q = repeat a n) -> (forall i j, in_rng (nrow m) i -> in_rng (ncol m) j -> px m i j = a) -> forall i j, in_rng (nrow m) i -> in_rng (ncol m) j -> px f i j = 0%R).
Proof.
  intros F. destruct (mask_at zoom m snr f F) as (t & T & R & C & V). split.
  - intros A Z m' S. unfold weight_mask. rewrite (threshold_affine zoom a b m m' snr A Z S), T. cbn [bindr]. eexists. split; [reflexivity|]. destruct S as (SR & SC & S). split; [cbn [nrow]; congruence|]. split; [cbn [ncol]; congruence|].
    cbn [nrow ncol px]. rewrite SR, SC. intros i j Hi Hj. rewrite S by assumption. unfold M_corr.Rltb. destruct (V i j) as [ [-> Q]|[-> Q] ]; destruct (Rlt_dec (a * t + b) (a * px m i j + b)) as [L|L]; try reflexivity; exfalso.
    + apply L. assert (a * t < a * px m i j)%R by (apply Rmult_lt_compat_l; assumption). lra.
    + assert (a * px m i j <= a * t)%R by (apply Rmult_le_compat_l; lra). lra.
  - intros Z S i j Hi Hj. assert (E := threshold_flat zoom m a snr t Z S T). destruct (V i j) as [ [_ Q]|[Q _] ]; [|exact Q]. rewrite S in Q by assumption. lra.
Qed.
Print Assumptions weight_mask_brightness_and_flat_images.
Example weight_mask_case : exists f, weight_mask (fun l _ => l) (mkimg 3 3 (fun i j => IZR (i + j))) 0 = Ok f.
Proof. unfold weight_mask, mask_threshold. assert (L : length (rsort (flatten (mkimg 3 3 (fun i j => IZR (i + j))))) = 9%nat) by (rewrite P_global.rsort_length; reflexivity). unfold cut. rewrite firstn_length, skipn_length, L. cbn [Nat.eqb]. destruct (line_fit _ _). eexists. reflexivity. Qed.
Theorem weight_mask_of_an_empty_image (zoom : list R -> R -> list R) (m : img R) (snr : R) : nrow m <= 0 \/ ncol m <= 0 -> weight_mask zoom m snr = Err ZeroDivisionError.
Proof. intros D. unfold weight_mask, mask_threshold. rewrite P_global.rsort_length, flatten_grid, map_length, grid_length. replace (Z.to_nat (nrow m) * Z.to_nat (ncol m))%nat with O by (destruct D; nia). reflexivity. Qed.
Print Assumptions weight_mask_of_an_empty_image.

(** also at the first rows and columns, if neighbours beyond the edge are taken by reflection -- missing: windows that cross the edge *)
Theorem quality_map_at_the_first_rows_and_columns_partial (m f : img R) (size i j : Z) sx sy : 0 <= size -> 2 <= nrow m -> 2 <= ncol m -> quality_map m size = Ok f -> edge_steps_x m sx -> edge_steps_y m sy ->
  size / 2 <= i < nrow m - size / 2 -> size / 2 <= j < ncol m - size / 2 ->
  let k := IZR (2 * (size / 2) + 1) in px f i j = ((spread (size / 2) sx (i - 1) j + spread (size / 2) sy i (j - 1)) / (k * k))%R.
Proof.
  intros Hs Hh Hw F X Y Hi Hj k. destruct (quality_is m size) as (g & E & R & C & V); try lia. assert (g = f) by congruence. subst g.
  rewrite V. apply (qual_edge m (size / 2) i j sx sy); try assumption. apply Z.div_pos; lia.
Qed.
Print Assumptions quality_map_at_the_first_rows_and_columns_partial.
Example edge_steps_case : let m := mkimg 4 4 (fun i j => IZR (j * (i - i))) in edge_steps_x m (fun _ _ => 0%R) /\ edge_steps_y m (fun _ _ => 0%R) /\ 3 / 2 <= 1 < nrow m - 3 / 2.
Proof.
  cbv zeta. assert (P := PI_RGT_0). split; [|split; [|cbn; lia] ]; intros i j Hi Hj; cbn [px]; (split; [lra|exists 0]); rewrite ?Z.sub_diag, ?Z.mul_0_r; ring.
Qed.
(** pixel values that are evenly distributed (after [zoom]): the threshold lies above the largest value b + s (n - 1), by snr / 2 times the range *)
Theorem weight_mask_of_an_even_distribution (zoom : list R -> R -> list R) (m f : img R) (snr b s : R) (l : list R) (n : Z) : weight_mask zoom m snr = Ok f ->
  Sorted.StronglySorted Rle l -> Permutation.Permutation l (flatten m) -> 0 <= n -> (0 <= s)%R ->
  zoom l (IZR (Z.max (nrow m) (ncol m)) / INR (length l))%R = map (fun k => b + s * IZR k)%R (zrange 0 n) ->
  forall i j, px f i j = 1%R <-> (b + s * IZR (n - 1) + Rabs (s * IZR (n - 1)) * snr / 2 < px m i j)%R.
Proof.
  intros F S P N Hs Z i j. destruct (mask_at zoom m snr f F) as (t & T & R & C & V). assert (E : rsort (flatten m) = l) by (apply P_global.rsort_unique; [exact S|apply Permutation.Permutation_sym; exact P]).
  rewrite (Permutation.Permutation_length P) in Z. rewrite <- E in Z. rewrite (threshold_line zoom m snr t b s n Z N T) in V. destruct (V i j) as [ [A B]|[A B] ]; rewrite A; split; intros; try assumption; try reflexivity; lra.
Qed.
Print Assumptions weight_mask_of_an_even_distribution.
Example even_distribution_case : let m := mkimg 1 5 (fun _ j => IZR j) in let l := map IZR [0; 1; 2; 3; 4] in
  (exists f, weight_mask (fun l _ => l) m 0 = Ok f) /\ Sorted.StronglySorted Rle l /\ flatten m = l /\ l = map (fun k => 0 + 1 * IZR k)%R (zrange 0 5).
Proof.
  cbv zeta. split; [|split; [|split] ].
  - unfold weight_mask, mask_threshold. assert (L : length (rsort (flatten (mkimg 1 5 (fun _ j => IZR j)))) = 5%nat) by (rewrite P_global.rsort_length; reflexivity). unfold cut. rewrite firstn_length, skipn_length, L. cbn [Nat.eqb]. destruct (line_fit _ _). eexists. reflexivity.
  - cbn [map]. repeat (first [apply Sorted.SSorted_nil | apply Sorted.SSorted_cons | apply Forall_nil | apply Forall_cons | apply IZR_le; lia]).
  - reflexivity.
  - change (zrange 0 5) with [0; 1; 2; 3; 4]. apply map_ext. intros k. ring.
Qed.
