(** Property theorems for removal.py (C16, C38-C42, C76-C78). *)
From Coq Require Import Reals.
From Verif Require Import Np P_Np M_utility S_utility M_io_load M_conversion M_correction M_calculation M_removal S_removal
  P_removal P_removal2 P_removal3 P_removal4 M_regularization P_regularization.
From Coq Require Import QArith Qround Qabs String Lia Lqa.
From Coq Require Import List. Import ListNotations.
Open Scope Z_scope.

(** C16: sorting-based removal filters the sorted columns and puts every value back where it came from *)
Theorem stripe_sorting_filters_the_sorted_columns_and_puts_values_back :
  forall asort, (forall v, is_argsort v (asort v)) ->
  forall filt (sino : img Q),
  (forall m, nrow (filt m) = nrow m /\ ncol (filt m) = ncol m) ->
  nrow (remove_stripe_based_sorting asort filt sino) = nrow sino /\
  ncol (remove_stripe_based_sorting asort filt sino) = ncol sino /\
  exists s : img Q, nrow s = nrow sino /\ ncol s = ncol sino /\
  forall j, in_rng (ncol sino) j -> exists p : Z -> Z,
    (forall k, in_rng (nrow sino) k -> in_rng (nrow sino) (p k)) /\
    (forall a b, in_rng (nrow sino) a -> in_rng (nrow sino) b -> p a = p b -> a = b) /\
    (forall k, in_rng (nrow sino) k -> px s k j = px sino (p k) j) /\
    (forall a b, 0 <= a -> a < b -> b < nrow sino -> (px s a j <= px s b j)%Q) /\
    (forall k, in_rng (nrow sino) k -> px (remove_stripe_based_sorting asort filt sino) (p k) j = px (filt s) k j).
Proof. exact sorting_spec. Qed.
Print Assumptions stripe_sorting_filters_the_sorted_columns_and_puts_values_back.
(** C16, C76 *)
Theorem stripe_sorting_with_a_neutral_filter_returns_the_input :
  forall asort, (forall v, is_argsort v (asort v)) ->
  forall filt, neutral filt -> forall sino, img_Qeq (remove_stripe_based_sorting asort filt sino) sino.
Proof. exact sorting_id. Qed.
Print Assumptions stripe_sorting_with_a_neutral_filter_returns_the_input.

(** C76 *)
Theorem stripe_filtering_with_a_neutral_filter_returns_the_input :
  forall asort, (forall v, is_argsort v (asort v)) ->
  forall filt, neutral filt -> forall sw lp sino sigma (sort : bool),
  exists out, remove_stripe_based_filtering sw lp asort filt sino sigma sort = Ok out /\ img_Qeq out sino.
Proof. exact filtering_id. Qed.
Print Assumptions stripe_filtering_with_a_neutral_filter_returns_the_input.
Theorem stripe_2d_filtering_sorting_with_a_neutral_filter_returns_the_input :
  forall asort, (forall v, is_argsort v (asort v)) ->
  forall filt, neutral filt -> forall smooth sino,
  nrow (smooth sino) = nrow sino -> ncol (smooth sino) = ncol sino ->
  img_Qeq (remove_stripe_based_2d_filtering_sorting asort filt smooth sino) sino.
Proof. exact sorting2d_id. Qed.
Print Assumptions stripe_2d_filtering_sorting_with_a_neutral_filter_returns_the_input.
Theorem stripe_fitting_with_a_neutral_filter_returns_the_input :
  forall asort, (forall v, is_argsort v (asort v)) ->
  forall filt, neutral filt -> forall fit sino (sort : bool),
  (forall m, nrow (fit m) = nrow m /\ ncol (fit m) = ncol m) ->
  (forall m i j, ~ (px (fit m) i j == 0)%Q) ->
  1 <= nrow sino -> 1 <= ncol sino ->
  img_Qeq (remove_stripe_based_fitting asort fit filt sino sort) sino.
Proof. exact fitting_id. Qed.
Print Assumptions stripe_fitting_with_a_neutral_filter_returns_the_input.
Theorem stripe_wavelet_fft_with_perfect_reconstruction_returns_the_input :
  forall asort, (forall v, is_argsort v (asort v)) ->
  forall out wav sino (sort : bool),
  0 <= nrow sino -> 0 <= ncol sino ->
  (forall m, nrow m <= nrow (wav m) /\ ncol m <= ncol (wav m) /\
     forall i j, in_rng (nrow m) i -> in_rng (ncol m) j -> (px (wav m) i j == px m i j)%Q) ->
  img_Qeq (remove_stripe_based_wavelet_fft asort out wav sino sort) sino.
Proof. exact wavelet_id. Qed.
Print Assumptions stripe_wavelet_fft_with_perfect_reconstruction_returns_the_input.
(** the result of the FFT method is an absolute value *)
Theorem stripe_fft_with_an_all_pass_window_returns_a_nonnegative_input :
  forall asort, (forall v, is_argsort v (asort v)) ->
  forall out win sino (sort : bool),
  0 <= nrow sino -> 0 <= ncol sino -> neutral win ->
  (forall i j, in_rng (nrow sino) i -> in_rng (ncol sino) j -> (0 <= px sino i j)%Q) ->
  img_Qeq (remove_stripe_based_fft asort out win sino sort) sino.
Proof. exact fft_id. Qed.
Print Assumptions stripe_fft_with_an_all_pass_window_returns_a_nonnegative_input.
Theorem stripe_fft_with_an_all_pass_window_refuted_for_negative_values :
  exists (sino : img Q) win, neutral win /\
  ~ img_Qeq (remove_stripe_based_fft (fun _ k => k) (fun _ _ _ => 0%Q) win sino false) sino.
Proof.
  exists (mkimg 1 1 (fun _ _ => (-1)%Q)), (fun m => m). split.
  - intros m. split; [reflexivity|]. split; [reflexivity|]. intros; reflexivity.
  - intros (_ & _ & H). specialize (H 0 0). vm_compute in H. assert (G : Lt = Lt) by reflexivity.
    assert (H' := H ltac:(split; [discriminate|reflexivity]) ltac:(split; [discriminate|reflexivity])). discriminate.
Qed.
Print Assumptions stripe_fft_with_an_all_pass_window_refuted_for_negative_values.
(** neutral filters exist, and the sorted-column relation is inhabited *)
Example ex_neutral : neutral (fun m => m).
Proof. intros m. split; [reflexivity|]. split; [reflexivity|]. intros; reflexivity. Qed.

(** C38 *)
Theorem remove_zinger_changes_only_outliers_partial :
  forall objects (m : img Q) threshold size check_size i j,
  1 <= size -> in_rng (nrow m) i -> in_rng (ncol m) j -> (0 < eight_mean m size i j)%Q ->
  let out := remove_zinger objects m threshold size check_size in
  nrow out = nrow m /\ ncol out = ncol m /\
  ((px m i j <= eight_mean m size i j * (1 + threshold))%Q -> px out i j = px m i j) /\
  ((eight_mean m size i j * (1 + threshold) < px m i j)%Q ->
     check_size = false -> (px out i j == eight_mean m size i j)%Q) /\
  (px out i j = px m i j \/ (px out i j == eight_mean m size i j)%Q).
Proof. exact zinger_spec. Qed.
Print Assumptions remove_zinger_changes_only_outliers_partial.
(** with check_size, a pixel only changes if it lies in the bounding box of an object holding at most [size] outliers *)
Theorem remove_zinger_with_check_size_changes_only_small_objects :
  forall objects (m : img Q) threshold size i j,
  let out := remove_zinger objects m threshold size true in
  let over := mkimg (nrow m) (ncol m) (fun i j =>
     Qltb threshold (px m i j / (if Qeq_bool (zinger_average m size i j) 0 then 1 else zinger_average m size i j) - 1)%Q) in
  px out i j <> px m i j ->
  exists i0 i1 j0 j1 cells, In ((i0, i1), (j0, j1)) (objects over) /\ i0 <= i < i1 /\ j0 <= j < j1 /\
    NoDup cells /\ (forall a b, In (a, b) cells <-> i0 <= a < i1 /\ j0 <= b < j1 /\ px over a b = true) /\
    Z.of_nat (length cells) <= size.
Proof. exact zinger_small. Qed.
Print Assumptions remove_zinger_with_check_size_changes_only_small_objects.
(** an isolated bright pixel on a zero background becomes 1, not the average 0; a pixel below a negative
    average is replaced *)
Theorem remove_zinger_replaces_by_the_average_refuted :
  (exists (m : img Q), (eight_mean m 1 1 1 == 0)%Q /\ (px m 1 1 == 5)%Q /\
     (px (remove_zinger (fun _ => []) m 1 1 false) 1 1 == 1)%Q) /\
  (exists (m : img Q), (eight_mean m 1 1 1 == -1)%Q /\ (px m 1 1 == -5)%Q /\
     (px (remove_zinger (fun _ => []) m 1 1 false) 1 1 == -1)%Q).
Proof.
  split.
  - exists (mkimg 3 3 (fun i j => if (i =? 1) && (j =? 1) then 5%Q else 0%Q)). repeat split; vm_compute; reflexivity.
  - exists (mkimg 3 3 (fun i j => if (i =? 1) && (j =? 1) then (-5)%Q else (-1)%Q)). repeat split; vm_compute; reflexivity.
Qed.
Print Assumptions remove_zinger_replaces_by_the_average_refuted.
Example ex_zinger :
  let m := mkimg 4 4 (fun i j => if (i =? 1) && (j =? 2) then 9%Q else 1%Q) in
  (eight_mean m 1 1 2 == 1)%Q /\ (px (remove_zinger (fun _ => []) m (1#10) 1 false) 1 2 == 1)%Q /\
  (px (remove_zinger (fun _ => []) m (1#10) 1 false) 1 1 == 1)%Q.
Proof. repeat split; vm_compute; reflexivity. Qed.

(** C39 *)
Theorem remove_blob_interpolates_only_masked_pixels_partial :
  forall mat mask : img Q, nrow mask = nrow mat -> ncol mask = ncol mat -> 0 <= nrow mat -> 1 <= ncol mat ->
  exists out mask', remove_blob mat mask = (Ok out, mask') /\
    nrow out = nrow mat /\ ncol out = ncol mat /\ nrow mask' = nrow mask /\ ncol mask' = ncol mask /\
    (forall i, in_rng (nrow mat) i -> forall j, in_rng (ncol mat) j ->
      ((px mask i j < 1)%Q \/ j < 2 \/ ncol mat - 2 <= j -> px out i j = px mat i j) /\
      ((1 <= px mask i j)%Q -> 2 <= j < ncol mat - 2 ->
        exists a b, a < j < b /\ 0 <= a /\ b < ncol mat /\
         ((px mask i a < 1)%Q \/ a < 2) /\ ((px mask i b < 1)%Q \/ ncol mat - 2 <= b) /\
         (forall k, a < k < b -> 2 <= k < ncol mat - 2 /\ (1 <= px mask i k)%Q) /\
         on_line a (px mat i a) b (px mat i b) j (px out i j))) /\
    (forall i j, in_rng (nrow mat) i -> in_rng (ncol mat) j ->
       px mask' i j = if (j <? 2) || (ncol mat - 2 <=? j) then 0%Q else px mask i j).
Proof. exact remove_blob_spec. Qed.
Print Assumptions remove_blob_interpolates_only_masked_pixels_partial.
Theorem remove_blob_rejects_a_mask_of_another_shape :
  forall mat mask : img Q, nrow mask <> nrow mat \/ ncol mask <> ncol mat -> remove_blob mat mask = (Err ValueError, mask).
Proof. exact remove_blob_shape. Qed.
Print Assumptions remove_blob_rejects_a_mask_of_another_shape.
(** the caller's mask is overwritten *)
Theorem remove_blob_leaves_its_mask_alone_refuted :
  exists mat mask : img Q, nrow mask = nrow mat /\ ncol mask = ncol mat /\ ~ img_Qeq (snd (remove_blob mat mask)) mask.
Proof.
  exists (mkimg 1 6 (fun _ j => inject_Z j)), (mkimg 1 6 (fun _ _ => 1%Q)). split; [reflexivity|]. split; [reflexivity|].
  intros (_ & _ & H). specialize (H 0 0). vm_compute in H.
  assert (H' := H ltac:(split; [discriminate|reflexivity]) ltac:(split; [discriminate|reflexivity])). discriminate.
Qed.
Print Assumptions remove_blob_leaves_its_mask_alone_refuted.
Example ex_blob :
  let mat := mkimg 1 7 (fun _ j => if j =? 3 then 100%Q else inject_Z j) in
  let mask := mkimg 1 7 (fun _ j => if j =? 3 then 1%Q else 0%Q) in
  match remove_blob mat mask with (Ok out, _) => (px out 0 3 == 3)%Q | _ => False end.
Proof. vm_compute. reflexivity. Qed.

(** C40 *)
Theorem remove_blob_1d_interpolates_when_both_ends_are_unmasked_partial :
  forall sino mask : vec Q,
  vlen mask = vlen sino -> 2 <= vlen sino -> (vat mask 0 < 1)%Q -> (vat mask (vlen sino - 1) < 1)%Q ->
  exists out mask', remove_blob_1d sino mask = (Ok out, mask') /\ vlen out = vlen sino /\
    forall j, in_rng (vlen sino) j ->
    ((vat mask j < 1)%Q \/ j < 2 \/ vlen sino - 2 <= j -> vat out j = vat sino j) /\
    ((1 <= vat mask j)%Q -> 2 <= j < vlen sino - 2 ->
       exists a b, a < j < b /\ 0 <= a /\ b < vlen sino /\ (vat mask a < 1)%Q /\ (vat mask b < 1)%Q /\
         (forall k, a < k < b -> (1 <= vat mask k)%Q) /\
         on_line a (vat sino a) b (vat sino b) j (vat out j)).
Proof. exact blob_1d_spec. Qed.
Print Assumptions remove_blob_1d_interpolates_when_both_ends_are_unmasked_partial.
(** the caller's mask afterwards: the two first and last entries are cleared *)
Theorem remove_blob_1d_clears_the_ends_of_its_mask :
  forall sino mask : vec Q, vlen mask = vlen sino -> 2 <= vlen sino ->
  (exists j, in_rng (vlen sino) j /\ (vat mask j < 1)%Q) ->
  let after := snd (remove_blob_1d sino mask) in
  vlen after = vlen mask /\
  forall j, in_rng (vlen sino) j -> vat after j = if (j <? 2) || (vlen sino - 2 <=? j) then 0%Q else vat mask j.
Proof.
  intros sino mask Hl Hn (j & Hj & Hm). apply blob_1d_mask; [exact Hl|exact Hn|].
  apply existsb_exists. exists j. split; [apply zrange_In; unfold in_rng in Hj; lia|apply Qltb_lt; exact Hm].
Qed.
Print Assumptions remove_blob_1d_clears_the_ends_of_its_mask.
(** a blob reaching an end of the row makes the call fail: the knots are chosen before the ends are unmasked *)
Theorem remove_blob_1d_works_for_every_mask_refuted :
  forall (sino mask : vec Q) j,
  vlen mask = vlen sino -> 2 <= j < vlen sino - 2 -> (1 <= vat mask j)%Q ->
  (forall k, 0 <= k <= j -> (1 <= vat mask k)%Q) \/ (forall k, j <= k < vlen sino -> (1 <= vat mask k)%Q) ->
  is_ok (fst (remove_blob_1d sino mask)) = false.
Proof. exact blob_1d_fails. Qed.
Print Assumptions remove_blob_1d_works_for_every_mask_refuted.
Example ex_blob_1d :
  let s := mkvec 7 inject_Z in
  is_ok (fst (remove_blob_1d s (mkvec 7 (fun j => if j <? 3 then 1%Q else 0%Q)))) = false /\
  is_ok (fst (remove_blob_1d s (mkvec 7 (fun j => if j =? 3 then 1%Q else 0%Q)))) = true.
Proof. split; vm_compute; reflexivity. Qed.

(** C41.  [s] is the sinogram with its columns sorted (or the sinogram itself), [rank j k] the row of value k of column j. *)
Theorem stripe_normalization_corrects_each_row_once :
  forall asort, (forall v, is_argsort v (asort v)) ->
  forall filt, proper_filter filt -> forall (sino : img Q) num_chunk (sort : bool),
  1 <= num_chunk <= nrow sino ->
  exists out chunks (s : img Q) (rank : Z -> Z -> Z), remove_stripe_based_normalization asort filt sino num_chunk sort = Ok out /\
    nrow out = nrow sino /\ ncol out = ncol sino /\
    Z.of_nat (List.length chunks) = num_chunk /\
    concat (map (fun c => zrange (fst c) (snd c)) chunks) = zrange 0 (nrow sino) /\
    (sort = false -> s = sino /\ forall j i, rank j i = i) /\
    (sort = true -> sorted_columns sino s rank) /\
    forall b len, In (b, len) chunks -> 1 <= len /\ 0 <= b /\ b + len <= nrow sino /\
      exists profile, vlen profile = ncol sino /\ (forall j, in_rng (ncol sino) j -> vat profile j = row_mean s b len j) /\
      (forall k j, b <= k < b + len -> in_rng (ncol sino) j ->
        px out (rank j k) j = (px s k j + (vat (filt profile) j - vat profile j))%Q) /\
      (forall j, in_rng (ncol sino) j ->
        (qmean len (fun k => px out (rank j (b + k)%Z) j) == vat (filt profile) j)%Q).
Proof.
  intros asort Hs filt [Hfl Hfe] sino nc sort Hn.
  destruct (chunked_spec asort Hs (normalization_coe filt)) with (sino := sino) (num_chunk := nc) (sort := sort)
    as (out & chunks & s & rank & E & R & C & Sr & Sc & L & Cov & Pos & Hns & Hsort & H); [| |exact Hn|].
  - intros u v Huv. destruct (Hfe u v Huv) as [F1 F2]. destruct Huv as [U1 U2].
    split; [exact U1|]. intros i Hi. cbn. rewrite F2 by (rewrite Hfl; exact Hi). rewrite U2 by exact Hi. reflexivity.
  - reflexivity.
  - exists out, chunks, s, rank. repeat (split; [assumption|]). split.
    { intros ->. split; [exact Sr|]. split; [exact Sc|]. intros j Hj. destruct (Hsort j Hj) as (A & B & D).
      split; [exact A|]. split; [exact B|]. apply D. reflexivity. }
    intros b len Hc. destruct (H b len Hc) as (P1 & P2 & P3). split; [apply (Pos (b, len) Hc)|]. split; [exact P1|]. split; [exact P2|].
    exists (profile_of s b len). split; [exact Sc|]. split; [reflexivity|].
    assert (Hpx : forall k j, b <= k < b + len -> in_rng (ncol sino) j ->
        px out (rank j k) j = (px s k j + (vat (filt (profile_of s b len)) j - vat (profile_of s b len) j))%Q).
    { intros k j Hk Hj. rewrite P3 by assumption. reflexivity. }
    split; [exact Hpx|]. intros j Hj.
    rewrite <- (mean_after s (filt (profile_of s b len)) b len j (Pos (b, len) Hc)) at 1.
    unfold qmean at 1 3. apply Qmult_comp; [|reflexivity]. apply qsum_ext. intros k Hk. rewrite Hpx by (assumption || lia). reflexivity.
Qed.
Print Assumptions stripe_normalization_corrects_each_row_once.
Theorem stripe_normalization_rejects_more_chunks_than_rows :
  forall asort filt (sino : img Q) num_chunk (sort : bool), 1 <= nrow sino -> nrow sino < num_chunk ->
  is_ok (remove_stripe_based_normalization asort filt sino num_chunk sort) = false.
Proof. intros. apply chunked_too_many; assumption. Qed.
Print Assumptions stripe_normalization_rejects_more_chunks_than_rows.
Example ex_normalization :
  let sino := mkimg 3 2 (fun i j => inject_Z (i + 10 * j)) in
  match remove_stripe_based_normalization (fun _ k => k) (fun v => mkvec (vlen v) (fun _ => 7%Q)) sino 2 false with
  | Ok out => (px out 0 0 == 7 - (1#2))%Q /\ (px out 2 1 == 7)%Q | Err _ => False end.
Proof. vm_compute. split; reflexivity. Qed.

(** C42 *)
Theorem remove_large_stripe_only_changes_detected_columns :
  forall asort, (forall v, is_argsort v (asort v)) ->
  forall filt, keeps_shape filt -> forall detect (sino : img Q) drop_ratio (norm : bool) out,
  remove_large_stripe asort filt detect sino drop_ratio norm = Ok out -> 0 <= nrow sino ->
  exists s rank drop fact mask,
    sorted_columns sino s rank /\ drop = Qtrunc ((1#2) * clipQ drop_ratio 0 (4#5) * inject_Z (nrow sino)) /\ 0 <= drop /\ 5 * drop <= 2 * nrow sino /\ vlen fact = ncol sino /\
    (forall j, in_rng (ncol sino) j -> let a := row_mean s drop (nrow sino - 2 * drop) j in let b := row_mean (filt s) drop (nrow sino - 2 * drop) j in
        (~ (b == 0)%Q -> vat fact j = (a / b)%Q) /\ ((b == 0)%Q -> vat fact j = 1%Q)) /\
    detect fact = Ok mask /\
    nrow out = nrow sino /\ ncol out = ncol sino /\
    forall j, in_rng (ncol sino) j ->
      (~ marked_near mask j -> forall i, in_rng (nrow sino) i ->
          px out i j = if norm then (px sino i j / vat fact j)%Q else px sino i j) /\
      (marked_near mask j -> forall k, in_rng (nrow sino) k -> px out (rank j k) j = px (filt s) k j).
Proof. exact large_stripe_spec. Qed.
Print Assumptions remove_large_stripe_only_changes_detected_columns.
Theorem remove_large_stripe_fails_only_if_detection_fails :
  forall asort filt detect (sino : img Q) drop_ratio (norm : bool),
  (forall v, is_ok (detect v) = true) -> is_ok (remove_large_stripe asort filt detect sino drop_ratio norm) = true.
Proof. exact large_stripe_total. Qed.
Print Assumptions remove_large_stripe_fails_only_if_detection_fails.
Example ex_large :
  let sino := mkimg 2 5 (fun i j => if j =? 0 then 50%Q else 1%Q) in
  let det := fun v : vec Q => Ok (mkvec (vlen v) (fun j => if j =? 0 then 1%Q else 0%Q)) in
  match remove_large_stripe (fun _ k => k) (imap (fun _ => 1%Q)) det sino 0 false with
  | Ok out => (px out 1 0 == 1)%Q /\ (px out 1 3 == 1)%Q | Err _ => False end.
Proof. vm_compute. split; reflexivity. Qed.

(** C77 *)
Theorem remove_dead_stripe_only_changes_detected_columns :
  forall profile detect (sino out : img Q),
  remove_dead_stripe profile detect sino = Ok out -> 2 <= ncol sino ->
  (forall v m, detect v = Ok m -> vlen m = vlen v) -> vlen (profile sino) = ncol sino ->
  exists mask, detect (profile sino) = Ok mask /\ nrow out = nrow sino /\ ncol out = ncol sino /\
    (forall j, in_rng (ncol sino) j -> ~ marked_near mask j \/ j < 2 \/ ncol sino - 2 <= j -> forall i, px out i j = px sino i j) /\
    forall affected : Z -> bool, (forall j, in_rng (ncol sino) j -> (affected j = true <-> marked_near mask j /\ 2 <= j < ncol sino - 2)) ->
      let number := Z.of_nat (length (filter affected (zrange 0 (ncol sino)))) in
      (number < ncol sino / 3 -> forall j, in_rng (ncol sino) j -> affected j = true -> forall i, bridged (ncol sino) mask (px sino i) (px out i) j) /\
      (ncol sino / 3 <= number -> forall j, in_rng (ncol sino) j -> forall i, px out i j = px sino i j).
Proof.
  intros profile detect sino out E H2 Hl Hp. destruct (dead_stripe_spec profile detect sino out E H2 Hl Hp) as (mask & A & B & C & D & _ & F). exists mask. exact (conj A (conj B (conj C (conj D F)))).
Qed.
Print Assumptions remove_dead_stripe_only_changes_detected_columns.
(** [row i] is row i of the sinogram, normalised by the stripe factors when [norm]; the factor of a column is the ratio of the means
    (over the kept rows) of the sorted and of the smoothed column *)
Theorem stripe_interpolation_method_only_changes_detected_columns :
  forall vsort filt detect (sino : img Q) drop_ratio norm out,
  remove_stripe_based_interpolation vsort filt detect sino drop_ratio norm = Ok out -> 2 <= ncol sino ->
  (forall v m, detect v = Ok m -> vlen m = vlen v) ->
  let drop := Qtrunc ((1#2) * clipQ drop_ratio 0 (4#5) * inject_Z (nrow sino)) in
  let mean (m : img Q) j := mean_rows m drop (nrow sino - drop) j in
  exists fact mask, detect fact = Ok mask /\ vlen fact = ncol sino /\ nrow out = nrow sino /\ ncol out = ncol sino /\
    (forall j, vat fact j = (let top := mean (vsort sino) j in let bot := mean (filt (vsort sino)) j in
       if Qeq_bool bot 0 then 1 else (if Qeq_bool top 0 then 1 else top) / bot)%Q) /\
    let row i j := if norm : bool then (px sino i j / vat fact j)%Q else px sino i j in
    forall j, in_rng (ncol sino) j -> forall i,
      (~ marked_near mask j \/ j < 2 \/ ncol sino - 2 <= j -> px out i j = row i j) /\
      (marked_near mask j -> 2 <= j < ncol sino - 2 -> bridged (ncol sino) mask (row i) (px out i) j).
Proof. exact interpolation_full. Qed.
Print Assumptions stripe_interpolation_method_only_changes_detected_columns.

(** the marked positions are those above / below the least-squares line of the middle half of the sorted profile *)
Theorem detect_stripe_marks_outliers_of_the_fitted_line :
  forall asort data snr mask, 0 <= vlen data -> detect_stripe asort data snr = Ok mask ->
  let n := vlen data in let drop := n / 4 in
  let sorted := fun k => vat data (asort data k) in
  exists slope intercept, least_squares_line drop (n - 2 * drop - 1) sorted slope intercept /\
    let last := (intercept + slope * inject_Z (n - 1))%Q in
    let noise := Qabs (last - intercept) in
    (1 # 100000 <= noise)%Q /\ vlen mask = n /\
    forall j, (vat mask j = 1%Q \/ vat mask j = 0%Q) /\
      (vat mask j = 1%Q <->
        ((snr * noise <= Qabs (sorted (n - 1)%Z - last))%Q /\ (last + noise * snr / 2 < vat data j)%Q) \/
        ((snr * noise <= Qabs (intercept - sorted 0%Z))%Q /\ (vat data j <= intercept - noise * snr / 2)%Q)).
Proof. exact detect_explicit. Qed.
Print Assumptions detect_stripe_marks_outliers_of_the_fitted_line.
(** a profile whose sorted values lie on a rising straight line contains no stripe *)
Theorem detect_stripe_finds_nothing_on_a_straight_profile :
  forall (asort : argsort_fn) (data : vec Q) snr c d, 6 <= vlen data -> (0 < d)%Q -> (0 < snr)%Q ->
  (1 # 100000 <= d * inject_Z (vlen data - 1))%Q ->
  (forall k, in_rng (vlen data) k -> (vat data (asort data k) == c + d * inject_Z k)%Q) ->
  exists mask, detect_stripe asort data snr = Ok mask /\ vlen mask = vlen data /\ forall j, vat mask j = 0%Q.
Proof. exact detect_line. Qed.
Print Assumptions detect_stripe_finds_nothing_on_a_straight_profile.
Example ex_detect :
  let line := mkvec 8 inject_Z in
  let spike := mkvec 8 (fun j => if j =? 7 then 100%Q else inject_Z j) in
  match detect_stripe (fun _ k => k) spike 3 with Ok m => map (vat m) (zrange 0 8) = [0;0;0;0;0;0;0;1]%Q | Err _ => False end /\
  is_ok (detect_stripe (fun _ k => k) line 3) = true.
Proof. split; vm_compute; reflexivity. Qed.

(** C78 *)
Theorem regularization_leaves_constant_profiles_alone :
  forall sij (m : vec Q) c i, 2 <= vlen m -> (forall j, in_rng (vlen m) j -> (vat m j == c)%Q) ->
  (vat (regularization_coe sij m) i == 0)%Q.
Proof. exact reg_const. Qed.
Print Assumptions regularization_leaves_constant_profiles_alone.
Theorem regularization_treats_left_and_right_alike_refuted :
  forall (n : Z) (alpha : R), (2 <= n)%Z -> (0 < alpha)%R ->
  exists m : Z -> R, profile_correction n alpha (fun j => m (n - 1 - j)%Z) 0 <> profile_correction n alpha m (n - 1)%Z.
Proof. exact not_mirror. Qed.
Print Assumptions regularization_treats_left_and_right_alike_refuted.
