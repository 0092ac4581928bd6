(** Property theorems for postprocessing.py (C46-C51). *)
From Verif Require Import Np P_Np M_conversion M_correction M_fs S_io M_io_save P_io_save M_post S_post P_post P_post2.
From Coq Require Import QArith Qround Lia Lqa Ascii String.
From Coq Require Import List. Import ListNotations.
Open Scope Z_scope.

Lemma crop_good d h w c : sensible_crop d h w c -> good_crop d h w c.
Proof. unfold sensible_crop, good_crop. lia. Qed.
Lemma below_underb d q : at_or_below d q <-> underb d q = true.
Proof.
  split.
  - intros [sub ->]. induction sub as [|n s IH]; [apply underb_refl|]. cbn [app]. apply underb_cons. exact IH.
  - induction q as [|n q IH]; cbn [underb]; intros H.
    + destruct (path_eq_dec d []) as [->|]; [exists []; reflexivity|discriminate].
    + destruct (path_eq_dec d (n :: q)) as [->|]; [exists []; reflexivity|]. destruct (IH H) as [s ->]. exists (n :: s). reflexivity.
Qed.

(** C46: minimum and maximum.  [info] is the statistics of one image; the visited slices are first, first + step, ... *)
Theorem dataset_min_and_max_are_the_extremes_of_the_visited_slices_partial :
  forall (info : img Q -> stat) (med : list Q -> Q) (data : vol Q) (c : crop6) (skip : Z),
  (forall m, 1 <= nrow m -> 1 <= ncol m ->
     (forall i j, in_rng (nrow m) i -> in_rng (ncol m) j -> (s_min (info m) <= px m i j <= s_max (info m))%Q) /\
     (exists i j, in_rng (nrow m) i /\ in_rng (ncol m) j /\ (s_min (info m) == px m i j)%Q) /\
     (exists i j, in_rng (nrow m) i /\ in_rng (ncol m) j /\ (s_max (info m) == px m i j)%Q)) ->
  sensible_crop (dep data) (hei data) (wid data) c -> 2 <= dep data - c_d2 c - c_d1 c ->
  let step := clipZ skip 1 (dep data - c_d2 c - c_d1 c - 1) in
  let visited := fun k i j => (exists n, 0 <= n /\ k = c_d1 c + n * step) /\ k < dep data - c_d2 c /\
       c_h1 c <= i < hei data - c_h2 c /\ c_w1 c <= j < wid data - c_w2 c in
  exists r, stat_dataset info (fun m => m) med data c skip = Ok r /\
    (forall k i j, visited k i j -> (s_min r <= vx data k i j <= s_max r)%Q) /\
    (exists k i j, visited k i j /\ (s_min r == vx data k i j)%Q) /\
    (exists k i j, visited k i j /\ (s_max r == vx data k i j)%Q).
Proof. intros info med data c skip HI HC HD. unfold sensible_crop in HC. apply stat_extremes; try assumption; lia. Qed.
Print Assumptions dataset_min_and_max_are_the_extremes_of_the_visited_slices_partial.
(** the number called mean is the average of the slice medians, and the one called median is the median of the slice means *)
Definition two_slices : vol Q := mkvol 2 1 3 (fun k i j => if j =? 2 then 3%Q else 0%Q).
Theorem dataset_mean_and_median_refuted :
  exists (data : vol Q) (c : crop6) (r : stat),
    stat_dataset image_statistics (fun m => m) median data c 1 = Ok r /\
    let slices := [vimg data 0; vimg data 1] in
    dep data = 2 /\ c = mkcrop 0 0 0 0 0 0 /\
    (average (map (fun m => average (pixels m)) slices) == 1)%Q /\ (s_mean r == 0)%Q /\
    (median (map (fun m => median (pixels m)) slices) == 0)%Q /\ (s_median r == 1)%Q.
Proof.
  exists two_slices, (mkcrop 0 0 0 0 0 0). eexists. split; [reflexivity|]. cbn zeta.
  split; [reflexivity|]. split; [reflexivity|]. repeat split; vm_compute; reflexivity.
Qed.
Print Assumptions dataset_mean_and_median_refuted.
(** a dataset of one slice is rejected *)
Theorem dataset_of_one_slice_refuted :
  forall info smooth med (data : vol Q) (c : crop6) skip,
  sensible_crop (dep data) (hei data) (wid data) c -> dep data - c_d2 c - c_d1 c = 1 ->
  stat_dataset info smooth med data c skip = Err ValueError.
Proof. intros info smooth med data c skip HC HD. unfold sensible_crop in HC. apply stat_single; lia. Qed.
Print Assumptions dataset_of_one_slice_refuted.
Example statistics_example :
  match stat_dataset image_statistics (fun m => m) median (mkvol 3 2 2 (fun k i j => inject_Z (10 * k + 3 * i - j))) (mkcrop 0 0 0 0 0 0) 1 with
  | Ok r => (Qred (s_min r), Qred (s_max r)) = ((-1)%Q, 23%Q)
  | Err _ => False end.
Proof. vm_compute. reflexivity. Qed.

(** C47 *)
Theorem downsampling_by_mean_averages_the_cell :
  forall (mat : img Q) c0 c1, 0 <= nrow mat -> 0 <= ncol mat -> 1 <= c0 -> 1 <= c1 ->
  exists out, downsample qmean mat c0 c1 = Ok out /\ nrow out = nrow mat / c0 /\ ncol out = ncol mat / c1 /\
  forall i j, in_rng (nrow out) i -> in_rng (ncol out) j ->
    i * c0 + c0 <= nrow mat /\ j * c1 + c1 <= ncol mat /\
    (px out i j == qsum2 c0 c1 (fun a b => px mat (i * c0 + a)%Z (j * c1 + b)%Z) / (inject_Z c0 * inject_Z c1))%Q.
Proof. exact downsample_mean. Qed.
Print Assumptions downsampling_by_mean_averages_the_cell.
Theorem downsampling_by_minimum_takes_the_smallest_of_the_cell :
  forall (mat : img Q) c0 c1, 0 <= nrow mat -> 0 <= ncol mat -> 1 <= c0 -> 1 <= c1 ->
  exists out, downsample amin mat c0 c1 = Ok out /\ nrow out = nrow mat / c0 /\ ncol out = ncol mat / c1 /\
  forall i j, in_rng (nrow out) i -> in_rng (ncol out) j ->
    (forall a b, i * c0 <= a < i * c0 + c0 -> j * c1 <= b < j * c1 + c1 -> (px out i j <= px mat a b)%Q) /\
    exists a b, i * c0 <= a < i * c0 + c0 /\ j * c1 <= b < j * c1 + c1 /\ (px out i j == px mat a b)%Q.
Proof. exact downsample_min. Qed.
Print Assumptions downsampling_by_minimum_takes_the_smallest_of_the_cell.
Theorem downsampling_by_maximum_takes_the_largest_of_the_cell :
  forall (mat : img Q) c0 c1, 0 <= nrow mat -> 0 <= ncol mat -> 1 <= c0 -> 1 <= c1 ->
  exists out, downsample amax mat c0 c1 = Ok out /\ nrow out = nrow mat / c0 /\ ncol out = ncol mat / c1 /\
  forall i j, in_rng (nrow out) i -> in_rng (ncol out) j ->
    (forall a b, i * c0 <= a < i * c0 + c0 -> j * c1 <= b < j * c1 + c1 -> (px mat a b <= px out i j)%Q) /\
    exists a b, i * c0 <= a < i * c0 + c0 /\ j * c1 <= b < j * c1 + c1 /\ (px out i j == px mat a b)%Q.
Proof. exact downsample_max. Qed.
Print Assumptions downsampling_by_maximum_takes_the_largest_of_the_cell.
(** every method whose reduction lies between the extremes (mean, min, max, median): the result stays in the range of its cell *)
Theorem downsampling_stays_in_the_range_of_the_cell :
  forall (agg : Z -> (Z -> Q) -> Q) (mat : img Q) c0 c1,
  (forall n f g, 1 <= n -> (forall i, 0 <= i < n -> (f i == g i)%Q) -> (agg n f == agg n g)%Q) ->
  (forall n f lo hi, 1 <= n -> (forall i, 0 <= i < n -> (lo <= f i <= hi)%Q) -> (lo <= agg n f <= hi)%Q) ->
  0 <= nrow mat -> 0 <= ncol mat -> 1 <= c0 -> 1 <= c1 ->
  exists out, downsample agg mat c0 c1 = Ok out /\ nrow out = nrow mat / c0 /\ ncol out = ncol mat / c1 /\
  forall i j lo hi, in_rng (nrow out) i -> in_rng (ncol out) j ->
    (forall a b, i * c0 <= a < i * c0 + c0 -> j * c1 <= b < j * c1 + c1 -> (lo <= px mat a b <= hi)%Q) ->
    (lo <= px out i j <= hi)%Q.
Proof. intros agg mat c0 c1 H1 H2. apply downsample_between. split; assumption. Qed.
Print Assumptions downsampling_stays_in_the_range_of_the_cell.
Theorem dataset_downsampling_by_mean_averages_the_cell :
  forall (data : vol Q) c c0 c1 c2,
  sensible_crop (dep data) (hei data) (wid data) c -> 1 <= c0 -> 1 <= c1 -> 1 <= c2 ->
  let d1 := dep data - c_d2 c - c_d1 c in let h1 := hei data - c_h2 c - c_h1 c in let w1 := wid data - c_w2 c - c_w1 c in
  c0 <= d1 -> c1 <= h1 -> c2 <= w1 ->
  exists out, downsample_dataset qmean data c c0 c1 c2 = Ok out /\ Z.of_nat (List.length out) = d1 / c0 /\
  forall n m, 0 <= n -> nth_error out (Z.to_nat n) = Some m ->
    nrow m = h1 / c1 /\ ncol m = w1 / c2 /\
    forall i j, in_rng (h1 / c1) i -> in_rng (w1 / c2) j ->
    (px m i j == qsum c0 (fun z => qsum2 c1 c2 (fun a b =>
        vx data (c_d1 c + n * c0 + z)%Z (c_h1 c + i * c1 + a)%Z (c_w1 c + j * c2 + b)%Z)) / (inject_Z c0 * inject_Z c1 * inject_Z c2))%Q.
Proof. intros data c c0 c1 c2 HC. apply downsample_dataset_mean. apply crop_good. exact HC. Qed.
Print Assumptions dataset_downsampling_by_mean_averages_the_cell.
Theorem dataset_downsampling_by_minimum_takes_the_smallest_of_the_cell :
  forall (data : vol Q) c c0 c1 c2,
  sensible_crop (dep data) (hei data) (wid data) c -> 1 <= c0 -> 1 <= c1 -> 1 <= c2 ->
  let d1 := dep data - c_d2 c - c_d1 c in let h1 := hei data - c_h2 c - c_h1 c in let w1 := wid data - c_w2 c - c_w1 c in
  c0 <= d1 -> c1 <= h1 -> c2 <= w1 ->
  exists out, downsample_dataset amin data c c0 c1 c2 = Ok out /\ Z.of_nat (List.length out) = d1 / c0 /\
  forall n m, 0 <= n -> nth_error out (Z.to_nat n) = Some m ->
    forall i j, in_rng (h1 / c1) i -> in_rng (w1 / c2) j ->
    (forall z a b, 0 <= z < c0 -> 0 <= a < c1 -> 0 <= b < c2 -> (px m i j <= vx data (c_d1 c + n * c0 + z)%Z (c_h1 c + i * c1 + a)%Z (c_w1 c + j * c2 + b)%Z)%Q) /\
    exists z a b, 0 <= z < c0 /\ 0 <= a < c1 /\ 0 <= b < c2 /\ (px m i j == vx data (c_d1 c + n * c0 + z)%Z (c_h1 c + i * c1 + a)%Z (c_w1 c + j * c2 + b)%Z)%Q.
Proof. intros data c c0 c1 c2 HC. apply downsample_dataset_amin. apply crop_good. exact HC. Qed.
Print Assumptions dataset_downsampling_by_minimum_takes_the_smallest_of_the_cell.
Theorem dataset_downsampling_by_maximum_takes_the_largest_of_the_cell :
  forall (data : vol Q) c c0 c1 c2,
  sensible_crop (dep data) (hei data) (wid data) c -> 1 <= c0 -> 1 <= c1 -> 1 <= c2 ->
  let d1 := dep data - c_d2 c - c_d1 c in let h1 := hei data - c_h2 c - c_h1 c in let w1 := wid data - c_w2 c - c_w1 c in
  c0 <= d1 -> c1 <= h1 -> c2 <= w1 ->
  exists out, downsample_dataset amax data c c0 c1 c2 = Ok out /\ Z.of_nat (List.length out) = d1 / c0 /\
  forall n m, 0 <= n -> nth_error out (Z.to_nat n) = Some m ->
    forall i j, in_rng (h1 / c1) i -> in_rng (w1 / c2) j ->
    (forall z a b, 0 <= z < c0 -> 0 <= a < c1 -> 0 <= b < c2 -> (vx data (c_d1 c + n * c0 + z)%Z (c_h1 c + i * c1 + a)%Z (c_w1 c + j * c2 + b)%Z <= px m i j)%Q) /\
    exists z a b, 0 <= z < c0 /\ 0 <= a < c1 /\ 0 <= b < c2 /\ (px m i j == vx data (c_d1 c + n * c0 + z)%Z (c_h1 c + i * c1 + a)%Z (c_w1 c + j * c2 + b)%Z)%Q.
Proof. intros data c c0 c1 c2 HC. apply downsample_dataset_amax. apply crop_good. exact HC. Qed.
Print Assumptions dataset_downsampling_by_maximum_takes_the_largest_of_the_cell.
Theorem dataset_downsampling_stays_in_the_range_of_the_cell :
  forall (agg : Z -> (Z -> Q) -> Q) (data : vol Q) c c0 c1 c2,
  (forall n f g, 1 <= n -> (forall i, 0 <= i < n -> (f i == g i)%Q) -> (agg n f == agg n g)%Q) ->
  (forall n f lo hi, 1 <= n -> (forall i, 0 <= i < n -> (lo <= f i <= hi)%Q) -> (lo <= agg n f <= hi)%Q) ->
  sensible_crop (dep data) (hei data) (wid data) c -> 1 <= c0 -> 1 <= c1 -> 1 <= c2 ->
  let d1 := dep data - c_d2 c - c_d1 c in let h1 := hei data - c_h2 c - c_h1 c in let w1 := wid data - c_w2 c - c_w1 c in
  c0 <= d1 -> c1 <= h1 -> c2 <= w1 ->
  exists out, downsample_dataset agg data c c0 c1 c2 = Ok out /\ Z.of_nat (List.length out) = d1 / c0 /\
  forall n m, 0 <= n -> nth_error out (Z.to_nat n) = Some m ->
    forall i j lo hi, in_rng (h1 / c1) i -> in_rng (w1 / c2) j ->
    (forall z a b, 0 <= z < c0 -> 0 <= a < c1 -> 0 <= b < c2 ->
        (lo <= vx data (c_d1 c + n * c0 + z)%Z (c_h1 c + i * c1 + a)%Z (c_w1 c + j * c2 + b)%Z <= hi)%Q) ->
    (lo <= px m i j <= hi)%Q.
Proof. intros agg data c c0 c1 c2 H1 H2 HC. apply downsample_dataset_between; [split; assumption|apply crop_good; exact HC]. Qed.
Print Assumptions dataset_downsampling_stays_in_the_range_of_the_cell.
(** the reductions meet the two conditions *)
Example reductions_qualify : P_post.between qmean /\ P_post.between amin /\ P_post.between amax.
Proof. split; [exact between_mean|]. split; [exact between_amin|exact between_amax]. Qed.
(** method "median": np.median over one axis after the other is not the median of the cell *)
Definition med_fn (n : Z) (f : Z -> Q) : Q := median (map f (zrange 0 n)).
Theorem downsampling_by_median_refuted :
  exists (mat : img Q) out, downsample med_fn mat 3 3 = Ok out /\ nrow out = 1 /\ ncol out = 1 /\
    (median (pixels mat) == 1)%Q /\ (px out 0 0 == 0)%Q.
Proof.
  exists (mkimg 3 3 (fun i j => if i =? 2 then 9%Q else if j =? 2 then 1%Q else 0%Q)). eexists. split; [reflexivity|].
  split; [reflexivity|]. split; [reflexivity|]. split; vm_compute; reflexivity.
Qed.
Print Assumptions downsampling_by_median_refuted.
Example downsampling_example :
  match downsample qmean (mkimg 5 4 (fun i j => inject_Z (10 * i + j))) 2 2 with
  | Ok m => (nrow m, ncol m, Qred (px m 1 0), Qred (px m 0 1)) = (2, 2, (51 # 2)%Q, (15 # 2)%Q) | Err _ => False end.
Proof. vm_compute. reflexivity. Qed.

(** C48 *)
Theorem rescaled_values_are_the_scaled_and_truncated_clipped_values :
  forall nmin nmax (mat : img Q) nbit gmin gmax, nbit = 8 \/ nbit = 16 -> (gmin < gmax)%Q ->
  exists out, rescale nmin nmax mat nbit (Some (gmin, gmax)) = Ok out /\ nrow out = nrow mat /\ ncol out = ncol mat /\
  forall i j,
    0 <= px out i j <= 2 ^ nbit - 1 /\
    ((px mat i j <= gmin)%Q -> px out i j = 0) /\
    ((gmax <= px mat i j)%Q -> px out i j = 2 ^ nbit - 1) /\
    ((gmin <= px mat i j <= gmax)%Q -> px out i j = Qfloor ((px mat i j - gmin) / (gmax - gmin) * inject_Z (2 ^ nbit - 1))) /\
    forall i' j', (px mat i j <= px mat i' j')%Q -> px out i j <= px out i' j'.
Proof.
  intros nmin nmax mat nbit gmin gmax Hb Hg. unfold rescale.
  replace (negb (nbit =? 8) && negb (nbit =? 16)) with false by lia. eexists. split; [reflexivity|].
  split; [reflexivity|]. split; [reflexivity|]. intros i j. unfold imap. cbn [px].
  assert (ET : 2 ^ nbit - 1 = top nbit) by (destruct Hb as [->| ->]; reflexivity). rewrite ET.
  destruct (rescale_px_floor nbit gmin gmax (px mat i j) Hg) as [F R]. destruct (rescale_px_ends nbit gmin gmax (px mat i j) Hg) as [E1 E2].
  split; [exact R|]. split; [exact E1|]. split; [exact E2|]. split.
  - intros Hin. rewrite F. apply Qfloor_comp. rewrite (clipQ_id _ _ _ Hin). reflexivity.
  - intros i' j' H. apply rescale_px_mono; assumption.
Qed.
Print Assumptions rescaled_values_are_the_scaled_and_truncated_clipped_values.
Theorem rescale_without_given_range_uses_the_range_of_the_image :
  forall nmin nmax (mat : img Q) nbit, rescale nmin nmax mat nbit None = rescale nmin nmax mat nbit (Some (nmin mat, nmax mat)).
Proof. reflexivity. Qed.
Theorem rescale_rejects_other_bit_depths :
  forall nmin nmax (mat : img Q) nbit minmax, nbit <> 8 -> nbit <> 16 -> rescale nmin nmax mat nbit minmax = Err ValueError.
Proof. intros nmin nmax mat nbit minmax H1 H2. unfold rescale. replace (negb (nbit =? 8) && negb (nbit =? 16)) with true by lia. reflexivity. Qed.
Print Assumptions rescale_rejects_other_bit_depths.
Example rescale_example : map (rescale_px 8 (1 # 2) (5 # 2)) [0%Q; (1 # 2)%Q; 1%Q; 2%Q; (5 # 2)%Q; 7%Q] = [0; 0; 63; 191; 255; 255].
Proof. vm_compute. reflexivity. Qed.

(** C49: reslicing.  [rot] is the rotation of one image (identity without rotation), [resc] the rescaling of a value.
    For a folder of tif files: *)
Theorem reslicing_a_tif_stack_is_an_exact_transposition_partial :
  forall {V W} (rot : img V -> img V) (resc : V -> W) (data : vol V) axis c chunk d,
  (forall m, nrow (rot m) = nrow m /\ ncol (rot m) = ncol m) -> (axis = 1 \/ axis = 2) ->
  sensible_crop (dep data) (hei data) (wid data) c ->
  let d1 := dep data - c_d2 c - c_d1 c in let h1 := hei data - c_h2 c - c_h1 c in let w1 := wid data - c_w2 c - c_w1 c in
  let n := if axis =? 1 then h1 else w1 in
  2 <= d1 -> 2 <= n ->
  exists out, reslice true rot resc data axis c chunk d = Ok out /\ map fst out = zrange 0 n /\
  forall s m, In (s, m) out -> nrow m = d1 /\ ncol m = (if axis =? 1 then w1 else h1) /\
    forall a k, in_rng (nrow m) a -> in_rng (ncol m) k ->
      px m a k = resc (let im := rot (vimg data (c_d1 c + a)) in
                       if axis =? 1 then px im (c_h1 c + s) (c_w1 c + k) else px im (c_h1 c + k) (c_w1 c + s)).
Proof. intros V W rot resc data axis c chunk d Hr Ha HC. apply (reslice_ok true rot resc data axis c chunk d Hr Ha (crop_good _ _ _ _ HC)). Qed.
Print Assumptions reslicing_a_tif_stack_is_an_exact_transposition_partial.
(** for an hdf dataset the same holds when nothing is cropped at the beginning of the first axis: *)
Theorem reslicing_an_hdf_dataset_is_an_exact_transposition_without_leading_crop_partial :
  forall {V W} (rot : img V -> img V) (resc : V -> W) (data : vol V) axis c chunk d,
  (forall m, nrow (rot m) = nrow m /\ ncol (rot m) = ncol m) -> (axis = 1 \/ axis = 2) ->
  sensible_crop (dep data) (hei data) (wid data) c -> c_d1 c = 0 ->
  let d1 := dep data - c_d2 c - c_d1 c in let h1 := hei data - c_h2 c - c_h1 c in let w1 := wid data - c_w2 c - c_w1 c in
  let n := if axis =? 1 then h1 else w1 in
  2 <= d1 -> 2 <= n ->
  exists out, reslice false rot resc data axis c chunk d = Ok out /\ map fst out = zrange 0 n /\
  forall s m, In (s, m) out -> nrow m = d1 /\ ncol m = (if axis =? 1 then w1 else h1) /\
    forall a k, in_rng (nrow m) a -> in_rng (ncol m) k ->
      px m a k = resc (let im := rot (vimg data (c_d1 c + a)) in
                       if axis =? 1 then px im (c_h1 c + s) (c_w1 c + k) else px im (c_h1 c + k) (c_w1 c + s)).
Proof.
  intros V W rot resc data axis c chunk d Hr Ha HC H0 d1 h1 w1 n L1 L2.
  destruct (reslice_ok false rot resc data axis c chunk d Hr Ha (crop_good _ _ _ _ HC) L1 L2) as (out & E & M & P).
  exists out. split; [exact E|]. split; [exact M|]. intros s m Hin. destruct (P s m Hin) as (A & B & D).
  split; [exact A|]. split; [exact B|]. rewrite H0. exact D.
Qed.
Print Assumptions reslicing_an_hdf_dataset_is_an_exact_transposition_without_leading_crop_partial.
Theorem reslicing_a_cropped_hdf_dataset_refuted :
  exists (data : vol Z) c m rest, sensible_crop (dep data) (hei data) (wid data) c /\
    reslice false (fun m => m) (fun v => v) data 1 c 16 (mkimg 0 0 (fun _ _ => 0)) = Ok ((0, m) :: rest) /\
    c_d1 c = 1 /\ c_h1 c = 0 /\ c_w1 c = 0 /\ vx data 1 0 0 = 100 /\ px m 0 0 = 0.
Proof.
  exists (mkvol 3 2 2 (fun k i j => 100 * k + 10 * i + j)), (mkcrop 1 0 0 0 0 0).
  do 2 eexists. split; [unfold sensible_crop; cbn; lia|]. split; [reflexivity|]. repeat split; vm_compute; reflexivity.
Qed.
Print Assumptions reslicing_a_cropped_hdf_dataset_refuted.
(** a volume that is one image deep, or has one line along the sliced axis, is rejected *)
Theorem reslicing_a_single_image_refuted :
  forall {V W} tif rot (resc : V -> W) (data : vol V) axis c chunk d,
  (axis = 1 \/ axis = 2) -> sensible_crop (dep data) (hei data) (wid data) c ->
  dep data - c_d2 c - c_d1 c = 1 \/ (if axis =? 1 then hei data - c_h2 c - c_h1 c else wid data - c_w2 c - c_w1 c) = 1 ->
  reslice tif rot resc data axis c chunk d = Err ValueError.
Proof. intros V W tif rot resc data axis c chunk d Ha HC. apply reslice_single; [exact Ha|apply crop_good; exact HC]. Qed.
Print Assumptions reslicing_a_single_image_refuted.
Example reslice_example :
  match reslice true (fun m => m) (fun v => v) (mkvol 5 4 3 (fun k i j => 100 * k + 10 * i + j)) 2 (mkcrop 1 0 1 0 0 0) 3 (mkimg 0 0 (fun _ _ => 0)) with
  | Ok l => map (fun p => (fst p, nrow (snd p), ncol (snd p), px (snd p) 3 1)) l | Err _ => [] end
  = [(0, 4, 3, 420); (1, 4, 3, 421); (2, 4, 3, 422)].
Proof. vm_compute. reflexivity. Qed.

(** C50 *)
Theorem rescaling_to_a_new_hdf_file_writes_the_requested_path_partial :
  forall {D} (f : fs (hdf D)) n d d0 overwrite, suffix n = s_ ".hdf" -> lookup f (n :: d) = None -> usable_folder f d ->
  exists f', rescale_dataset_hdf f (n :: d) d0 overwrite = (f', Ok (n :: d)) /\ exists h, lookup f' (n :: d) = Some (File ((s_ "entry/data", d0) :: h)).
Proof.
  intros D f n d d0 overwrite S L U. unfold rescale_dataset_hdf.
  assert (CK : (if overwrite then Ok tt else check_output f (n :: d)) = Ok tt).
  { destruct overwrite; [reflexivity|]. unfold check_output, isfile. cbn [pname hd]. rewrite S, L. reflexivity. }
  rewrite CK. unfold open_hdf_stream.
  assert (HP : hdf_path (n :: d) = n :: d) by (unfold hdf_path; cbn [pname hd]; rewrite S; reflexivity). rewrite HP. cbn [parent tl].
  destruct (P_fs.usable_mkdir d f U) as (f1 & E1). rewrite E1.
  assert (L1 : lookup f1 (n :: d) = None) by (rewrite (P_fs.mkdir_lookup_longer _ _ _ E1) by (cbn [List.length]; lia); exact L).
  assert (MK : make_file_name f1 (n :: d) = Ok (n :: d)) by (unfold make_file_name, existsb_; rewrite L1; reflexivity). rewrite MK.
  rewrite P_fs.write_file_can; [|eapply P_fs.mkdir_is_dir; exact E1|rewrite L1; discriminate].
  cbn [add_options]. cbn. eexists. split; [reflexivity|]. exists []. cbn [lookup]. destruct (path_eq_dec (n :: d) (n :: d)); [reflexivity|congruence].
Qed.
Print Assumptions rescaling_to_a_new_hdf_file_writes_the_requested_path_partial.
Example rescale_to_new_example : snd (rescale_dataset_hdf [([s_ "data"], Dir)] [s_ "b.hdf"; s_ "new"; s_ "data"] 5 false) = Ok [s_ "b.hdf"; s_ "new"; s_ "data"].
Proof. vm_compute. reflexivity. Qed.
Theorem rescaling_with_overwrite_refuted :
  exists (f : fs (hdf Z)) out q, rescale_dataset_hdf f out 7 true = (fst (rescale_dataset_hdf f out 7 true), Ok q) /\ q <> out /\
    lookup (fst (rescale_dataset_hdf f out 7 true)) out = lookup f out.
Proof.
  exists [([s_ "a.hdf"; s_ "data"], File [(s_ "entry/data", 1)]); ([s_ "data"], Dir)], [s_ "a.hdf"; s_ "data"]. eexists.
  split; [vm_compute; reflexivity|]. split; [discriminate|]. vm_compute. reflexivity.
Qed.
Print Assumptions rescaling_with_overwrite_refuted.

(** C51.  reslice_fs lists the file systems after every step of the run: a crash can leave any of them behind.
    The only paths whose content can change are the output images and the folder output/tmp_ (folder output),
    or the output file and the whole folder named like it without extension (hdf output). *)
Theorem reslicing_changes_only_the_output_and_its_working_folder_partial :
  forall {C M} enc scale8 cplx pil_ok (slice : Z -> M) (f : fs C) out overwrite tmpc outc order,
  Forall (fun f' => forall q nd, lookup f q = Some nd ->
      (suffix (pname out) = [] -> ~ at_or_below (s_ "tmp_" :: out) q /\ forall i, In i order -> q <> out_name i :: out) ->
      (suffix (pname out) <> [] -> q <> out /\ ~ at_or_below (stem (pname out) :: parent out) q) ->
      lookup f' q = Some nd)
    (reslice_fs enc scale8 cplx pil_ok slice f out overwrite tmpc outc order).
Proof.
  intros. eapply Forall_impl; [|apply reslice_fs_frame]. intros g Hg q nd L H1 H2. apply Hg; [|exact L]. unfold claimed.
  destruct (suffix (pname out)) as [|ch t].
  - destruct (H1 eq_refl) as [A B]. intros [U|(i & Hi & E)]; [apply A, below_underb, U|apply (B i Hi E)].
  - destruct (H2 ltac:(discriminate)) as [A B]. intros [E|U]; [contradiction|apply B, below_underb, U].
Qed.
Print Assumptions reslicing_changes_only_the_output_and_its_working_folder_partial.
Theorem reslicing_to_a_new_folder_keeps_every_existing_file :
  forall {C M} enc scale8 cplx pil_ok (slice : Z -> M) (f : fs C) out tmpc outc order, proper_tree f -> out <> [] ->
  suffix (pname out) = [] ->
  Forall (preserved f) (reslice_fs enc scale8 cplx pil_ok slice f out false tmpc outc order).
Proof. intros C M enc scale8 cplx pil_ok slice f out tmpc outc order. apply reslice_fs_fresh. Qed.
Print Assumptions reslicing_to_a_new_folder_keeps_every_existing_file.
Theorem reslicing_to_a_new_hdf_file_keeps_every_existing_file_partial :
  forall {C M} enc scale8 cplx pil_ok (slice : Z -> M) (f : fs C) out overwrite tmpc outc order, proper_tree f ->
  suffix (pname out) <> [] -> lookup f out = None -> lookup f (stem (pname out) :: parent out) = None ->
  Forall (preserved f) (reslice_fs enc scale8 cplx pil_ok slice f out overwrite tmpc outc order).
Proof. intros C M enc scale8 cplx pil_ok slice f out overwrite tmpc outc order. apply reslice_fs_hdf. Qed.
Print Assumptions reslicing_to_a_new_hdf_file_keeps_every_existing_file_partial.
Theorem reslicing_to_hdf_ends_with_the_output_and_no_working_folder :
  forall {C M} enc scale8 cplx pil_ok (slice : Z -> M) (f : fs C) out tmpc outc order,
  suffix (pname out) <> [] -> usable_folder f (tmp_folder out) -> lookup f (tmp_file out) <> Some Dir -> lookup f out <> Some Dir ->
  exists tr fin, reslice_fs enc scale8 cplx pil_ok slice f out true tmpc outc order = tr ++ [fin] /\
    lookup fin out = Some (File outc) /\ forall q, at_or_below (stem (pname out) :: parent out) q -> lookup fin q = None.
Proof.
  intros C M enc scale8 cplx pil_ok slice f out tmpc outc order H1 H2 H3 H4.
  destruct (reslice_fs_done enc scale8 cplx pil_ok slice f out tmpc outc order H1 H2 H3 H4) as (tr & fin & A & B & D).
  exists tr, fin. split; [exact A|]. split; [exact B|]. intros q Hq. apply D, below_underb. exact Hq.
Qed.
Print Assumptions reslicing_to_hdf_ends_with_the_output_and_no_working_folder.
(** the folder "results" next to the output "results.hdf" is deleted, also with overwrite=False *)
Definition with_results : fs Z := [([s_ "notes.txt"; s_ "results"], File 5); ([s_ "results"], Dir)].
Theorem reslicing_deletes_a_folder_named_like_the_output_refuted :
  proper_tree with_results /\ lookup with_results [s_ "results.hdf"] = None /\
  exists tr fin, reslice_fs (fun _ m => m) (fun m => m) (fun _ => false) (fun _ => true) (fun i => i) with_results [s_ "results.hdf"] false 1 2 [0; 1] = tr ++ [fin] /\
    lookup with_results [s_ "notes.txt"; s_ "results"] = Some (File 5) /\ lookup fin [s_ "notes.txt"; s_ "results"] = None /\
    lookup fin [s_ "results.hdf"] = Some (File 2).
Proof.
  split; [|split; [reflexivity|] ].
  - intros n p nd H. cbn [with_results lookup] in H.
    destruct (path_eq_dec [s_ "notes.txt"; s_ "results"] (n :: p)) as [E|_].
    + injection E as _ <-. right. reflexivity.
    + destruct (path_eq_dec [s_ "results"] (n :: p)) as [E|_]; [|discriminate]. injection E as _ <-. left. reflexivity.
  - match goal with |- exists tr fin, ?t = _ /\ _ => let v := eval vm_compute in t in change t with v end.
    eexists [_; _; _; _; _], _. split; [reflexivity|]. repeat split; vm_compute; reflexivity.
Qed.
Print Assumptions reslicing_deletes_a_folder_named_like_the_output_refuted.
(** output names: five digits, distinct below 100000; index 100000 falls back on 00000 *)
Theorem resliced_images_are_numbered_with_five_digits :
  forall i, 0 <= i < 100000 -> exists ds, written 5 (Z.to_N i) ds /\ out_name i = s_ "img_" ++ ds ++ s_ ".tif".
Proof. exact out_name_written. Qed.
Print Assumptions resliced_images_are_numbered_with_five_digits.
Theorem resliced_image_names_refuted : out_name 100000 = out_name 0.
Proof. vm_compute. reflexivity. Qed.
