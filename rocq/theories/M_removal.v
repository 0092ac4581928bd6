(** Model of algotom/prep/removal.py (and utility.py detect_stripe).
    Filters of scipy.ndimage and the FFT / wavelet transforms are parameters. *)
From Verif Require Import Np M_utility M_io_load M_conversion M_correction M_calculation.
From Coq Require Import QArith Qround Qabs String.
From Coq Require Import List. Import ListNotations.
Open Scope Z_scope.

(** ** removal.py:39-94; [filt] is the median filter or the chain of filters named in the options *)
Definition remove_stripe_based_sorting (asort : argsort_fn) (filt : img Q -> img Q) (sino : img Q) : img Q :=
  let '(sino_sort, sino_index) := sort_forward asort sino 0 in
  sort_backward asort (filt sino_sort) sino_index 0.

(** ** removal.py:97-165 *)
Definition remove_stripe_based_filtering scipy_window lowpass (asort : argsort_fn) (filt : img Q -> img Q)
    (sino : img Q) (sigma : Q) (sort : bool) : res (img Q) :=
  do p <- separate_frequency_component scipy_window lowpass sino 0 (WDict "gaussian" [sigma]);
  let '(smooth, sharp) := p in
  let smooth' := if sort then
                   let '(s, x) := sort_forward asort smooth 0 in sort_backward asort (filt s) x 0
                 else filt smooth in
  Ok (img_add smooth' sharp).

(** ** removal.py:415-447; [smooth_] is util.apply_gaussian_filter *)
Definition remove_stripe_based_2d_filtering_sorting (asort : argsort_fn) (filt smooth_ : img Q -> img Q) (sino : img Q) : img Q :=
  let smooth := smooth_ sino in
  let sharp := img_sub sino smooth in
  img_add smooth (remove_stripe_based_sorting asort filt sharp).

(** ** removal.py:168-238; [fit] is util.generate_fitted_image, [filt] the Gaussian or the given filters *)
Definition abs_mean (m : img Q) : Q := qmean2 (nrow m) (ncol m) (fun i j => Qabs (px m i j)).
Definition remove_stripe_based_fitting (asort : argsort_fn) (fit filt : img Q -> img Q) (sino0 : img Q) (sort : bool) : img Q :=
  let '(sino, idx) := if sort then sort_forward asort sino0 0 else (sino0, sino0) in
  let sino_fit := fit sino in
  let sino_filt0 := filt sino_fit in
  let sino_filt := imap (fun v => (abs_mean sino_fit * v / abs_mean sino_filt0)%Q) sino_filt0 in
  let sino_corr := mkimg (nrow sino) (ncol sino) (fun i j => (px sino i j / px sino_fit i j * px sino_filt i j)%Q) in
  if sort then sort_backward asort sino_corr idx 0 else sino_corr.

(** ** utility.py:338-379 detect_stripe.  np.sort is read through the argsort parameter.  np.polyfit(x, y, 1)
    is written in closed form; for fewer than two points (npoint < 3 or npoint = 4) it is empty or rank
    deficient and is not modelled (an error here).  np.int16 does not overflow below 131072 points. *)
Definition line_fit (a m : Z) (y : Z -> Q) : Q * Q (* slope, intercept over x = a .. a+m-1 *) :=
  let xm := qmean m (fun k => inject_Z (a + k)) in
  let ym := qmean m (fun k => y (a + k)) in
  let sxy := qsum m (fun k => ((inject_Z (a + k) - xm) * (y (a + k)%Z - ym))%Q) in
  let sxx := qsum m (fun k => ((inject_Z (a + k) - xm) * (inject_Z (a + k) - xm))%Q) in
  let slope := (sxy / sxx)%Q in (slope, (ym - slope * xm)%Q).
Definition detect_stripe (asort : argsort_fn) (data : vec Q) (snr : Q) : res (vec Q) :=
  let npoint := vlen data in
  let list_sort := fun k => vat data (asort data k) in
  let ndrop := npoint / 4 in
  let m := slen npoint ndrop (- ndrop - 1) in
  if m <? 2 then Err RuntimeError else
  let '(slope, intercept) := line_fit ndrop m list_sort in
  let y_end := (intercept + slope * inject_Z (npoint - 1))%Q in
  let noise_level := Qabs (y_end - intercept) in
  if Qltb noise_level (1 # 100000) then Err ValueError else
  let val1 := (Qabs (list_sort (npoint - 1)%Z - y_end) / noise_level)%Q in
  let val2 := (Qabs (intercept - list_sort 0%Z) / noise_level)%Q in
  let upper := (y_end + noise_level * snr * (1#2))%Q in
  let lower := (intercept - noise_level * snr * (1#2))%Q in
  Ok (mkvec npoint (fun j =>
        if Qle_bool snr val2 && Qle_bool (vat data j) lower then 1%Q
        else if Qle_bool snr val1 && Qltb upper (vat data j) then 1%Q else 0%Q)).

(** ndi.binary_dilation(mask, iterations=1) of a 1D mask, as float *)
Definition dilate (mask : vec Q) : vec Q :=
  let on := fun j => (0 <=? j) && (j <? vlen mask) && negb (Qeq_bool (vat mask j) 0) in
  mkvec (vlen mask) (fun j => if on (j - 1) || on j || on (j + 1) then 1%Q else 0%Q).

(** np.mean(m[a:b], axis=0) *)
Definition mean_rows (m : img Q) (a b : Z) (j : Z) : Q :=
  qmean (slen (nrow m) a b) (fun k => px m (py_adj (nrow m) a + k) j).
(** ** removal.py:241-315; [detect] is util.detect_stripe(_, snr), [filt] the median filter or the options.
    np.divide(list1, list2, out=ones, where=list2 != 0) *)
Definition stripe_factor (l1 l2 : Q) : Q := if Qeq_bool l2 0 then 1%Q else (l1 / l2)%Q.
Definition remove_large_stripe (asort : argsort_fn) (filt : img Q -> img Q) (detect : vec Q -> res (vec Q))
    (sino : img Q) (drop_ratio : Q) (norm : bool) : res (img Q) :=
  let ratio := clipQ drop_ratio 0 (4#5) in
  let nr := nrow sino in
  let ndrop := Qtrunc ((1#2) * ratio * inject_Z nr) in
  let '(sino_sort, sino_index) := sort_forward asort sino 0 in
  let sino_smooth := filt sino_sort in
  let list_fact := mkvec (ncol sino) (fun j =>
    stripe_factor (mean_rows sino_sort ndrop (nr - ndrop) j) (mean_rows sino_smooth ndrop (nr - ndrop) j)) in
  do mask0 <- detect list_fact;
  let mask := dilate mask0 in
  let sinogram := if norm then mkimg nr (ncol sino) (fun i j => (px sino i j / vat list_fact j)%Q) else sino in
  let sino_corr := sort_backward asort sino_smooth sino_index 0 in
  Ok (mkimg nr (ncol sino) (fun i j => if Qltb 0 (vat mask j) then px sino_corr i j else px sinogram i j)).

(** ** removal.py:318-371 (residual=False); [profile] computes list_fact (lines 348-354) from the sinogram *)
Definition count_miss (n : Z) (miss : Z -> bool) : Z := Z.of_nat (List.length (filter miss (zrange 0 n))).
Definition remove_dead_stripe (profile : img Q -> vec Q) (detect : vec Q -> res (vec Q)) (sino : img Q) : res (img Q) :=
  do mask0 <- detect (profile sino);
  let mask := clear_mask_ends (dilate mask0) in
  let good := fun j => Qltb (vat mask j) 1 in
  let miss := fun j => Qltb 0 (vat mask j) in
  (* RectBivariateSpline(kx=1, ky=1) needs two rows and two good columns *)
  if (nrow sino <? 2) || (count_miss (ncol sino) good <? 2) then Err ValueError else
  let n := count_miss (ncol sino) miss in
  if (n <? ncol sino / 3) && (0 <? n) then
    Ok (mkimg (nrow sino) (ncol sino) (fun i j => if miss j then lin_interp good (ncol sino) (px sino i) j else px sino i j))
  else Ok sino.

(** ** removal.py:450-523 and 526-587: loop over row chunks; [corr] maps the mean profile of a chunk to the
    correction added to each of its rows.  pos[0] of an empty chunk is an IndexError. *)
Fixpoint chunk_loop (corr : vec Q -> vec Q) (s : img Q) (chunks : list (Z * Z)) : res (img Q) :=
  match chunks with
  | [] => Ok s
  | (b, len) :: t =>
      if len =? 0 then Err IndexError else
      let e := b + len in
      let list_mean := mkvec (ncol s) (mean_rows s b e) in
      let list_coe := corr list_mean in
      chunk_loop corr (mkimg (nrow s) (ncol s) (fun i j =>
        if (py_adj (nrow s) b <=? i) && (i <? py_adj (nrow s) e) then (px s i j + vat list_coe j)%Q else px s i j)) t
  end.
Definition chunked_correction (asort : argsort_fn) (corr : vec Q -> vec Q) (sino : img Q) (num_chunk : Z) (sort : bool) : res (img Q) :=
  let '(s, idx) := if sort then sort_forward asort sino 0 else (sino, sino) in
  do chunks <- array_split (nrow sino) num_chunk;
  do out <- chunk_loop corr s chunks;
  Ok (if sort then sort_backward asort out idx 0 else out).
(** removal.py:493-519; [filt] is the 1D filter *)
Definition normalization_coe (filt : vec Q -> vec Q) (list_mean : vec Q) : vec Q :=
  mkvec (vlen list_mean) (fun j => (vat (filt list_mean) j - vat list_mean j)%Q).
Definition remove_stripe_based_normalization asort filt sino num_chunk sort : res (img Q) :=
  chunked_correction asort (normalization_coe filt) sino num_chunk sort.
(** removal.py:575-581; [sij] is the matrix of util.calculate_regularization_coefficient *)
Definition reg_grad (m : vec Q) (j : Z) : Q :=
  let n := vlen m in
  if j =? 0 then (vat m 0 - vat m 1)%Q
  else if j =? n - 1 then (vat m (n - 1) - vat m (n - 2))%Q
  else (- (vat m (j + 1) - vat m j - (vat m j - vat m (j - 1))))%Q.
Definition regularization_coe (sij : Z -> Z -> Q) (m : vec Q) : vec Q :=
  mkvec (vlen m) (fun i => qsum (vlen m) (fun j => (reg_grad m j * sij i j)%Q)).
(** apply_log=False *)
Definition remove_stripe_based_regularization asort sij sino num_chunk sort : res (img Q) :=
  if ncol sino <? 2 then Err IndexError (* list_mean[1] *) else
  chunked_correction asort (regularization_coe sij) sino num_chunk sort.

(** ** removal.py:590-632; [fft_window] multiplies the spectrum by the Butterworth window; [out] the padded values *)
Definition remove_stripe_based_fft (asort : argsort_fn) (out : img Q -> Z -> Z -> Q) (fft_window : img Q -> img Q)
    (sino0 : img Q) (sort : bool) : img Q :=
  let '(sino, idx) := if sort then sort_forward asort sino0 0 else (sino0, sino0) in
  let pad := Z.min 150 (Qtrunc ((1#10) * inject_Z (Z.min (nrow sino) (ncol sino)))) in
  let padded := pad_all out sino pad in
  let f := fft_window padded in
  let cut := imap Qabs (islice f pad (nrow padded - pad) pad (ncol padded - pad)) in
  if sort then sort_backward asort cut idx 0 else cut.
(** removal.py:635-717; [wavelet] decomposes, filters and reconstructs; the reconstruction may be larger *)
Definition remove_stripe_based_wavelet_fft (asort : argsort_fn) (out : img Q -> Z -> Z -> Q) (wavelet : img Q -> img Q)
    (sino0 : img Q) (sort : bool) : img Q :=
  let '(sino, idx) := if sort then sort_forward asort sino0 0 else (sino0, sino0) in
  let pad := Z.min 150 (Qtrunc ((1#10) * inject_Z (Z.min (nrow sino) (ncol sino)))) in
  let f := wavelet (pad_all out sino pad) in
  let cut := islice f pad (nrow sino + pad) pad (ncol sino + pad) in
  if sort then sort_backward asort cut idx 0 else cut.

(** ** removal.py:720-818 (kind="linear"); [detect], [filt] as above.  [vsort] is np.sort(axis=0) *)
Definition remove_stripe_based_interpolation (vsort filt : img Q -> img Q) (detect : vec Q -> res (vec Q))
    (sino : img Q) (drop_ratio : Q) (norm : bool) : res (img Q) :=
  let ratio := clipQ drop_ratio 0 (4#5) in
  let nr := nrow sino in
  let ndrop := Qtrunc ((1#2) * ratio * inject_Z nr) in
  let sino_sort := vsort sino in
  let sino_smooth := filt sino_sort in
  let list1 := fun j => let v := mean_rows sino_sort ndrop (nr - ndrop) j in if Qeq_bool v 0 then 1%Q else v in
  let list_fact := mkvec (ncol sino) (fun j => stripe_factor (list1 j) (mean_rows sino_smooth ndrop (nr - ndrop) j)) in
  do mask0 <- detect list_fact;
  let mask := clear_mask_ends (dilate mask0) in
  let s := if norm then mkimg nr (ncol sino) (fun i j => (px sino i j / vat list_fact j)%Q) else sino in
  let good := fun j => Qltb (vat mask j) 1 in
  let miss := fun j => Qltb 0 (vat mask j) in
  if (nr <? 2) || (count_miss (ncol sino) good <? 2) then Err ValueError else
  Ok (mkimg nr (ncol sino) (fun i j => if miss j then lin_interp good (ncol sino) (px s i) j else px s i j)).

(** ** removal.py:821-865; [objects] is ndi.find_objects(ndi.label(mat)[0]): bounding boxes ((i0,i1),(j0,j1)) *)
Definition box := ((Z * Z) * (Z * Z))%type.
Definition in_box (b : box) (i j : Z) : bool :=
  (fst (fst b) <=? i) && (i <? snd (fst b)) && (fst (snd b) <=? j) && (j <? snd (snd b)).
Definition box_count (m : img bool) (b : box) : Z :=
  Z.of_nat (List.length (filter (fun p => px m (fst p) (snd p))
    (flat_map (fun i => map (fun j => (i, j)) (prange (fst (snd b)) (snd (snd b)))) (prange (fst (fst b)) (snd (fst b)))))).
Definition select_zinger (objects : img bool -> list box) (m : img bool) (max_size : Z) : img bool :=
  let sel := filter (fun b => box_count m b <=? max_size) (objects m) in
  mkimg (nrow m) (ncol m) (fun i j => existsb (fun b => in_box b i j) sel && px m i j).
(** ** removal.py:868-908 (size >= 1): range(-size, size+1, size) is [-size; 0; size].
    np.roll(np.roll(mat, i, 0), j, 1) *)
Definition zinger_offsets (size : Z) : list (Z * Z) :=
  filter (fun p => negb ((fst p =? 0) && (snd p =? 0)))
    (flat_map (fun i => map (fun j => (i, j)) [- size; 0; size]) [- size; 0; size]).
Definition zinger_average (m : img Q) (size : Z) (i j : Z) : Q :=
  let offs := zinger_offsets size in
  (qlsum (map (fun p => px m ((i - fst p) mod nrow m) ((j - snd p) mod ncol m)) offs) / inject_Z (Z.of_nat (List.length offs)))%Q.
Definition remove_zinger (objects : img bool -> list box) (m : img Q) (threshold : Q) (size : Z) (check_size : bool) : img Q :=
  let ave := fun i j => let a := zinger_average m size i j in if Qeq_bool a 0 then 1%Q else a in
  let mask0 := mkimg (nrow m) (ncol m) (fun i j => Qltb threshold (px m i j / ave i j - 1)%Q) in
  let mask := if check_size then select_zinger objects mask0 size else mask0 in
  mkimg (nrow m) (ncol m) (fun i j => if px mask i j then ave i j else px m i j).

(** ** removal.py:947-982: the result and the final content of the caller's mask.
    scipy's interp1d raises for an empty list of knots and outside the knots *)
Definition bracketed (good : Z -> bool) (n x : Z) : bool :=
  existsb good (zrange 0 (x + 1)) && existsb good (zrange x (n - x)).
Definition remove_blob_1d (sino : vec Q) (mask : vec Q) : res (vec Q) * vec Q :=
  let n := vlen sino in
  let good := fun j => Qltb (vat mask j) 1 in
  let knots := existsb good (zrange 0 n) in
  if negb knots then (Err ValueError, mask) (* interp1d raises before the mask is cleared *) else
  let mask' := clear_mask_ends mask in
  let miss := fun j => Qltb 0 (vat mask' j) in
  if forallb (fun j => bracketed good n j) (filter miss (zrange 0 n))
  then (Ok (mkvec n (fun j => if miss j then lin_interp good n (vat sino) j else vat sino j)), mask')
  else (Err ValueError, mask').

(** ** removal.py:985-1016: result and final content of the caller's mask *)
Definition blob_row (row mask : vec Q) : res (vec Q) * vec Q :=
  let n := vlen row in
  let mask' := clear_mask_ends mask in
  let good := fun j => Qltb (vat mask' j) 1 in
  let miss := fun j => Qltb 0 (vat mask' j) in
  if negb (existsb good (zrange 0 n)) then (Err ValueError, mask') else
  if forallb (fun j => bracketed good n j) (filter miss (zrange 0 n))
  then (Ok (mkvec n (fun j => if miss j then lin_interp good n (vat row) j else vat row j)), mask')
  else (Err ValueError, mask').
Fixpoint blob_loop (mat mask : img Q) (rows : list Z) : res (img Q) * img Q :=
  match rows with
  | [] => (Ok mat, mask)
  | i :: t =>
      let '(r, mrow) := blob_row (irow mat i) (irow mask i) in
      let mask' := mkimg (nrow mask) (ncol mask) (fun a b => if a =? i then vat mrow b else px mask a b) in
      match r with
      | Ok v => blob_loop (mkimg (nrow mat) (ncol mat) (fun a b => if a =? i then vat v b else px mat a b)) mask' t
      | Err e => (Err e, mask')
      end
  end.
Definition remove_blob (mat mask : img Q) : res (img Q) * img Q :=
  if negb ((nrow mat =? nrow mask) && (ncol mat =? ncol mask)) then (Err ValueError, mask)
  else blob_loop mat mask (zrange 0 (nrow mat)).
