# Formal model of algotom in Coq 8.16 — design

## Layout

* `properties.jsonl` — the English properties (C01 …).
* `rocq/theories/Np.v` — the Python/NumPy primitives the models share (results with exceptions,
  slices, clip, `array_split`, functional arrays, schedules).
* `rocq/theories/M_*.v` — models, one file per source module (or part of it). Every definition cites
  the lines of `/repo` it models and says what is simplified.
* `rocq/theories/S_*.v` — small specifications written without looking at the model's helpers.
* `rocq/theories/P_*.v` — proofs.
* `rocq/theories/T_*.v` — the property theorems only, each closed by `exact`, with `Print Assumptions`
  underneath and an `Example` showing that the hypotheses are met by a concrete non-trivial case.
* `MANIFEST.json` — property → theorem names. `seeded/LOG.jsonl` — bugs seeded into a scratch copy of
  the model and which theorems caught them.

## Trusted base

1. Coq 8.16.1's kernel (and `vm_compute`, which is part of it).
2. The axioms `Print Assumptions` lists. Most theorems are `Closed under the global context`. Those that
   speak about real numbers (trigonometry, π, square roots) use the standard library's Reals and list
   `ClassicalDedekindReals.sig_forall_dec`, `ClassicalDedekindReals.sig_not_dec`,
   `FunctionalExtensionality.functional_extensionality_dep` and (where the standard library's
   trigonometric lemmas need it) `Classical_Prop.classic`. No axiom of our own, no other library's.
   The exact list per theorem is in the section "Axioms per theorem" below.
3. The reading of the Python source: nothing is extracted from or run against the code. Each definition
   carries its citation so that it can be compared line by line.
4. The behaviour of NumPy/SciPy/joblib/numba/OS calls as written in `Np.v` and in comments
   (e.g. `joblib.Parallel` returns results in submission order and runs tasks in any order;
   `os.makedirs`, `Path.exists`). Where nothing but the type of an external function matters
   (a filter, an FFT, a metric, an argsort that may be unstable) it is a *parameter* of the model and the
   theorem quantifies over it.

### Conventions of the model

* Arrays are records of a shape and an index function; two arrays are equal when shapes agree and
  elements agree on in-range indices. Scalar indexing `a[i]` is modelled by a checked read which
  applies Python's negative wrap and returns `IndexError` out of range; slices follow Python's
  clamping rules.
* Exceptions are values (`res A := Ok a | Err e`).
* Numbers are `Z` or `Q` (exact). Floating-point rounding is **not** modelled anywhere; claims are about
  the real/rational-number algorithm. float32 `nan`/`inf` are not modelled: where the code could divide
  by zero the theorems speak about the denominator.
* Mutation of a caller's array is modelled by returning the final content of the argument too.
* Parallel code: `joblib` / thread pools run a list of tasks; a schedule is any permutation of the tasks
  (tasks with private effects) or any interleaving of their atomic reads and writes (shared cells).

## Not modelled

FFT/wavelet internals, SciPy interpolators' spline kernels other than linear, image codecs
(a tif/hdf file is its array), h5py chunking/attributes, the printed text of `get_hdf_tree` and all plotting, `astra` and
`tomopy` internals, GPU memory management, timing, floating-point rounding, real I/O errors
(full disk, permissions); process crashes in the middle of a write are modelled
only for the saving functions (C136, C51), as the list of intermediate file systems.

## Plan per property

The files named are in `rocq/theories`; the theorems are listed in `MANIFEST.json`.

| id | status | theorems in | modelled | how proved |
|---|---|---|---|---|
| C01 | proved | T_io_save | `make_file_name` as a fuelled loop over a finite file system with real string formatting | pigeonhole on distinct names: fuel = 1 + number of entries is never exhausted; least-index minimality by induction |
| C02 | proved | T_io_save | `save_image`, `save_distortion_coefficient`, `open_hdf_stream` path logic + write | corollary of C01 + frame lemma for writes / makedirs |
| C03 | partial | T_io_save | `make_folder_name` | directories: proved; "no existing entry": refuted by a plain file |
| C04 | partial | T_io_save | `save_image_multiple` task list, schedule = permutation | distinct names ⇒ commuting writes; refuted for indices ≥ 100000 |
| C05 | partial | T_io_save | two-step (check, write) interleavings | refuted by a witness interleaving; serialised version proved |
| C06 | proved | T_io_save | text writer and line parser, number printer abstract | string lemmas on split |
| C07 | proved | T_io_load | `converter.py` index arithmetic | slice algebra; deviations refuted with witnesses |
| C08 | partial | T_io_load | `converter.py` index arithmetic | slice algebra; deviations refuted with witnesses |
| C09 | partial | T_io_load | `converter.py` index arithmetic | slice algebra; deviations refuted with witnesses |
| C10 | proved | T_io_load | index bookkeeping of the stack loaders | arithmetic; refuted parts with witnesses |
| C11 | partial | T_io_load | index bookkeeping of the stack loaders | arithmetic; refuted parts with witnesses |
| C12 | partial | T_io_load | index bookkeeping of the stack loaders | arithmetic; refuted parts with witnesses |
| C13 | partial | T_io_load | index bookkeeping of the stack loaders | arithmetic; refuted parts with witnesses |
| C14 | partial | T_io_load | index bookkeeping of the stack loaders | arithmetic; refuted parts with witnesses |
| C15 | proved | T_utility | `parallel_process_slices` | permutation schedules, moveaxis algebra |
| C16 | proved | T_removal, T_utility | `sort_forward/backward` with any argsort | two-permutation inverse argument |
| C17 | proved | T_utility | circle mask | integer arithmetic |
| C18 | proved | T_utility | `interpolate_inside_stripe` | piecewise-linear interpolation over the mask |
| C19 | partial | T_utility | `locate_slice(_chunk)` | induction over the overlap list; chunk refuted for unequal overlaps |
| C20 | partial | T_utility | `locate_slice(_chunk)` | induction over the overlap list; chunk refuted for unequal overlaps |
| C21 | proved | T_utility | `fix_non_sample_areas` both passes and both directions | loop invariant over the visiting order |
| C22 | proved | T_utility | frequency separation, wavelet levels | algebra |
| C23 | proved | T_utility | frequency separation, wavelet levels | algebra |
| C24 | proved | T_correction | `flat_field_correction` | algebra over Q, refuted where mean is 0 |
| C25 | partial | T_conversion | weights, stitch, join | algebra over Q |
| C26 | partial | T_conversion | weights, stitch, join | algebra over Q |
| C27 | partial | T_conversion | weights, stitch, join | algebra over Q |
| C28 | proved | T_conversion | 360/180 conversion, extension | arithmetic + stitch theorems |
| C29 | partial | T_conversion | 360/180 conversion, extension | arithmetic + stitch theorems |
| C30 | proved | T_conversion | 360/180 conversion, extension | arithmetic + stitch theorems |
| C31 | proved | T_conversion | helical index arithmetic | order reasoning over Q; guard analysis |
| C32 | partial | T_correction | unwarp and tilted row windows | interpolation with edge clamping; refuted last row of chunk |
| C33 | partial | T_correction | unwarp and tilted row windows | interpolation with edge clamping; refuted last row of chunk |
| C34 | proved | T_correction | beam-hardening polynomial | real/rational power inequalities |
| C35 | proved | T_calculation | argmin over candidate lists under schedules | list induction |
| C36 | partial | T_calculation | overlap search | argument-order modelling; refuted swap |
| C37 | partial | T_calculation | overlap search | argument-order modelling; refuted swap |
| C38 | partial | T_removal | removal functions | pixelwise case analysis; state-passing for mutation |
| C39 | partial | T_removal | removal functions | pixelwise case analysis; state-passing for mutation |
| C40 | partial | T_removal | removal functions | pixelwise case analysis; state-passing for mutation |
| C41 | proved | T_removal | removal functions | pixelwise case analysis; state-passing for mutation |
| C42 | proved | T_removal | removal functions | pixelwise case analysis; state-passing for mutation |
| C43 | partial | T_correction | row count recursion | refuted for scales that are not powers of two |
| C44 | proved | T_phase | wrapping over R | archimedean floor |
| C45 | partial | T_phase | chunk/halo decomposition | windows algebra |
| C46 | partial | T_post | `get_statistical_information(_dataset)`, `visited slices`, percentile/median by sorting | fold invariants over the visited slices; the swapped columns and the one-slice failure refuted by witnesses |
| C47 | proved | T_post | `downsample(_dataset)`: cells as nested blocks, methods mean/min/max/median | sums and folds over blocks; axis-by-axis median refuted |
| C48 | proved | T_post | `rescale` to 8/16 bit over Q with truncation | order reasoning over Q |
| C49 | partial | T_post | `reslice_dataset` for tif folders and hdf files, chunks of rows, file names | index arithmetic over `array_split` chunks; crop/single image/names refuted |
| C50 | partial | T_post | `rescale_dataset` on the file-system model | case analysis on the output path; overwrite refuted |
| C51 | partial | T_post | every intermediate file system of `reslice_dataset` (crash points) and every saving order | invariant over prefixes of the run; deletion refuted |
| C52 | partial | T_backproj | prange / GPU kernels as interleavings | race witness; data-race-free kernels by disjoint writes |
| C53 | proved | T_backproj | prange / GPU kernels as interleavings | race witness; data-race-free kernels by disjoint writes |
| C54 | partial | T_metric, T_recon, T_vertrec | alias/mutation model of the sinogram argument | case analysis |
| C55 | partial | T_metric | vertical slices | sums split in chunks, trigonometry over R |
| C56 | proved | T_vertrec | vertical slices | sums split in chunks, trigonometry over R |
| C57 | proved | T_vertline | vertical slices | sums split in chunks, trigonometry over R |
| C58 | partial | T_metric | vertical slices | sums split in chunks, trigonometry over R |
| C59 | proved | T_corr | correlation | Cauchy–Schwarz over R; index arithmetic |
| C60 | proved | T_corr, T_peak | correlation | Cauchy–Schwarz over R; index arithmetic |
| C61 | partial | T_corr, T_peak | correlation | Cauchy–Schwarz over R; index arithmetic |
| C62 | partial | T_local | correlation | Cauchy–Schwarz over R; index arithmetic |
| C63 | partial | T_global | correlation | Cauchy–Schwarz over R; index arithmetic |
| C64 | partial | T_sim | stripe artefacts | pixelwise |
| C65 | partial | T_io_save | `open_hdf_stream` key comparison | string prefixes |
| C66 | partial | T_utility | window as a function over Q | algebra |
| C67 | proved | T_utility | spiral loop with fuel | loop invariant |
| C68 | partial | T_conversion | linear interpolation of shifted images | interpolation lemmas |
| C69 | partial | T_calculation | `find_center_projection` with the shift search as parameter | arithmetic |
| C70 | proved | T_correction | division by the window | algebra |
| C71 | proved | T_calculation | metric with abstract FFT | mirror symmetry |
| C72 | proved | T_calculation | mask over Q | arithmetic |
| C73 | proved | T_calculation | block averages | sums over blocks |
| C74 | proved | T_calculation | overlap search end to end | argmin reasoning |
| C75 | proved | T_calculation | phase-correlation shift from the correlation map on (Fourier part not modelled) | arithmetic of the wrapped peak |
| C76 | proved | T_removal | filters as parameters that return their input | sort/unsort inverse |
| C77 | proved | T_removal | stripe detection as parameter | pixelwise |
| C78 | partial | T_removal | regularisation sums | reflection of sums; refuted |
| C79 | proved | T_phase | cosine transform over R | orthogonality of cosines by telescoping |
| C80 | partial | T_phase | window statistics over R | algebra; sign refuted |
| C81 | proved | T_phase | alignment by integer shifts | slice arithmetic |
| C82 | partial | T_phase | mirrored image, frequency windows | index arithmetic, Fourier sums |
| C83 | proved | T_recon | FBP of 3D stacks, filter/back-projection kernels | slice-by-slice equality |
| C84 | partial | T_recon | BPF of 3D stacks | slice-by-slice equality; refuted option |
| C85 | proved | T_recon | FBP pixel formula | sums over angles |
| C86 | proved | T_recon | argument checks | case analysis |
| C87 | partial | T_recon | single-core/multi-core branches | equality of branches; integer stacks refuted |
| C88 | partial | T_vertrec | argument checks of `vertrec.py` | case analysis |
| C89 | proved | T_corr | `find_shift_based_correlation_map` | Cauchy–Schwarz equality case over R |
| C90 | proved | T_corr | same, with `locate_peak` | first maximum of a finite map |
| C91 | partial | T_corr | margin checks | case analysis; refuted |
| C92 | proved | T_local | maps of local shifts, chunks, padding | windows algebra + C89/C90 |
| C93 | partial | T_local | GPU kernels: one store per thread, any order | launch independent of order; peak refinement equal, refuted at borders |
| C94 | partial | T_global | median, mixed, mean of local shifts | sorting |
| C95 | proved | T_global | composition with C89 | as C89 |
| C96 | proved | T_simR | exponential attenuation | monotonicity of exp |
| C97 | partial | T_simR | masks over R | trigonometry; triangle refuted at half-pixel offsets |
| C98 | proved | T_simR | `make_sinogram` with Fourier sums over R, interpolation exact at grid points | Fourier inversion, central slice |
| C99 | proved | T_simR | same | parity of cosine and sine sums |
| C100 | proved | T_dfi | mapping coordinates, row spectra, 2D inverse transform over R | polar angle, Fourier inversion |
| C101 | partial | T_dfi | slices of a 3D chunk, mask | index arithmetic; squeeze refuted |
| C102 | partial | T_dfi | angle handling | periodicity; descending angles refuted |
| C103 | partial | T_calib | conic fit with the last singular vector as parameter | five points determine a conic; formulas of the axes |
| C104 | partial | T_calib | tilt and roll from fit or line | trigonometry; refuted for arcsine |
| C105 | partial | T_calib | labels and boxes as specified relations | finite sums, counting |
| C106 | partial | T_calib | division by the background, centre of mass, distances of several dots (median) | sums, permutations of sorted lists |
| C107 | partial | T_hdf | hdf file as a tree; paths as strings; printed tree | induction on the tree; parsing of paths |
| C108 | partial | T_stack | image file with channels, joblib slots | permutation of jobs; argmin of the shape |
| C109 | partial | T_stack | sources (folder, 2D, 3D), crop, fields | slice arithmetic, mapr |
| C110 | partial | T_polar | polar coordinate maps, ring removal through them, rotated 1D windows (real arithmetic, interpolation exact on the grid) | trigonometry of the maps; refutations by witnesses |
| C111 | proved | T_phasecorr | phase correlation with explicit Fourier sums | Fourier shift theorem, uniqueness of the peak |
| C112 | partial | T_fresnel | Fresnel window and filter, padding, explicit Fourier sums | linearity and kernel of spectral filters; padded-size window refuted |
| C113 | partial | T_gauss | Gaussian window, double (-1)^(i+j) modulation, Fourier sums | kernel of spectral filters; odd sizes refuted |
| C114 | partial | T_umpa | UMPA cost, windows, sub-pixel step, chunks | positive definite 2x2 normal equations; chunk count refuted |
| C115 | proved | T_surface | SCS surface: doubled image, spectral division | least squares in Fourier space (Parseval), gradient operators as multipliers |
| C116 | partial | T_surface | FC surface with frequency vectors as in the code | one-frequency reduction; non-square images refuted |
| C117 | partial | T_unwrap | FFT unwrapping: Laplacian inversion with Fourier sums, iteration | difference of congruent phases, multiples of 2 pi; refutations by witnesses |
| C118 | partial | T_quality | quality map (wrapped differences, box sums), histogram threshold | finite sums, order statistics of a line fit |
| C119 | partial | T_speckle | chunked speckle tracking for all methods, margins, direction selection | window equality, uniqueness of the best match; refutations by witnesses |
| C120 | partial | T_stackshift | pairs of stacks, cropping to the common area, maxima of shifts | scene-matching invariants |
| C121 | partial | T_visual | file names with two decimals, overwriting, sinogram mirror | half-even rounding, spline partition identities |
| C122 | partial | T_visual | candidates, reconstruction parameter, file names | list and file-system induction |
| C123 | partial | T_regfilter | regularisation filter per line | sums of hyperbolic functions; minimiser refuted on ramps |
| C124 | partial | T_blob | blob mask per row, median filters abstract | least-squares line, dilation; clean flat field refuted |
| C125 | partial | T_extrec | `gridrec_reconstruction`: log, padding to a power of two, mask; tomopy as parameter | index arithmetic of padding and slices; refused call refuted |
| C126 | partial | T_extrec | `astra_reconstruction`: log, padding, shift to the middle, method names, GPU flag; astra as parameter | index arithmetic; case analysis on names; refutations by witnesses |
| C127 | partial | T_wedge | double-wedge mask and filter with explicit Fourier sums over R | kernels of spectral filters, waves as eigenvectors; symmetry refuted |
| C128 | proved | T_overlap | Pearson coefficient over R, overlap search end to end | Cauchy–Schwarz equality case, unique minimum, parabola within half a pixel |
| C129 | partial | T_stripefft | FFT and damping windows, padding, explicit Fourier sums over R; wavelets as parameter | separable spectral kernels, parity of the window; even sizes refuted |
| C130 | proved | T_face | masks and phantom over R | bounding boxes of the parts, mirror symmetry of the masks |
| C131 | partial | T_face | random draws as parameters | algebra over all draws; bias and strength 0 refuted |
| C132 | partial | T_linetarget | the two loops of bars with fuel, masks over R reduced to integers | loop invariants, disjoint intervals; every size decided: pattern for 26 <= size < 3200 with size//16 < 101 or even, apart from 2946 and 2947, refuted elsewhere |
| C133 | partial | T_detect | FFT, Gaussian filter and maxima explicitly over R | shift and scale of spectra, separable spectra, positions of first maxima; waves in 180-degree scans (extended to a full turn); short scans and asymmetric stripes refuted |
| C134 | proved | T_allstripe | median and uniform filters and all three steps explicit over Q | order statistics, majority in mirrored windows, unique k-th values, scaling |
| C135 | partial | T_mtf | mtf_deconvolution with padding, shift and Fourier sums over R | convolution theorem for symmetric kernels, waves as eigenvectors; padding refuted |
| C136 | partial | T_crash | the file systems between the steps of save_image, save_distortion_coefficient and open_hdf_stream | invariant over the list of states; refuted for checks after truncation and for cut text |
| C137 | partial | T_find | pattern matching (with sets) and sorting of names over the file system model, with the saving of stacks | induction on patterns and sorted lists, digits of the same length ordered like their values; large indices refuted |
| C138 | partial | T_score | histogram, entropy, np.gradient and the Fourier autocorrelation over R | strict convexity of x ln x and window sums with the case of equality, Parseval and the triangle inequality; refuted for black slices and the direction of the search |
| C139 | partial | T_threshold | sorting, resampling by laws, least-squares cubic at the ends of the list | uniqueness and invariances of best approximations; overshoot refuted by an exact cubic |
| C140 | partial | T_helical | helical index arithmetic and default angles over Q | floor and order reasoning, evaluation of a concrete scan |

## What is refuted

Each of these theorems exhibits inputs for which the documented behaviour fails in the model; the property then has status partial and a guarded theorem says when it holds.

* C03 (make_folder_name is fresh): `make_folder_name_fresh_entry_refuted` — fresh among directories proved; the full claim is refuted: a plain file of that name is not noticed (is_dir)
* C04 (save_image_multiple into a folder stores every slice): `save_image_multiple_large_index_refuted` — proved for file numbers below 100000 and every schedule; refuted above (names are cut to 5 digits)
* C05 (Concurrent overwrite=False saves do not lose images): `concurrent_saves_same_path_refuted` — every interleaving is safe for the numbered names of save_image_multiple; refuted for two concurrent calls on the same path (check-then-write race)
* C08 (extract_tif_from_hdf extracts the requested slices): `extract_tif_from_hdf_negative_index_refuted`, `extract_tif_from_hdf_index_out_of_range_refuted` — The code does not satisfy the full statement: negative / out-of-range indices are refuted by the *_refuted theorems; in-range ones are proved.
* C09 (HdfEmulatorFromTif indexes like the stacked array): `hdf_emulator_empty_slice_refuted`, `hdf_emulator_short_tuple_refuted` — Empty slices and short tuples are refuted (the code raises where numpy does not).
* C11 (get_reference_sample_stacks_dls averages each dataset's own dark/flat frames): `dls_flats_at_both_ends_refuted`, `dls_missing_darks_misalign_refuted`, `dls_single_frame_cannot_be_loaded_refuted` — Proved for >=2 contiguous frames; the other cases are refuted.
* C12 (get_tif_stack rejects out-of-range indices): `get_tif_stack_accepts_too_negative_index_refuted` — Too-negative indices are accepted (refuted).
* C13 (A stack of flat/dark images is averaged; a single image is used as is): `flat_field_stack_is_averaged_refuted`, `flat_field_with_three_rows_refuted` — a stack of fields is averaged only when it holds exactly three, and an image with three rows is refused (the code compares the number of rows, not of dimensions, with 3): refuted
* C14 (Image-stack loading never divides by zero): `stack_denominators_zero_when_flat_equals_dark_refuted`, `stack_denominators_cancel_refuted` — Refuted when flat==dark everywhere or mean cancels.
* C19 (locate_slice covers the stack and blends with weights summing to one): `locate_slice_fractional_overlap_refuted` — Proved for integer overlaps >=2 with no slice seen by three rows; fractional overlaps (what find_overlap returns) are refuted: no row matches.
* C20 (locate_slice_chunk agrees with locate_slice): `locate_slice_chunk_unequal_overlaps_refuted` — Refuted for unequal overlaps (middle rows apply both overlaps to both ends); proved for equal ones.
* C21 (fix_non_sample_areas only fills empty cells from neighbours): `fix_non_sample_areas_may_leave_holes_refuted` — The last theorem records that holes may remain; the property does not claim otherwise.
* C25 (stitch_image reproduces its inputs and blends linearly): `stitch_image_zero_overlap_refuted` — Integer overlaps 1..min width. Fractional overlaps go through scipy's shift (see C68); overlap 0 raises; mirror symmetry needs overlap >= 2.
* C26 (stitch_image_multiple honours its norm argument): `stitch_image_multiple_norm_false_refuted` — Refuted: norm is passed in the place of wei_mat1, so norm=False still normalises.
* C29 (extend_sinogram doubles the field of view): `extend_sinogram_overlap_one_refuted` — Integer overlap >= 2. Refuted for overlap 1.
* C32 (Unwarping with the identity model is the identity): `unwarp_sinogram_chunk_loses_the_last_row_refuted` — unwarp_sinogram_chunk is the identity for stop_index < height; with stop_index=-1 the last row returned is row height-2 instead of height-1, proved as a refutation.
* C33 (The loaded row window contains every sampled row): `unwarp_sinogram_chunk_loses_the_last_row_refuted` — Reading the window gives the same values as interpolating the whole image. For unwarp_sinogram_chunk this needs the vertical mapping to advance by at least one row per row and to stay inside the image, the code is wrong otherwise (refuted theorem).
* C36 (find_overlap honours denoise and norm): `find_overlap_without_side_swaps_the_flags_refuted`, `find_overlap_default_never_denoises_refuted` — The property is false of the code for side=None: norm and denoise are swapped in the two calls; it is proved for an explicit side and for equal flags.
* C37 (find_overlap stays inside the images): `find_overlap_wide_window_is_one_pixel_off_refuted` — Windows are always inside. The recovered overlap is right (within half a pixel) for win_width < min(ncol)//2; for wider windows with min(ncol)//2 even it is one pixel off (refuted). Recovery is proved for denoise=False, norm=False.
* C38 (remove_zinger changes only outliers): `remove_zinger_replaces_by_the_average_refuted` — proved where the neighbourhood average is positive; refuted otherwise: a zero average is replaced by 1, a negative average selects low pixels. Non-modification of the argument: the code copies first (mat = np.copy), arrays are values in the model.
* C39 (remove_blob only changes masked pixels and leaves its inputs alone): `remove_blob_leaves_its_mask_alone_refuted` — pixel behaviour proved in full; 'does not modify mask' is refuted (the ends of the caller's mask are zeroed)
* C40 (remove_blob_1d works for every mask): `remove_blob_1d_works_for_every_mask_refuted` — refuted: a blob reaching an end of the row raises ValueError; proved when both end pixels are unmasked
* C43 (upsample_sinogram geometry): `upsample_sinogram_scale_from_6_refuted` — The number of angular steps is multiplied by 2^(scale/2): the given scale for 2 and 4 only. The interpolated values are computed by a double-wedge filter that is a parameter.
* C45 (Chunked dark-field retrieval equals the sequential one): `dark_field_with_the_default_margin_depends_on_the_number_of_workers_refuted` — Holds when the margin bounds the shifts; with the default margin (int() truncates the largest shift while shifts are rounded) the result depends on ncore: refuted.
* C46 (Dataset statistics are what they are called): `dataset_mean_and_median_refuted`, `dataset_of_one_slice_refuted` — Min and max proved. The 'mean' returned is the mean of slice medians and the 'median' the median of slice means (columns 4 and 5 swapped, postprocessing.py:291): refuted by a concrete dataset. A dataset of one slice raises ValueError: refuted.
* C47 (Downsampling aggregates disjoint cells): `downsampling_by_median_refuted` — Exact arithmetic. Outside the claim: the method 'median' takes medians axis by axis, which is not the median of the cell (downsampling_by_median_refuted).
* C49 (reslice_dataset is an exact transposition of the cropped volume): `reslicing_a_cropped_hdf_dataset_refuted`, `reslicing_a_single_image_refuted`, `resliced_image_names_refuted` — tif: proved for every chunk, crop leaving at least 2 images and 2 slices. hdf: the leading crop of axis 0 is ignored when reading (postprocessing.py:716-764): refuted; proved when it is 0. One image or one slice: ValueError (refuted). More than 100000 slices reuse file names (refuted).
* C50 (rescale_dataset(overwrite=True) writes to the requested file): `rescaling_with_overwrite_refuted` — Holds when the path is free; with overwrite=True and an existing file the result goes to a numbered copy (postprocessing.py:558-561).
* C51 (reslice_dataset does not delete unrelated data): `reslicing_deletes_a_folder_named_like_the_output_refuted` — Every intermediate file system (crash point) and every saving order of the threads. hdf output: a folder named like the output without extension is deleted (postprocessing.py:949-952): refuted, also for overwrite=False.
* C52 (CPU back-projection does not depend on the thread schedule): `back_projection_cpu_depends_on_the_schedule_refuted` — False as stated: the prange loop adds into shared pixels without protection, so two overlapping iterations can lose an update (refuted theorem, concrete schedule). Proved: without overlap, in any order of the iterations, the full sum; for every schedule, the sum over some duplicate-free subset of the projections.
* C54 (Reconstruction functions do not modify the input sinogram): `fbp_overwrites_nonpositive_values_refuted`, `vertical_reconstruction_overwrites_the_projections_refuted`, `find_center_based_slice_metric_overwrites_the_sinogram_refuted` — fbp and bpf. False as stated: with apply_log the non-positive entries of the caller's array are overwritten with 1. Proved: unchanged without logarithm or when all values are positive, and exactly which entries change otherwise. The astra and gridrec wrappers have the same lines (1136-1141, 961-966) and are not modelled.
* C55 (Slice-metric centre finding picks the optimum): `find_center_based_slice_metric_leaves_the_range_refuted`, `find_center_based_slice_metric_fails_near_the_edge_refuted` — Each stage returns an optimum of its own candidates for every metric, direction and task order; the result stays in the range widened by the fine-search radius. 'Inside the searched range' is false (refuted theorems): the fine search leaves the range, and a range close to the left edge raises ValueError. The score of a centre (reconstruction + metric) is a parameter.
* C58 (Vertical centre search ignores the non-reconstructable region): `find_center_vertical_slice_truncates_the_metric_refuted`, `find_center_vertical_slice_mask_keeps_unreconstructable_columns_refuted` — Optimality holds for float arguments and is false for integer start/stop/step (metric array is integer); the mask is right when no candidate exceeds width/2 and wrong otherwise (np.min taken twice). Both refuted by theorems.
* C61 (Sub-pixel peak stays near the discrete peak): `locate_peak_polyfit_near_extremum_refuted` — True for method 'diff' (1 pixel; 1/2 for dim=1) and always inside the map; refuted for 'poly_fit': the parabola fitted to 0 0 10 9 9 has its vertex 1.7 pixels from the maximum (the window bounds it to <8 pixels). Real-number arithmetic (Reals axioms, see DESIGN.md).
* C62 (Chunked local-shift maps equal the unchunked map): `local_shifts_every_chunk_size_refuted` — The maps do not depend on chunk_size where they are computed (dim=2: any norm/norm_global for stacks; dim=1: norm=False, or norm=True with one chunk). Refuted: 'works for every chunk_size': if the number of pieces exceeds the usable rows an empty chunk raises IndexError. Not covered: chunked dim=1 with norm=True and GPU single images with norm=True (normalised per chunk, so chunk dependent).
* C63 (User points are accepted exactly when their windows fit): `global_shift_accepts_every_fitting_point_refuted` — Every point used has its windows inside the image (CPU and GPU, listed, single or random points). Refuted: a point whose window touches the first row or column fits but is rejected (strict comparison), listed points outside are silently dropped. Real-number arithmetic (Reals axioms, see DESIGN.md).
* C64 (Simulated stripe artifacts change only their columns): `stripe_position_honoured_refuted` — Only the stripe columns change, by exactly the documented amount for all four types, and the argument is not modified; but the requested position is not always used (clip to ncol-size-1: the last column can never carry a stripe), refuted by an example; stripes as wide as the sinogram are rejected (full/partial) or silently not added (dead); partial stripes of strength <= 1/nrow have no effect.
* C65 (open_hdf_stream rejects metadata keys exactly when they clash with the data key): `open_hdf_stream_accepts_unrelated_keys_refuted` — rejection proved; acceptance refuted: the check is a substring test on the text of the key
* C66 (Butterworth window rows): `butterworth_window_large_v_refuted` — Refuted when v exceeds the centre row: the negative slice start wraps and the window is dropped.
* C68 (Sub-pixel overlaps align the scene): `stitch_image_fractional_overlap_misaligns_refuted`, `join_image_fractional_gap_misaligns_refuted`, `extend_sinogram_fractional_overlap_moves_the_axis_refuted` — Refuted for fractional overlaps: mismatch s (stitch), 3s (join), s/2 (returned centre).
* C69 (find_center_projection returns the axis of rotation): `find_center_projection_is_half_a_pixel_low_refuted` — False of the code: the centre returned is the axis minus 1/2 (overlap/2 - 1.0 instead of overlap/2 - 0.5).
* C76 (Stripe removal with a neutral filter returns the input): `stripe_fft_with_an_all_pass_window_refuted_for_negative_values` — for negative pixels the FFT method returns the absolute value (last theorem)
* C78 (Regularisation treats left and right alike): `regularization_treats_left_and_right_alike_refuted` — refuted: the coefficient matrix is not symmetric under mirroring for any width >= 2 and alpha > 0 (the -1 sits in the wrong cosh argument)
* C80 (Transmission and dark-field values): `a_displaced_pattern_gives_transmission_one_refuted` — Attenuation without displacement proved; the displacement half is false of the code: the sample window is read at +shift although the shifts found satisfy sam[i,j] = ref[i+y,j+x].
* C82 (Mirroring and windows of the surface integration): `the_surface_window_treats_both_axes_alike_refuted` — phase.py:320 divides the vertical frequencies by the width
* C84 (BPF of a stack is slice-by-slice BPF): `bpf_stack_and_slice_differ_for_a_window_of_another_size_refuted` — Proved when the used window has the size of the padded slice (always so for ramp_win=None). Refuted otherwise: the 2D branch rebuilds the window without the requested filter name.
* C87 (The number of cores does not change an FBP result): `fbp_of_an_integer_stack_depends_on_the_number_of_cores_refuted` — False for integer stacks without logarithm: with one core np.zeros_like keeps the integer dtype and the filtered values are truncated. Proved when the logarithm is applied or the dtype holds the filtered values.
* C88 (Vertical reconstruction rejects arguments that do not fit the data): `vertical_reconstruction_accepts_a_stop_beyond_the_data_refuted` — Rejection proved for every listed defect; the full property is false: proj_stop beyond the last projection is accepted and gives a wrongly normalised slice (refuted theorem).
* C91 (A margin that leaves no room is reported): `find_shift_margin_too_large_reported_refuted` — Refuted for images of equal size: check2 stays True and (0,0) is returned for every content. Different sizes are reported. Real-number arithmetic (Reals axioms, see DESIGN.md).
* C93 (GPU, hybrid and CPU give the same local shifts): `local_shifts_gpu_equals_cpu_refuted` — Equal for dim=1, hybrid mode, and dim=2 except where the best displacement is on a side of the search region: the GPU code does not refine these (dead branch), refuted with a concrete image.
* C94 (The global shift is a robust summary of the local shifts): `global_value_of_symmetric_values_refuted` — Refuted part: with global_value='mixed' (the default) and an odd number of at least 7 points the six values averaged are not centred, so symmetric local shifts give a value below their centre. Real-number arithmetic (Reals axioms, see DESIGN.md).
* C101 (Direct Fourier inversion of a chunk is slice by slice, square and masked): `dfi_one_projection_refuted` — REFUTED for a chunk with one projection: np.squeeze drops the projection axis and the chunk is reconstructed as one sinogram, so one slice comes back instead of one per sinogram (dfi_one_projection_refuted). Proved for chunks with at least two projections and two columns. Padding modes edge and zero; threads return results in order; the returned array only, not aliasing.
* C102 (Direct Fourier inversion uses the given angles): `dfi_angles_descending_refuted` — REFUTED for decreasing angles: the rows are turned by twice the start angle, so a scan from 90 to -90 degrees is reconstructed upside down (dfi_angles_descending gives the exact rows, dfi_angles_descending_refuted the counterexample); right when the scan starts at a multiple of 180 degrees (dfi_angles_descending_partial). Proved for increasing angles over 180 degrees and over 360 degrees with an odd number of views, start a multiple of the step (ndimage.shift by whole rows with mode wrap as specified by shifts_rows); other start angles need interpolation and are not covered; an even number of views over 360 degrees averages rows half a step apart (not covered).
* C103 (Ellipse fit is exact): `ellipse_five_points_refuted` — Proved for six or more points; refuted for exactly five: svd is called with full_matrices=False, so that only five of six right singular vectors exist and the null vector is missing (calibration.py:367).
* C104 (Tilt and roll from an orbit): `orbit_tilt_refuted` — Straight trajectories and the roll are exact. The reported tilt is atan(b/a) instead of asin(b/a): always smaller than the true tilt of a circular orbit.
* C105 (Dots: binarising, sizes, selection): `select_dots_refuted` — Selection refuted: sizes are summed over bounding rectangles, so a pixel of another dot inside the rectangle makes a dot of the right size disappear. Partial theorem: rectangles without foreign pixels; the lower limit is truncated, so dots down to d - r d - 1 are kept.
* C106 (Background normalisation and dot distance): `normalize_integer_refuted`, `distance_mean_refuted` — Refuted for integer images (the mean is truncated when stored into the integer background) and for size_opt='mean' (also 'median' of an even number) with dots of different size (no dot selected, nan). Distance proved for any number of dots moved together, none inside another one's rectangle, for min, max, median of an odd number, and for every option with dots of one size.
* C107 (Listing, searching and displaying the content of an hdf file): `hdf_listed_once_refuted` — Everything proved except 'once': a dataset inside a group is listed twice, with and without leading slash (refuted). Followed links and multiple hard links not modelled.
* C108 (Loading images): `load_small_colour_refuted` — Colour images: proved when there are fewer channels than rows and columns; otherwise rows or columns are averaged (refuted). The rest proved.
* C109 (Stacks of images from several datasets): `folder_average_refuted` — Proved for lists of paths; for a single folder 'average' is ignored (refuted). Fields with three rows: see C13. The average of an empty folder (NaN in the code) is an error in the model.
* C110 (Polar transformation of slices, ring removal and rotated windows): `polar_round_trip_refuted` — The round trip is false: the backward transformation scales radii by n/r_max (utility.py:723-724) while the forward one uses r_max/(n-1) (688), so pixels come back up to half a pixel from outside (polar_round_trip_refuted; bound proved in polar_round_trip_partial). The rest is proved over the reals with linear interpolation; the stripe removal is a parameter.
* C112 (The Fresnel filter is a linear low-pass filter with the documented window): `fresnel_mirror_refuted` — Refuted part: with dim=2, an even width and padding, mirroring the image does not mirror the result, because the padded window continues with its value at -1/2 on one side and at 1/2 - 1/width on the other (2 x 2 image, pad 1). Proved: half turns and transposition for dim=2, mirroring for dim=1. Exact real arithmetic; the float32 conversion is not modelled; the frequency response is stated for pad=0 because the code applies the window of the unpadded size to the padded spectrum.
* C113 (The Fourier-based Gaussian filter smooths without changing brightness or orientation): `gaussian_filter_flat_refuted`, `gaussian_filter_mirror_refuted` — Refuted: the bell is centred at (n - 1) / 2 but the spectrum at n / 2, so an image of even size loses the factor exp(-(1/sigma_x^2 + 1/sigma_y^2)/8) for every sigma and padding, and mirroring the image does not mirror the result. Proved: shape, linearity, half turn, transposition, and the exact frequency response for even sizes. For odd sizes no frequency response is stated (the checkerboard is not a shift of the spectrum then). Padding modes other than edge, mean and reflect are not modelled.
* C114 (UMPA finds the displacement, transmission and contrast of the best least-squares fit): `umpa_chunk_size_refuted` — Exact real arithmetic; all entries of the smoothing window positive (true for the default hamming window; hann and bartlett windows have zero ends). Refuted for small chunk_size: the number of chunks is computed from all rows, and with more chunks than rows to search the call fails with IndexError. 'Less than one pixel' is not shown for the polynomial sub-pixel method, whose fit is abstract; the GPU kernel does not refine at the limit of the search, hence the guard of the GPU/CPU theorem.
* C116 (FC surface reconstruction integrates each frequency): `fc_treats_both_axes_alike_refuted` — profiles along y and the symmetry of the axes are wrong for non-square images: the vertical frequencies are divided by the width (phase.py:320), so slopes along y are scaled by width/height
* C117 (FFT-based phase unwrapping): `weighted_unwrapping_ignores_whole_turns_refuted`, `unwrapping_recovers_a_smooth_phase_refuted`, `iterated_unwrapping_approaches_the_phase_refuted` — refuted parts are defects of the method: a weight map multiplies the phase itself, so whole turns show; a step of x between two values comes back as sin x, so smooth phases are only recovered to third order, and a step of half a turn stays invisible for ever. Proved instead: exact results for images of two values, third-order accuracy for weak phases, geometric convergence of the iteration for weak phases and convergence for two values less than half a turn apart. Weight maps of another size than the image (numpy broadcasting) are not modelled.
* C118 (Quality map and weight mask of a phase image): `quality_map_is_local_refuted`, `quality_map_of_the_mirrored_image_refuted` — the padded differences are cropped at the wrong corner (phase.py:133-135), so the horizontal steps are taken one row above and the vertical ones one column left of the pixel, the last corner never matters and a mirrored image has another map; np.roll wraps around, so values near a border depend on the opposite border. Away from the border the exact formula is proved. ndi.zoom is an argument; np.polyfit with a single point is not modelled
* C119 (Speckle tracking recovers the displacement of the speckles): `speckle_recovers_a_uniform_displacement_refuted` — the shift maps are zero within margin + win_size//2 of the border but only margin + 2 lines are replaced (phase.py:970-974), so for windows of 6 and more - the default 7 included - blank lines remain and are mirrored outwards; for windows up to 5 the recovery is proved. The surface and fitting functions are arguments
* C120 (Shifts between stacks of images and between sample images): `sample_shifts_are_those_of_the_sample_refuted` — the sample images are moved onto their references before they are compared (phase.py:618-627), so the shifts returned are relative to the references although align_image_stacks applies them to the unmoved sample images: a sample that does not move gets the negative shift of the speckles; proved to be the shift of the sample exactly if all references are displaced alike. ndi.shift is an argument that moves whole pixels exactly; norm=True is only covered for the first function
* C121 (Visual centre search by sinograms): `find_center_visual_sinograms_last_column_refuted`, `find_center_visual_sinograms_lower_half_mirrored_refuted` — a stop at the last column is never tested (utility.py:1407 clips the exclusive end to ncol-1), and the last centre can exceed stop; order=3 with prefilter=False smooths the mirrored half (not the upper one) with a 3 x 3 B-spline, proved for whole 2c; equal to the mirror where the sinogram is locally linear
* C122 (Visual centre search by slices): `find_center_visual_slices_zoomed_center_refuted`, `find_center_visual_vertical_slices_fine_step_refuted`, `find_center_visual_vertical_slices_keeps_projections_refuted` — with zoom the slice is reconstructed with zoom*c although ndi.zoom keeps the corner pixels, so the true centre is off by (1-zoom)/2 zoomed pixels in the middle; vertical slices: steps of 0.01 or less make two centres share a file, values <= 0 are overwritten in the caller's array, the mask only looks at the first centre (C58). The reconstruction methods are arguments here (see C83 ff. for fbp and dfi)
* C123 (Regularisation filter): `regularization_filter_solves_problem_refuted`, `regularization_filter_mirrored_refuted` — the coefficient matrix has the -1 in the wrong cosh argument (C78): for every width, weight and slope a ramp changes its sum, so the result does not minimise the energy; proved for constant lines. Lines of one point raise IndexError
* C124 (Blob mask): `blob_mask_of_a_clean_flat_field_is_empty_refuted`, `blob_mask_leaves_two_columns_free_refuted` — the call fails (ValueError) on a flat field with a row of equal values; the ends are cleared before the dilation, so only the first and the last column stay free. A smoothed row with mean zero (division by zero) is not modelled; the scipy median filters are parameters
* C125 (Gridrec reconstruction): `gridrec_refused_call_leaves_the_sinogram_alone_refuted` — the values <= 0 of the caller's sinogram are overwritten before the centre and the pad are checked, so a refused call has changed it; tomopy.recon is a parameter
* C126 (Astra reconstruction): `astra_accepts_the_same_methods_without_a_gpu_refuted`, `astra_leaves_the_sinogram_alone_refuted` — with the logarithm the values <= 0 of the caller's array are overwritten; without a GPU, names that do not exist (ART_CUDA) are accepted. The astra algorithms and scipy's shift are parameters; the position of the axis is proved for a shift that is exact for whole pixels
* C127 (Double-wedge filter): `wedge_mask_symmetric_refuted`, `wedge_filter_waves_refuted` — the rounding up of a signed number makes the mask differ between a frequency and its opposite, so waves within one pixel of the border of the wedge are halved by every iteration instead of kept or removed. scipy's shift is a parameter; a wedge of radius 0 and integer overflow are not modelled
* C129 (FFT and wavelet-FFT stripe filters only remove stripes): `stripe_fft_leaves_pure_stripes_refuted`, `stripe_fft_changes_a_constant_sinogram_refuted`, `damped_details_keep_stripes_refuted` — Refuted for even sizes: both windows are centred at ceil(n/2)-1, one place beside the zero frequency n//2. With an even number of rows and the default v=0 no pure stripe is removed at all by remove_stripe_based_fft; with an even number of columns a constant sinogram is darkened; details of even height keep a fraction of their stripes. For odd sizes the full behaviour is proved. sort=True (C76), the options dictionary and u=0 are outside; the wavelet transform is a parameter.
* C131 (Simulated noise and background fluctuation have the strength asked for): `add_noise_brightens_refuted`, `fluctuation_of_strength_zero_refuted` — Refuted: the noise is drawn around noise_ratio times the average, not around zero, so it brightens the image; strength 0 still multiplies every row with the (unmoved) beam profile. Blank images give nan. The random generator is a parameter (every draw).
* C132 (The line target is a resolution pattern): `line_target_has_negative_pixels_refuted`, `line_target_bar_outside_refuted` — Every size is decided. Below 26: refused (IndexError, negative: ValueError). Proved exactly, every pixel, for 26 <= size < 3200 except (a) the sizes whose size // 16 is odd and at least 101 (from 1616 on) and (b) 2946 and 2947. In (a), and for every size from 3200 on, bars of the two directions cross next to the centre (the masks have 1 percent tolerance) and the crossing pixels become negative: refuted for all of them. In (b) the outermost bar on the left lies outside of the image: refuted.
* C133 (Sample detection depends on the sample only): `detect_sample_short_scan_refuted`, `detect_sample_ignores_stripes_in_half_a_turn_refuted` — scipy's gaussian_filter is modelled explicitly (truncated normalised weights, reflected borders), the Fourier transform by its sums. Refuted: (1) scans with at most 13 rows (360) or 6 rows (180) are accepted but never reported as containing a sample (only one row is compared with itself); (2) in a 180-degree scan stripes that are not symmetric about the middle column can hide a sample (7 x 30 example); proved for symmetric stripes and for every stripe in 360-degree scans.
* C135 (MTF deconvolution restores an image blurred by the optics): `mtf_deconvolution_with_padding_refuted` — Proved without padding for an image as large as the window. With any padding the claim is false: the window is extended by ones instead of being resampled to the padded size, so for an even width the finest detail is left blurred whatever the window (refuted theorem). Periodic continuation of the image is part of what 'blurred' means here. Fourier transforms are explicit sums over the reals.
* C136 (A rejected or interrupted save leaves existing files alone): `rejected_hdf_stream_empties_the_existing_file_refuted`, `interrupted_coefficients_load_without_an_error_refuted` — Crash points: proved for the three functions. Rejected calls: proved, except open_hdf_stream with overwrite=True, which opens (and empties) the existing file before it checks the metadata keys (loadersaver.py:454-465): refuted. A coefficient file cut after any factor loads without an error: refuted.
* C137 (find_file gives exactly the matching entries in order, and a saved stack comes back in its order): `saved_stack_found_order_refuted` — find_file itself: proved for every pattern of *, ?, [...] and [!...] (not modelled: ** and a ! that follows a dropped empty range). Saved stacks: proved for indices below 100000; beyond, names keep the last five digits (loadersaver.py: save_image_multiple) and the order of the names is not the order of the slices: refuted.
* C138 (The slice metrics of the centre searches measure what they are called): `uniform_black_slice_scores_worse_than_a_grey_one_refuted`, `sharpness_search_prefers_a_blank_slice_refuted` — Uniform slices: proved for the grey levels 6 to 249 (with the exact case of equality); the smoothing in 'valid' mode counts the six levels next to black and white less often, so a black slice scores worse: refuted. Sharpness: the search minimises the metric, so with the default invert_metric=False it prefers blank slices: refuted; proved with invert_metric=True.
* C139 (The automatic threshold follows the brightness levels of the image): `threshold_within_the_pixels_refuted`, `binarize_with_automatic_threshold_refuted` — Everything is proved for every image, except that the threshold lies between the smallest and the largest pixel: the end of the fitted cubic overshoots, and an image with two pixels 0 and five pixels 1 has the threshold -3/70 (bright background), its negative 73/70 (dark): refuted, and binarize_image then returns a single level. Images of equal grey steps have their extreme pixel as threshold. The resampling (ndi.zoom) is any function with the stated laws, an instance is given; exact real arithmetic, float pixels.
* C140 (Helical slice indices and angles cover the scan exactly): `helical_index_zero_refuted` — Proved, except that every accepted index is within the reconstructable heights: slice 1 is the lowest one, the index 0 is accepted too and gives the slice one pixel below: refuted. That accepted indices are not above the heights is C31.

## Modelled and not modelled, by source file

A function is listed under the model file whose comments cite it. Private helpers inlined in their callers are not listed.

| source file | model files | not modelled |
|---|---|---|
| algotom/io/converter.py | M_io_load | — |
| algotom/io/loadersaver.py | M_crash, M_find, M_hdf, M_io_load, M_io_save, M_post, M_stack, M_visual | path correction on Windows |
| algotom/post/postprocessing.py | M_polar, M_post | — |
| algotom/prep/calculation.py | M_calculation, M_conversion, M_overlap, M_phasecorr | — |
| algotom/prep/conversion.py | M_conversion, M_correction, M_wedge | — |
| algotom/prep/correction.py | M_beam, M_correction, M_mtf | — |
| algotom/prep/filtering.py | M_correction, M_fresnel, M_wedge | — |
| algotom/prep/phase.py | M_phase, M_phase_R, M_quality, M_speckle, M_stackshift, M_surface, M_unwrap | — |
| algotom/prep/removal.py | M_allstripe, M_blob, M_conversion, M_polar, M_removal, M_stripefft | — |
| algotom/rec/reconstruction.py | M_backproj, M_dfi, M_extrec, M_metric, M_recon, M_score, M_umpa, M_vertrec, M_visual | — |
| algotom/rec/vertrec.py | M_backproj, M_metric, M_score, M_vertline, M_vertrec, M_visual | — |
| algotom/util/calibration.py | M_calib, M_threshold | — |
| algotom/util/correlation.py | M_corr, M_global, M_local, M_speckle, M_stackshift, M_umpa | — |
| algotom/util/simulation.py | M_face, M_linetarget, M_sim, M_simR, M_simnoise | — |
| algotom/util/utility.py | M_allstripe, M_blob, M_conversion, M_detect, M_dfi, M_extrec, M_gauss, M_polar, M_recon, M_regfilter, M_regularization, M_removal, M_sim, M_simR, M_stripefft, M_utility, M_vertrec, M_visual | — |

## Axioms per theorem

As printed by `Print Assumptions` for every theorem of the manifest. D1 = `ClassicalDedekindReals.sig_forall_dec`, D2 = `ClassicalDedekindReals.sig_not_dec`, F = `FunctionalExtensionality.functional_extensionality_dep`, C = `Classical_Prop.classic` (all from Coq's standard library). All other theorems of the manifest are closed under the global context.

* **D1**: `gradient_of_image`
* **D1, D2, C, F**: `beam_hardening_keeps_the_grey_range`, `beam_hardening_rejects_small_n`, `beam_hardening_rejects_unnormalised`, `damped_details_keep_stripes_refuted`, `detect_sample_finds_waves`, `detect_sample_finds_waves_in_half_a_turn`, `detect_sample_ignores_stripes_in_half_a_turn_refuted`, `dfi_any_start`, `dfi_center_checked`, `dfi_inverts`, `dfi_mask`, `dfi_mask_auto`, `dfi_one_projection_refuted`, `dfi_padding_and_log`, `dfi_slices`, `ellipse_five_points_refuted`, `entropy_metric_is_the_entropy_of_the_smoothed_grey_level_histogram`, `entropy_score_does_not_depend_on_brightness_and_contrast`, `face_phantom_range_and_support`, `fluctuation_is_a_factor_of_every_row`, `fresnel_flat`, `fresnel_frequency`, `fresnel_linear`, `fresnel_mirror_refuted`, `fresnel_ratio_zero`, `fresnel_rows`, `fresnel_scale`, `fresnel_shape`, `fresnel_symmetric_partial`, `gaussian_filter_flat_refuted`, `gaussian_filter_mirror_refuted`, `iterated_unwrapping_approaches_the_phase_refuted`, `iterated_unwrapping_recovers_two_phase_values_partial`, `orbit_tilt_refuted`, `orbit_tilt_roll_partial`, `quality_map_is_local_refuted`, `quality_map_of_the_mirrored_image_refuted`, `regularization_filter_axis`, `regularization_filter_linear`, `regularization_filter_lines_are_independent`, `regularization_filter_mirrored_refuted`, `regularization_filter_solves_problem_partial`, `regularization_filter_solves_problem_refuted`, `regularization_treats_left_and_right_alike_refuted`, `straight_orbit`, `tilt_roll_arguments`, `triangular_mask_is_triangle_partial`, `uniform_black_slice_scores_worse_than_a_grey_one_refuted`, `uniform_slices_have_the_least_entropy_metric_partial`, `unwrapping_recovers_a_smooth_phase_refuted`, `wedge_filter_waves_refuted`, `wedge_mask_symmetric_refuted`, `xray_image_default_range`, `xray_image_invertible`
* **D1, D2, F**: `autocorrelation_metric_is_the_mean_energy_of_the_rows`, `circular_mask_any_angle`, `correlation_map_gpu_equals_cpu`, `correlation_map_ignores_brightness_and_contrast`, `correlation_map_is_pearson_coefficient`, `correlation_map_larger_image_rejected`, `correlation_map_one_exactly_for_copies`, `correlation_map_values_bounded`, `correlation_metric_ignores_brightness`, `correlation_metric_is_zero_for_copies_only`, `correlation_metric_range_and_symmetry`, `correlation_metric_value`, `cosine_unwrapping_depends_on_the_phase_modulo_two_pi_only`, `cosine_unwrapping_recovers_the_phase_up_to_its_mean`, `damped_details_have_no_stripes_partial`, `detect_sample_accepts`, `detect_sample_does_not_depend_on_the_scale`, `detect_sample_does_not_depend_on_the_start`, `detect_sample_ignores_brightness_and_stripes_partial`, `detect_sample_short_scan_refuted`, `dfi_angles_descending`, `dfi_angles_descending_partial`, `dfi_angles_descending_refuted`, `dfi_angles_full_turn`, `dfi_angles_half_turn`, `dfi_angles_number`, `dfi_frequencies`, `distance_mean_refuted`, `distance_of_moved_dot_partial`, `distance_of_moved_dots_partial`, `ellipse_fit_exact_partial`, `ellipse_fit_lengths`, `elliptic_mask_is_ellipse`, `every_image_is_a_cosine_series`, `face_phantom_is_square`, `face_phantom_is_symmetric`, `fc_flat_for_constant_gradients`, `fc_given_windows_and_rejected_inputs`, `fc_integrates_a_profile_along_x`, `fc_integrates_a_profile_along_y_partial`, `fc_negative_values_are_lifted_uniformly`, `fc_surface_of_two_cosine_series`, `fc_treats_both_axes_alike_for_square_images_partial`, `fc_treats_both_axes_alike_refuted`, `find_overlap_ignores_brightness`, `find_overlap_recovers_the_overlap_of_images_of_other_brightness`, `find_overlap_takes_the_side_with_the_sharper_minimum`, `find_overlap_with_norm_recovers_the_overlap_of_rescaled_rows`, `find_shift_best_displacement_within_margin`, `find_shift_best_place_of_smaller_image`, `find_shift_gpu_equals_cpu`, `find_shift_margin_too_large_reported_partial`, `find_shift_margin_too_large_reported_refuted`, `find_shift_recovers_displacement`, `fluctuation_moves_the_beam_a_little`, `fluctuation_of_strength_zero_refuted`, `gaussian_filter_frequency_partial`, `gaussian_filter_linear`, `gaussian_filter_shape`, `gaussian_filter_symmetric_partial`, `global_shift_accepts_every_fitting_point_refuted`, `global_shift_malformed_arguments_rejected`, `global_shift_of_listed_points_partial`, `global_shift_of_single_point_partial`, `global_shift_random_points_fit`, `global_shift_random_points_recover_displacement`, `global_shift_recovers_displacement`, `global_value_between_local_values`, `global_value_of_symmetric_values_partial`, `global_value_of_symmetric_values_refuted`, `global_value_order_of_points_irrelevant`, `global_value_tolerates_outliers`, `inverted_sharpness_search_returns_the_sharpest_slice_partial`, `iterated_unwrapping_recovers_weak_phases_partial`, `iteration_unwraps_what_is_missing`, `line_distance_nearest`, `line_target_has_negative_pixels_refuted`, `line_target_is_the_pattern_partial`, `line_target_needs_26_pixels`, `local_shifts_chunks_irrelevant_partial`, `local_shifts_every_chunk_size_refuted`, `local_shifts_gpu_equals_cpu_partial`, `local_shifts_gpu_equals_cpu_refuted`, `local_shifts_hybrid_equals_cpu`, `local_shifts_lines_chunks_irrelevant_partial`, `local_shifts_lines_gpu_equals_cpu`, `local_shifts_lines_near_best_displacement`, `local_shifts_lines_normalised`, `local_shifts_near_best_displacement`, `local_shifts_of_images_near_best_displacement`, `local_shifts_recover_local_displacement`, `mtf_deconvolution_by_ones_is_identity`, `mtf_deconvolution_of_a_constant`, `mtf_deconvolution_refuses_a_small_window`, `mtf_deconvolution_undoes_the_blur_partial`, `mtf_deconvolution_with_padding_refuted`, `no_sample_is_not_detected`, `one_shift_for_every_pair_of_images`, `opposite_projections_mirror`, `phase_correlation_finds_the_center`, `phase_correlation_finds_the_displacement`, `phase_correlation_of_gradients_finds_the_displacement`, `phase_correlation_refined`, `phase_correlation_shapes`, `polar_grid_any_size`, `polar_round_trip_partial`, `polar_round_trip_refuted`, `polar_shapes`, `quality_map_at_the_first_rows_and_columns_partial`, `quality_map_ignores_whole_turns_and_transposition`, `quality_map_inside_partial`, `quality_map_size_and_window`, `rectangular_grid_any_size`, `rectangular_mask_is_rectangle`, `ring_removal`, `ring_removal_rejects`, `ring_removal_uniform`, `sample_shift_depends_on_two_images_only`, `sample_shifts_are_relative_to_the_references`, `sample_shifts_are_those_of_the_sample_partial`, `sample_shifts_are_those_of_the_sample_refuted`, `sample_shifts_arguments`, `scs_given_windows_and_rejected_inputs`, `scs_ignores_a_constant_in_the_gradients`, `scs_is_linear`, `scs_negative_values_are_lifted_uniformly`, `scs_padding_is_cropped_away`, `scs_recovers_a_surface_from_its_exact_slopes`, `scs_surface_fits_the_gradients_best`, `scs_treats_both_axes_alike`, `search_overlap_reports_the_misfit_of_the_windows`, `sharpness_metric_measures_the_variation_of_a_slice`, `sharpness_of_a_plane_is_its_slope`, `sharpness_search_prefers_a_blank_slice_refuted`, `simulated_projections_are_sums`, `simulated_sinogram_rejects`, `slice_from_polar`, `slice_to_polar`, `speckle_options_only_add_results`, `speckle_phase_is_the_surface_of_the_shifts`, `speckle_recovers_a_uniform_displacement_partial`, `speckle_recovers_a_uniform_displacement_refuted`, `speckle_shifts_are_the_inner_local_shifts`, `speckle_small_parameters`, `speckle_umpa_needs_stacks`, `speckle_wide_windows_leave_blank_lines`, `stacks_of_displaced_images`, `stripe_fft_changes_a_constant_sinogram_refuted`, `stripe_fft_commutes_with_half_turns`, `stripe_fft_keeps_flat_rows_partial`, `stripe_fft_keeps_the_size`, `stripe_fft_leaves_pure_stripes_refuted`, `stripe_fft_scales_with_the_sinogram`, `stripe_fft_smooths_pure_stripes_partial`, `stripe_fft_takes_away_the_fast_part_of_slow_rows_partial`, `stripe_wavelet_fft_filters_only_the_vertical_details`, `stripe_wavelet_fft_of_small_sinograms`, `unwrapping_ignores_whole_turns_and_a_constant`, `unwrapping_keeps_the_size_and_removes_the_mean`, `unwrapping_of_two_phase_values`, `unwrapping_recovers_a_weak_phase_partial`, `unwrapping_treats_sides_and_signs_alike`, `unwrapping_windows`, `vertical_slice_multiple_lines_are_parallel`, `vertical_slice_points_lie_on_the_requested_line`, `vertical_slice_points_reject_other_angles_and_indices`, `wedge_filter_180`, `wedge_filter_half_turn`, `wedge_filter_keeps_averages`, `wedge_filter_linear`, `wedge_filter_mirror`, `wedge_filter_no_iteration`, `wedge_filter_ones`, `wedge_filter_shape`, `wedge_filter_waves_partial`, `wedge_mask_symmetric_partial`, `wedge_mask_values`, `weighted_unwrapping_ignores_whole_turns_refuted`, `window_middle_column`, `window_radial`, `window_rotated`, `wrapped_phase_is_in_the_interval_congruent_and_a_fixed_point`, `wrapping_is_the_only_congruent_value_in_the_interval`
* **D1, F**: `add_noise_adds_around_the_noise_level`, `add_noise_brightens_refuted`, `add_noise_needs_a_positive_average`, `add_noise_scales`, `binarize_pixels`, `binarize_threshold_range`, `binarize_with_automatic_threshold_refuted`, `curvature_is_that_of_the_least_squares_parabola`, `dot_size_min_max`, `locate_peak_along_lines_is_the_vertex_of_the_parabola`, `locate_peak_exact_on_quadratic_surface`, `locate_peak_polyfit_near_extremum_refuted`, `locate_peak_stays_near_extremum_partial`, `locate_peak_without_subpixel_is_extremum`, `normalize_divides`, `normalize_fft_divides`, `normalize_integer_refuted`, `normalize_zero_background`, `select_dots_partial`, `select_dots_refuted`, `threshold_follows_brightness_and_contrast`, `threshold_ignores_positions`, `threshold_is_an_end_of_a_fitted_cubic`, `threshold_of_a_uniform_image`, `threshold_of_equal_steps_is_the_extreme_pixel_partial`, `threshold_refuses_small_images`, `threshold_within_the_pixels_refuted`, `tilt_line_least_squares`, `umpa_best_fit_partial`, `umpa_chunk_size_partial`, `umpa_chunk_size_refuted`, `umpa_gpu_cpu_partial`, `umpa_recovers_partial`, `umpa_rejects`, `weight_mask_brightness_and_flat_images`, `weight_mask_of_an_empty_image`, `weight_mask_of_an_even_distribution`, `weight_mask_selects_the_bright_pixels`

Closed under the global context: 353 of 629 theorems.
