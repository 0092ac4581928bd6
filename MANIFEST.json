{
 "claims": [
  {
   "property": "C01",
   "status": "proved",
   "theorems": [
    "make_file_name_returns_fresh_name"
   ],
   "note": "termination included: the fuel 1+number of entries never runs out"
  },
  {
   "property": "C02",
   "status": "proved",
   "theorems": [
    "save_image_no_overwrite_is_safe",
    "save_image_no_overwrite_succeeds",
    "save_image_overwrite_changes_only_its_target",
    "save_distortion_no_overwrite_is_safe",
    "open_hdf_stream_no_overwrite_is_safe",
    "save_image_rejects_complex_tif",
    "make_folder_creates_or_reports"
   ],
   "note": ""
  },
  {
   "property": "C03",
   "status": "partial",
   "theorems": [
    "make_folder_name_fresh_directory_partial",
    "make_folder_name_fresh_entry_refuted"
   ],
   "note": "fresh among directories proved; the full claim is refuted: a plain file of that name is not noticed (is_dir)"
  },
  {
   "property": "C04",
   "status": "partial",
   "theorems": [
    "save_image_multiple_stores_every_slice_partial",
    "save_image_multiple_large_index_refuted"
   ],
   "note": "proved for file numbers below 100000 and every schedule; refuted above (names are cut to 5 digits)"
  },
  {
   "property": "C05",
   "status": "partial",
   "theorems": [
    "concurrent_saves_into_folder_keep_all_images_partial",
    "concurrent_saves_same_path_refuted",
    "save_steps_alone_behave_like_a_sequential_save"
   ],
   "note": "every interleaving is safe for the numbered names of save_image_multiple; refuted for two concurrent calls on the same path (check-then-write race)"
  },
  {
   "property": "C06",
   "status": "proved",
   "theorems": [
    "distortion_coefficients_round_trip"
   ],
   "note": "number printer/parser abstract: any pair that round-trips and prints no white space"
  },
  {
   "property": "C07",
   "status": "proved",
   "theorems": [
    "convert_tif_to_hdf_keeps_order_content_and_crop"
   ],
   "note": ""
  },
  {
   "property": "C08",
   "status": "partial",
   "theorems": [
    "extract_tif_from_hdf_tuple_index_partial",
    "extract_tif_from_hdf_int_index_partial",
    "extract_tif_from_hdf_negative_index_refuted",
    "extract_tif_from_hdf_index_out_of_range_refuted"
   ],
   "note": "The code does not satisfy the full statement: negative / out-of-range indices are refuted by the *_refuted theorems; in-range ones are proved."
  },
  {
   "property": "C09",
   "status": "partial",
   "theorems": [
    "hdf_emulator_indexes_like_numpy_partial",
    "hdf_emulator_empty_slice_refuted",
    "hdf_emulator_short_tuple_refuted",
    "hdf_emulator_slice_positions"
   ],
   "note": "Empty slices and short tuples are refuted (the code raises where numpy does not)."
  },
  {
   "property": "C10",
   "status": "proved",
   "theorems": [
    "dls_accepted_index_is_valid_for_every_dataset"
   ],
   "note": ""
  },
  {
   "property": "C100",
   "status": "proved",
   "theorems": [
    "dfi_frequencies",
    "dfi_inverts"
   ],
   "note": "Real arithmetic; np.arctan2 is any polar-angle function; dfi_inverts is stated for the public call with centre in the middle, no padding, no filter, no logarithm, for every interpolation that is exact on the sinogram's spectra (instance: every constant image with nearest-neighbour interpolation). The fifth-order spline itself is a parameter."
  },
  {
   "property": "C101",
   "status": "partial",
   "theorems": [
    "dfi_slices",
    "dfi_mask",
    "dfi_mask_auto",
    "dfi_center_checked",
    "dfi_one_projection_refuted",
    "dfi_padding_and_log"
   ],
   "note": "REFUTED for a chunk with one projection: np.squeeze drops the projection axis and the chunk is reconstructed as one sinogram, so one slice comes back instead of one per sinogram (dfi_one_projection_refuted). Proved for chunks with at least two projections and two columns. Padding modes edge and zero; threads return results in order; the returned array only, not aliasing."
  },
  {
   "property": "C102",
   "status": "partial",
   "theorems": [
    "dfi_angles_number",
    "dfi_angles_half_turn",
    "dfi_angles_full_turn",
    "dfi_any_start",
    "dfi_angles_descending",
    "dfi_angles_descending_partial",
    "dfi_angles_descending_refuted"
   ],
   "note": "REFUTED for decreasing angles: the rows are turned by twice the start angle, so a scan from 90 to -90 degrees is reconstructed upside down (dfi_angles_descending gives the exact rows, dfi_angles_descending_refuted the counterexample); right when the scan starts at a multiple of 180 degrees (dfi_angles_descending_partial). Proved for increasing angles over 180 degrees and over 360 degrees with an odd number of views, start a multiple of the step (ndimage.shift by whole rows with mode wrap as specified by shifts_rows); other start angles need interpolation and are not covered; an even number of views over 360 degrees averages rows half a step apart (not covered)."
  },
  {
   "property": "C103",
   "status": "partial",
   "theorems": [
    "ellipse_fit_exact_partial",
    "ellipse_fit_lengths",
    "ellipse_five_points_refuted"
   ],
   "note": "Proved for six or more points; refuted for exactly five: svd is called with full_matrices=False, so that only five of six right singular vectors exist and the null vector is missing (calibration.py:367)."
  },
  {
   "property": "C104",
   "status": "partial",
   "theorems": [
    "straight_orbit",
    "tilt_roll_arguments",
    "orbit_tilt_roll_partial",
    "tilt_line_least_squares",
    "orbit_tilt_refuted",
    "line_distance_nearest"
   ],
   "note": "Straight trajectories and the roll are exact. The reported tilt is atan(b/a) instead of asin(b/a): always smaller than the true tilt of a circular orbit."
  },
  {
   "property": "C105",
   "status": "partial",
   "theorems": [
    "binarize_threshold_range",
    "binarize_pixels",
    "dot_size_min_max",
    "select_dots_partial",
    "select_dots_refuted"
   ],
   "note": "Selection refuted: sizes are summed over bounding rectangles, so a pixel of another dot inside the rectangle makes a dot of the right size disappear. Partial theorem: rectangles without foreign pixels; the lower limit is truncated, so dots down to d - r d - 1 are kept."
  },
  {
   "property": "C106",
   "status": "partial",
   "theorems": [
    "normalize_divides",
    "normalize_zero_background",
    "normalize_integer_refuted",
    "distance_of_moved_dot_partial",
    "distance_mean_refuted",
    "normalize_fft_divides",
    "distance_of_moved_dots_partial"
   ],
   "note": "Refuted for integer images (the mean is truncated when stored into the integer background) and for size_opt='mean' (also 'median' of an even number) with dots of different size (no dot selected, nan). Distance proved for any number of dots moved together, none inside another one's rectangle, for min, max, median of an odd number, and for every option with dots of one size."
  },
  {
   "property": "C107",
   "status": "partial",
   "theorems": [
    "hdf_information_complete",
    "hdf_information_sound",
    "hdf_information_groups",
    "find_key_exact",
    "load_path",
    "load_listed",
    "load_missing",
    "hdf_tree_exact",
    "hdf_listed_once_refuted"
   ],
   "note": "Everything proved except 'once': a dataset inside a group is listed twice, with and without leading slash (refuted). Followed links and multiple hard links not modelled."
  },
  {
   "property": "C108",
   "status": "partial",
   "theorems": [
    "load_gray_image",
    "load_unreadable",
    "load_colour_image_partial",
    "load_small_colour_refuted",
    "load_multiple_order",
    "load_multiple_total"
   ],
   "note": "Colour images: proved when there are fewer channels than rows and columns; otherwise rows or columns are averaged (refuted). The rest proved."
  },
  {
   "property": "C109",
   "status": "partial",
   "theorems": [
    "image_stack_correct",
    "reference_sample_correct",
    "image_stack_bad_source",
    "image_stack_bad_input",
    "reference_sample_bad_input",
    "folder_average_refuted"
   ],
   "note": "Proved for lists of paths; for a single folder 'average' is ignored (refuted). Fields with three rows: see C13. The average of an empty folder (NaN in the code) is an error in the model."
  },
  {
   "property": "C11",
   "status": "partial",
   "theorems": [
    "dls_averages_own_contiguous_frames_partial",
    "dls_flats_at_both_ends_refuted",
    "dls_missing_darks_misalign_refuted",
    "dls_single_frame_cannot_be_loaded_refuted"
   ],
   "note": "Proved for >=2 contiguous frames; the other cases are refuted."
  },
  {
   "property": "C110",
   "status": "partial",
   "theorems": [
    "slice_to_polar",
    "slice_from_polar",
    "polar_round_trip_partial",
    "polar_round_trip_refuted",
    "polar_shapes",
    "ring_removal",
    "ring_removal_rejects",
    "ring_removal_uniform",
    "window_rotated",
    "window_middle_column",
    "window_radial",
    "polar_grid_any_size",
    "rectangular_grid_any_size"
   ],
   "note": "The round trip is false: the backward transformation scales radii by n/r_max (utility.py:723-724) while the forward one uses r_max/(n-1) (688), so pixels come back up to half a pixel from outside (polar_round_trip_refuted; bound proved in polar_round_trip_partial). The rest is proved over the reals with linear interpolation; the stripe removal is a parameter."
  },
  {
   "property": "C111",
   "status": "proved",
   "theorems": [
    "phase_correlation_finds_the_displacement",
    "phase_correlation_of_gradients_finds_the_displacement",
    "shortest_displacement",
    "phase_correlation_finds_the_center",
    "phase_correlation_shapes",
    "gradient_of_image",
    "phase_correlation_refined"
   ],
   "note": "Exact complex arithmetic over the reals (discrete Fourier transform defined as a sum); float rounding is not modelled. Shapes that numpy could broadcast are rejected in the model."
  },
  {
   "property": "C112",
   "status": "partial",
   "theorems": [
    "fresnel_shape",
    "fresnel_ratio_zero",
    "fresnel_flat",
    "fresnel_linear",
    "fresnel_scale",
    "fresnel_rows",
    "fresnel_symmetric_partial",
    "fresnel_frequency",
    "fresnel_mirror_refuted"
   ],
   "note": "Refuted part: with dim=2, an even width and padding, mirroring the image does not mirror the result, because the padded window continues with its value at -1/2 on one side and at 1/2 - 1/width on the other (2 x 2 image, pad 1). Proved: half turns and transposition for dim=2, mirroring for dim=1. Exact real arithmetic; the float32 conversion is not modelled; the frequency response is stated for pad=0 because the code applies the window of the unpadded size to the padded spectrum."
  },
  {
   "property": "C113",
   "status": "partial",
   "theorems": [
    "gaussian_filter_shape",
    "gaussian_filter_linear",
    "gaussian_filter_symmetric_partial",
    "gaussian_filter_frequency_partial",
    "gaussian_filter_flat_refuted",
    "gaussian_filter_mirror_refuted"
   ],
   "note": "Refuted: the bell is centred at (n - 1) / 2 but the spectrum at n / 2, so an image of even size loses the factor exp(-(1/sigma_x^2 + 1/sigma_y^2)/8) for every sigma and padding, and mirroring the image does not mirror the result. Proved: shape, linearity, half turn, transposition, and the exact frequency response for even sizes. For odd sizes no frequency response is stated (the checkerboard is not a shift of the spectrum then). Padding modes other than edge, mean and reflect are not modelled."
  },
  {
   "property": "C114",
   "status": "partial",
   "theorems": [
    "umpa_best_fit_partial",
    "umpa_recovers_partial",
    "umpa_chunk_size_partial",
    "umpa_chunk_size_refuted",
    "umpa_gpu_cpu_partial",
    "umpa_rejects"
   ],
   "note": "Exact real arithmetic; all entries of the smoothing window positive (true for the default hamming window; hann and bartlett windows have zero ends). Refuted for small chunk_size: the number of chunks is computed from all rows, and with more chunks than rows to search the call fails with IndexError. 'Less than one pixel' is not shown for the polynomial sub-pixel method, whose fit is abstract; the GPU kernel does not refine at the limit of the search, hence the guard of the GPU/CPU theorem."
  },
  {
   "property": "C115",
   "status": "proved",
   "theorems": [
    "scs_surface_fits_the_gradients_best",
    "scs_recovers_a_surface_from_its_exact_slopes",
    "scs_ignores_a_constant_in_the_gradients",
    "scs_is_linear",
    "scs_treats_both_axes_alike",
    "scs_negative_values_are_lifted_uniformly",
    "scs_padding_is_cropped_away",
    "scs_given_windows_and_rejected_inputs"
   ],
   "note": "exact real arithmetic; np.pad is an argument of which only the output size is assumed"
  },
  {
   "property": "C116",
   "status": "partial",
   "theorems": [
    "every_image_is_a_cosine_series",
    "fc_surface_of_two_cosine_series",
    "fc_integrates_a_profile_along_x",
    "fc_integrates_a_profile_along_y_partial",
    "fc_treats_both_axes_alike_for_square_images_partial",
    "fc_treats_both_axes_alike_refuted",
    "fc_flat_for_constant_gradients",
    "fc_negative_values_are_lifted_uniformly",
    "fc_given_windows_and_rejected_inputs"
   ],
   "note": "profiles along y and the symmetry of the axes are wrong for non-square images: the vertical frequencies are divided by the width (phase.py:320), so slopes along y are scaled by width/height"
  },
  {
   "property": "C117",
   "status": "partial",
   "theorems": [
    "unwrapping_keeps_the_size_and_removes_the_mean",
    "unwrapping_ignores_whole_turns_and_a_constant",
    "weighted_unwrapping_ignores_whole_turns_refuted",
    "unwrapping_treats_sides_and_signs_alike",
    "unwrapping_of_two_phase_values",
    "unwrapping_recovers_a_smooth_phase_refuted",
    "unwrapping_recovers_a_weak_phase_partial",
    "iteration_unwraps_what_is_missing",
    "iterated_unwrapping_approaches_the_phase_refuted",
    "iterated_unwrapping_recovers_weak_phases_partial",
    "iterated_unwrapping_recovers_two_phase_values_partial",
    "unwrapping_windows"
   ],
   "note": "refuted parts are defects of the method: a weight map multiplies the phase itself, so whole turns show; a step of x between two values comes back as sin x, so smooth phases are only recovered to third order, and a step of half a turn stays invisible for ever. Proved instead: exact results for images of two values, third-order accuracy for weak phases, geometric convergence of the iteration for weak phases and convergence for two values less than half a turn apart. Weight maps of another size than the image (numpy broadcasting) are not modelled."
  },
  {
   "property": "C118",
   "status": "partial",
   "theorems": [
    "quality_map_size_and_window",
    "quality_map_ignores_whole_turns_and_transposition",
    "quality_map_inside_partial",
    "quality_map_is_local_refuted",
    "quality_map_of_the_mirrored_image_refuted",
    "weight_mask_selects_the_bright_pixels",
    "weight_mask_brightness_and_flat_images",
    "weight_mask_of_an_empty_image",
    "quality_map_at_the_first_rows_and_columns_partial",
    "weight_mask_of_an_even_distribution"
   ],
   "note": "the padded differences are cropped at the wrong corner (phase.py:133-135), so the horizontal steps are taken one row above and the vertical ones one column left of the pixel, the last corner never matters and a mirrored image has another map; np.roll wraps around, so values near a border depend on the opposite border. Away from the border the exact formula is proved. ndi.zoom is an argument; np.polyfit with a single point is not modelled"
  },
  {
   "property": "C119",
   "status": "partial",
   "theorems": [
    "speckle_options_only_add_results",
    "speckle_phase_is_the_surface_of_the_shifts",
    "speckle_shifts_are_the_inner_local_shifts",
    "speckle_small_parameters",
    "speckle_wide_windows_leave_blank_lines",
    "speckle_recovers_a_uniform_displacement_partial",
    "speckle_recovers_a_uniform_displacement_refuted",
    "speckle_umpa_needs_stacks"
   ],
   "note": "the shift maps are zero within margin + win_size//2 of the border but only margin + 2 lines are replaced (phase.py:970-974), so for windows of 6 and more - the default 7 included - blank lines remain and are mirrored outwards; for windows up to 5 the recovery is proved. The surface and fitting functions are arguments"
  },
  {
   "property": "C12",
   "status": "partial",
   "theorems": [
    "get_tif_stack_valid_index_selects_that_file",
    "get_tif_stack_rejects_large_index_partial",
    "get_tif_stack_accepts_too_negative_index_refuted",
    "get_tif_stack_normalises_the_selected_file",
    "get_tif_stack_normalises_every_file"
   ],
   "note": "Too-negative indices are accepted (refuted)."
  },
  {
   "property": "C120",
   "status": "partial",
   "theorems": [
    "one_shift_for_every_pair_of_images",
    "stacks_of_displaced_images",
    "sample_shifts_arguments",
    "sample_shift_depends_on_two_images_only",
    "sample_shifts_are_relative_to_the_references",
    "sample_shifts_are_those_of_the_sample_partial",
    "sample_shifts_are_those_of_the_sample_refuted"
   ],
   "note": "the sample images are moved onto their references before they are compared (phase.py:618-627), so the shifts returned are relative to the references although align_image_stacks applies them to the unmoved sample images: a sample that does not move gets the negative shift of the speckles; proved to be the shift of the sample exactly if all references are displaced alike. ndi.shift is an argument that moves whole pixels exactly; norm=True is only covered for the first function"
  },
  {
   "property": "C121",
   "status": "partial",
   "theorems": [
    "find_center_visual_sinograms_one_file_per_center",
    "find_center_visual_sinograms_tests_all_centers_partial",
    "find_center_visual_sinograms_last_column_refuted",
    "find_center_visual_sinograms_lower_half_is_smoothed_mirror",
    "find_center_visual_sinograms_lower_half_mirrored_partial",
    "find_center_visual_sinograms_lower_half_mirrored_refuted"
   ],
   "note": "a stop at the last column is never tested (utility.py:1407 clips the exclusive end to ncol-1), and the last centre can exceed stop; order=3 with prefilter=False smooths the mirrored half (not the upper one) with a 3 x 3 B-spline, proved for whole 2c; equal to the mirror where the sinogram is locally linear"
  },
  {
   "property": "C122",
   "status": "partial",
   "theorems": [
    "find_center_visual_slices_one_file_per_center",
    "find_center_visual_slices_zoomed_center_refuted",
    "find_center_visual_vertical_slices_one_file_per_center_partial",
    "find_center_visual_vertical_slices_fine_step_refuted",
    "find_center_visual_vertical_slices_masked_partial",
    "find_center_visual_vertical_slices_center_outside_error",
    "find_center_visual_vertical_slices_keeps_projections_partial",
    "find_center_visual_vertical_slices_keeps_projections_refuted"
   ],
   "note": "with zoom the slice is reconstructed with zoom*c although ndi.zoom keeps the corner pixels, so the true centre is off by (1-zoom)/2 zoomed pixels in the middle; vertical slices: steps of 0.01 or less make two centres share a file, values <= 0 are overwritten in the caller's array, the mask only looks at the first centre (C58). The reconstruction methods are arguments here (see C83 ff. for fbp and dfi)"
  },
  {
   "property": "C123",
   "status": "partial",
   "theorems": [
    "regularization_filter_lines_are_independent",
    "regularization_filter_axis",
    "regularization_filter_linear",
    "regularization_filter_solves_problem_partial",
    "regularization_filter_solves_problem_refuted",
    "regularization_filter_mirrored_refuted"
   ],
   "note": "the coefficient matrix has the -1 in the wrong cosh argument (C78): for every width, weight and slope a ramp changes its sum, so the result does not minimise the energy; proved for constant lines. Lines of one point raise IndexError"
  },
  {
   "property": "C124",
   "status": "partial",
   "theorems": [
    "blob_mask_marks_outliers_and_their_neighbours",
    "blob_mask_always_works_with_remove_blob",
    "blob_mask_does_not_depend_on_the_exposure",
    "blob_mask_of_a_clean_flat_field_is_empty_refuted",
    "blob_mask_leaves_two_columns_free_refuted"
   ],
   "note": "the call fails (ValueError) on a flat field with a row of equal values; the ends are cleared before the dilation, so only the first and the last column stay free. A smoothed row with mean zero (division by zero) is not modelled; the scipy median filters are parameters"
  },
  {
   "property": "C125",
   "status": "partial",
   "theorems": [
    "gridrec_reconstructs_the_widened_sinogram",
    "gridrec_of_a_stack_is_slice_by_slice",
    "gridrec_rejects_arguments_that_do_not_fit",
    "gridrec_refused_call_leaves_the_sinogram_alone_refuted",
    "gridrec_keeps_the_sinogram_partial"
   ],
   "note": "the values <= 0 of the caller's sinogram are overwritten before the centre and the pad are checked, so a refused call has changed it; tomopy.recon is a parameter"
  },
  {
   "property": "C126",
   "status": "partial",
   "theorems": [
    "astra_reconstructs_the_centred_sinogram",
    "astra_sees_the_axis_in_the_middle",
    "astra_of_a_stack_is_slice_by_slice",
    "astra_accepts_exactly_the_documented_methods_with_a_gpu",
    "astra_without_a_gpu_runs_the_cpu_method",
    "astra_accepts_the_same_methods_without_a_gpu_refuted",
    "astra_refused_call_leaves_the_sinogram_alone",
    "astra_leaves_the_sinogram_alone_refuted"
   ],
   "note": "with the logarithm the values <= 0 of the caller's array are overwritten; without a GPU, names that do not exist (ART_CUDA) are accepted. The astra algorithms and scipy's shift are parameters; the position of the axis is proved for a shift that is exact for whole pixels"
  },
  {
   "property": "C127",
   "status": "partial",
   "theorems": [
    "wedge_mask_values",
    "wedge_mask_symmetric_refuted",
    "wedge_mask_symmetric_partial",
    "wedge_filter_shape",
    "wedge_filter_no_iteration",
    "wedge_filter_ones",
    "wedge_filter_linear",
    "wedge_filter_keeps_averages",
    "wedge_filter_half_turn",
    "wedge_filter_mirror",
    "wedge_filter_waves_partial",
    "wedge_filter_waves_refuted",
    "wedge_filter_180"
   ],
   "note": "the rounding up of a signed number makes the mask differ between a frequency and its opposite, so waves within one pixel of the border of the wedge are halved by every iteration instead of kept or removed. scipy's shift is a parameter; a wedge of radius 0 and integer overflow are not modelled"
  },
  {
   "property": "C128",
   "status": "proved",
   "theorems": [
    "correlation_metric_value",
    "correlation_metric_range_and_symmetry",
    "correlation_metric_is_zero_for_copies_only",
    "correlation_metric_ignores_brightness",
    "find_overlap_ignores_brightness",
    "find_overlap_recovers_the_overlap_of_images_of_other_brightness",
    "find_overlap_with_norm_recovers_the_overlap_of_rescaled_rows",
    "search_overlap_reports_the_misfit_of_the_windows",
    "find_overlap_takes_the_side_with_the_sharper_minimum",
    "curvature_is_that_of_the_least_squares_parabola"
   ],
   "note": "constant windows, for which scipy returns nan, are excluded"
  },
  {
   "property": "C129",
   "status": "partial",
   "theorems": [
    "stripe_fft_keeps_the_size",
    "stripe_fft_takes_away_the_fast_part_of_slow_rows_partial",
    "stripe_fft_smooths_pure_stripes_partial",
    "stripe_fft_leaves_pure_stripes_refuted",
    "stripe_fft_keeps_flat_rows_partial",
    "stripe_fft_changes_a_constant_sinogram_refuted",
    "stripe_fft_scales_with_the_sinogram",
    "stripe_fft_commutes_with_half_turns",
    "wavelet_levels",
    "stripe_wavelet_fft_filters_only_the_vertical_details",
    "damped_details_have_no_stripes_partial",
    "damped_details_keep_stripes_refuted",
    "stripe_wavelet_fft_of_small_sinograms"
   ],
   "note": "Refuted for even sizes: both windows are centred at ceil(n/2)-1, one place beside the zero frequency n//2. With an even number of rows and the default v=0 no pure stripe is removed at all by remove_stripe_based_fft; with an even number of columns a constant sinogram is darkened; details of even height keep a fraction of their stripes. For odd sizes the full behaviour is proved. sort=True (C76), the options dictionary and u=0 are outside; the wavelet transform is a parameter."
  },
  {
   "property": "C13",
   "status": "partial",
   "theorems": [
    "get_tif_stack_normalises_every_file",
    "flat_field_stack_of_three_is_averaged_partial",
    "flat_field_stack_is_averaged_refuted",
    "flat_field_with_three_rows_refuted",
    "get_tif_stack_rejects_fields_of_another_shape"
   ],
   "note": "a stack of fields is averaged only when it holds exactly three, and an image with three rows is refused (the code compares the number of rows, not of dimensions, with 3): refuted"
  },
  {
   "property": "C130",
   "status": "proved",
   "theorems": [
    "face_phantom_is_square",
    "face_phantom_is_symmetric",
    "face_phantom_range_and_support"
   ],
   "note": "Exact real arithmetic."
  },
  {
   "property": "C131",
   "status": "partial",
   "theorems": [
    "add_noise_adds_around_the_noise_level",
    "add_noise_needs_a_positive_average",
    "add_noise_brightens_refuted",
    "add_noise_scales",
    "fluctuation_is_a_factor_of_every_row",
    "fluctuation_moves_the_beam_a_little",
    "fluctuation_of_strength_zero_refuted"
   ],
   "note": "Refuted: the noise is drawn around noise_ratio times the average, not around zero, so it brightens the image; strength 0 still multiplies every row with the (unmoved) beam profile. Blank images give nan. The random generator is a parameter (every draw)."
  },
  {
   "property": "C132",
   "status": "partial",
   "theorems": [
    "line_target_needs_26_pixels",
    "line_target_is_the_pattern_partial",
    "line_target_has_negative_pixels_refuted",
    "line_target_bar_outside_refuted"
   ],
   "note": "Every size is decided. Below 26: refused (IndexError, negative: ValueError). Proved exactly, every pixel, for 26 <= size < 3200 except (a) the sizes whose size // 16 is odd and at least 101 (from 1616 on) and (b) 2946 and 2947. In (a), and for every size from 3200 on, bars of the two directions cross next to the centre (the masks have 1 percent tolerance) and the crossing pixels become negative: refuted for all of them. In (b) the outermost bar on the left lies outside of the image: refuted."
  },
  {
   "property": "C133",
   "status": "partial",
   "theorems": [
    "detect_sample_accepts",
    "detect_sample_does_not_depend_on_the_start",
    "detect_sample_does_not_depend_on_the_scale",
    "detect_sample_ignores_brightness_and_stripes_partial",
    "no_sample_is_not_detected",
    "detect_sample_short_scan_refuted",
    "detect_sample_finds_waves",
    "detect_sample_finds_waves_in_half_a_turn",
    "detect_sample_ignores_stripes_in_half_a_turn_refuted"
   ],
   "note": "scipy's gaussian_filter is modelled explicitly (truncated normalised weights, reflected borders), the Fourier transform by its sums. Refuted: (1) scans with at most 13 rows (360) or 6 rows (180) are accepted but never reported as containing a sample (only one row is compared with itself); (2) in a 180-degree scan stripes that are not symmetric about the middle column can hide a sample (7 x 30 example); proved for symmetric stripes and for every stripe in 360-degree scans."
  },
  {
   "property": "C134",
   "status": "proved",
   "theorems": [
    "stripe_sorting_takes_the_majority_of_the_neighbours",
    "stripe_sorting_keeps_the_order_in_a_column",
    "stripe_sorting_restores_the_scene",
    "remove_large_stripe_corrects_gains",
    "remove_large_stripe_keeps_the_order_in_a_column",
    "remove_dead_stripe_keeps_pixels_positive",
    "remove_all_stripe_restores_the_scene",
    "remove_all_stripe_scales_with_the_sinogram",
    "remove_all_stripe_refuses_noise_free_data",
    "remove_dead_stripe_compares_the_fluctuation_of_columns",
    "remove_dead_stripe_with_residual_corrects_gains",
    "stripe_sorting_takes_the_median_over_the_columns",
    "stripe_sorting_in_two_dimensions",
    "remove_all_stripe_applies_the_three_steps"
   ],
   "note": "scipy's median_filter (1D window, mode reflect) and uniform_filter1d are explicit; dim=1 in the theorems (the 2D window is modelled, the refusal theorem holds for it too); numpy's argsort is any procedure that returns a sorting permutation. The nan profile of a zero mean is modelled as an empty mask."
  },
  {
   "property": "C135",
   "status": "partial",
   "theorems": [
    "mtf_deconvolution_undoes_the_blur_partial",
    "mtf_deconvolution_with_padding_refuted",
    "mtf_deconvolution_of_a_constant",
    "mtf_deconvolution_by_ones_is_identity",
    "mtf_deconvolution_refuses_a_small_window"
   ],
   "note": "Proved without padding for an image as large as the window. With any padding the claim is false: the window is extended by ones instead of being resampled to the padded size, so for an even width the finest detail is left blurred whatever the window (refuted theorem). Periodic continuation of the image is part of what 'blurred' means here. Fourier transforms are explicit sums over the reals."
  },
  {
   "property": "C136",
   "status": "partial",
   "theorems": [
    "interrupted_save_image_keeps_other_files",
    "interrupted_save_of_coefficients_keeps_other_files",
    "interrupted_hdf_stream_keeps_other_files",
    "rejected_save_image_keeps_every_file",
    "rejected_save_of_coefficients_keeps_every_file",
    "rejected_hdf_stream_keeps_every_file_partial",
    "rejected_hdf_stream_empties_the_existing_file_refuted",
    "interrupted_coefficients_load_without_an_error_refuted"
   ],
   "note": "Crash points: proved for the three functions. Rejected calls: proved, except open_hdf_stream with overwrite=True, which opens (and empties) the existing file before it checks the metadata keys (loadersaver.py:454-465): refuted. A coefficient file cut after any factor loads without an error: refuted."
  },
  {
   "property": "C137",
   "status": "partial",
   "theorems": [
    "find_file_lists_exactly_the_matches_in_order",
    "found_files_are_distinct",
    "saved_stack_is_found_in_slice_order_partial",
    "saved_stack_found_order_refuted"
   ],
   "note": "find_file itself: proved for every pattern of *, ?, [...] and [!...] (not modelled: ** and a ! that follows a dropped empty range). Saved stacks: proved for indices below 100000; beyond, names keep the last five digits (loadersaver.py: save_image_multiple) and the order of the names is not the order of the slices: refuted."
  },
  {
   "property": "C138",
   "status": "partial",
   "theorems": [
    "entropy_metric_is_the_entropy_of_the_smoothed_grey_level_histogram",
    "entropy_score_does_not_depend_on_brightness_and_contrast",
    "uniform_slices_have_the_least_entropy_metric_partial",
    "uniform_black_slice_scores_worse_than_a_grey_one_refuted",
    "sharpness_metric_measures_the_variation_of_a_slice",
    "sharpness_search_prefers_a_blank_slice_refuted",
    "inverted_sharpness_search_returns_the_sharpest_slice_partial",
    "autocorrelation_metric_is_the_mean_energy_of_the_rows",
    "sharpness_of_a_plane_is_its_slope"
   ],
   "note": "Uniform slices: proved for the grey levels 6 to 249 (with the exact case of equality); the smoothing in 'valid' mode counts the six levels next to black and white less often, so a black slice scores worse: refuted. Sharpness: the search minimises the metric, so with the default invert_metric=False it prefers blank slices: refuted; proved with invert_metric=True."
  },
  {
   "property": "C139",
   "status": "partial",
   "theorems": [
    "threshold_is_an_end_of_a_fitted_cubic",
    "threshold_follows_brightness_and_contrast",
    "threshold_ignores_positions",
    "threshold_of_a_uniform_image",
    "threshold_refuses_small_images",
    "threshold_of_equal_steps_is_the_extreme_pixel_partial",
    "threshold_within_the_pixels_refuted",
    "binarize_with_automatic_threshold_refuted"
   ],
   "note": "Everything is proved for every image, except that the threshold lies between the smallest and the largest pixel: the end of the fitted cubic overshoots, and an image with two pixels 0 and five pixels 1 has the threshold -3/70 (bright background), its negative 73/70 (dark): refuted, and binarize_image then returns a single level. Images of equal grey steps have their extreme pixel as threshold. The resampling (ndi.zoom) is any function with the stated laws, an instance is given; exact real arithmetic, float pixels."
  },
  {
   "property": "C14",
   "status": "partial",
   "theorems": [
    "stack_denominators_nonzero_partial",
    "stack_denominators_zero_when_flat_equals_dark_refuted",
    "stack_denominators_cancel_refuted",
    "get_tif_stack_normalises_every_file"
   ],
   "note": "Refuted when flat==dark everywhere or mean cancels."
  },
  {
   "property": "C140",
   "status": "partial",
   "theorems": [
    "maximum_index_is_that_of_the_last_reconstructable_slice",
    "helical_sinogram_covers_a_half_or_full_turn",
    "helical_index_zero_refuted"
   ],
   "note": "Proved, except that every accepted index is within the reconstructable heights: slice 1 is the lowest one, the index 0 is accepted too and gives the slice one pixel below: refuted. That accepted indices are not above the heights is C31."
  },
  {
   "property": "C15",
   "status": "proved",
   "theorems": [
    "parallel_process_slices_is_slicewise",
    "parallel_process_slices_schedule_independent",
    "parallel_process_slices_identity"
   ],
   "note": ""
  },
  {
   "property": "C16",
   "status": "proved",
   "theorems": [
    "sort_forward_sorts_and_sort_backward_restores",
    "sort_backward_inverts_sort_forward",
    "stripe_sorting_filters_the_sorted_columns_and_puts_values_back",
    "stripe_sorting_with_a_neutral_filter_returns_the_input"
   ],
   "note": "argsort is any legal argsort (ties free)"
  },
  {
   "property": "C17",
   "status": "proved",
   "theorems": [
    "circle_mask_is_the_disk"
   ],
   "note": ""
  },
  {
   "property": "C18",
   "status": "proved",
   "theorems": [
    "stripe_interpolation_touches_only_masked_columns",
    "stripe_interpolation_rejects_wrong_mask_length"
   ],
   "note": "kind='linear'. The function works on np.copy of both arguments; the model is pure, so non-modification of the arguments is by construction of the copy, see DESIGN.md."
  },
  {
   "property": "C19",
   "status": "partial",
   "theorems": [
    "locate_slice_finds_every_slice_partial",
    "locate_slice_outside_the_scan_is_empty",
    "locate_slice_fractional_overlap_refuted"
   ],
   "note": "Proved for integer overlaps >=2 with no slice seen by three rows; fractional overlaps (what find_overlap returns) are refuted: no row matches."
  },
  {
   "property": "C20",
   "status": "partial",
   "theorems": [
    "locate_slice_chunk_agrees_for_equal_overlaps_partial",
    "locate_slice_chunk_unequal_overlaps_refuted"
   ],
   "note": "Refuted for unequal overlaps (middle rows apply both overlaps to both ends); proved for equal ones."
  },
  {
   "property": "C21",
   "status": "proved",
   "theorems": [
    "fix_non_sample_areas_keeps_filled_cells",
    "fix_non_sample_areas_copies_original_cells",
    "fix_non_sample_areas_takes_the_preferred_neighbour",
    "fix_non_sample_areas_may_leave_holes_refuted"
   ],
   "note": "The last theorem records that holes may remain; the property does not claim otherwise."
  },
  {
   "property": "C22",
   "status": "proved",
   "theorems": [
    "frequency_components_add_up",
    "frequency_separation_rejects_wrong_window_length"
   ],
   "note": ""
  },
  {
   "property": "C23",
   "status": "proved",
   "theorems": [
    "check_level_validates",
    "check_level_returns_valid_levels",
    "ignore_level_zeroes_exactly_that_level",
    "ignore_level_out_of_range_changes_nothing",
    "wavelet_filter_touches_only_requested_components"
   ],
   "note": ""
  },
  {
   "property": "C24",
   "status": "proved",
   "theorems": [
    "flat_field_correction_with_dark",
    "flat_field_correction_without_dark",
    "flat_field_correction_maps_flat_to_1_and_dark_to_0"
   ],
   "note": "The pixel arithmetic of flat_field_correction over exact rationals. The arrays passed by the caller are only read by the modelled statements (flat = ratio*flat makes a new array), so there is no state for them to change in the model; the options loop calling other modules is not modelled."
  },
  {
   "property": "C25",
   "status": "partial",
   "theorems": [
    "stitch_image_blends_linearly_partial",
    "stitch_image_norm_scales_the_second_image_partial",
    "stitch_image_rejects_different_heights",
    "stitch_image_total_width_pads_with_the_last_column",
    "stitch_image_sides_are_mirror_images",
    "stitch_image_zero_overlap_refuted",
    "stitch_image_width_is_the_sum_minus_the_rounded_overlap"
   ],
   "note": "Integer overlaps 1..min width. Fractional overlaps go through scipy's shift (see C68); overlap 0 raises; mirror symmetry needs overlap >= 2."
  },
  {
   "property": "C26",
   "status": "partial",
   "theorems": [
    "stitch_image_multiple_is_the_normalised_fold_partial",
    "stitch_image_multiple_ignores_norm",
    "stitch_image_multiple_norm_false_refuted",
    "stitch_image_multiple_needs_every_overlap"
   ],
   "note": "Refuted: norm is passed in the place of wei_mat1, so norm=False still normalises."
  },
  {
   "property": "C27",
   "status": "partial",
   "theorems": [
    "join_image_keeps_data_and_interpolates_partial",
    "join_image_norm_scales_the_second_image",
    "join_image_rejects_different_heights",
    "join_image_multiple_is_the_fold",
    "join_image_width_is_the_sum_plus_the_rounded_gap",
    "join_image_multiple_needs_every_gap"
   ],
   "note": "Whole-column gaps, images at least 4 columns wide and 2 rows high; fractional gaps: C68."
  },
  {
   "property": "C28",
   "status": "proved",
   "theorems": [
    "convert_360_to_180_centre_or_tuple",
    "convert_360_to_180_stitches_the_half_turns"
   ],
   "note": "Integer overlaps (what find_center_360 yields with sub_pixel off)."
  },
  {
   "property": "C29",
   "status": "partial",
   "theorems": [
    "extend_sinogram_complementary_weights_partial",
    "extend_sinogram_overlap_one_refuted"
   ],
   "note": "Integer overlap >= 2. Refuted for overlap 1."
  },
  {
   "property": "C30",
   "status": "proved",
   "theorems": [
    "convert_180_to_360_shape",
    "convert_180_to_360_mirrors_integer",
    "convert_180_to_360_mirrors_scene"
   ],
   "note": "scipy shift is a parameter; its exactness for whole columns / straight lines is a hypothesis with a witness"
  },
  {
   "property": "C31",
   "status": "proved",
   "theorems": [
    "helical_rows_are_convex_combinations",
    "helical_row_interpolates_at_its_height",
    "helical_rows_interpolate_the_raw_data",
    "helical_index_lies_in_the_reconstructable_range",
    "helical_converts_every_visible_height"
   ],
   "note": ""
  },
  {
   "property": "C32",
   "status": "partial",
   "theorems": [
    "unwarp_projection_identity",
    "unwarp_sinogram_identity",
    "unwarp_sinogram_chunk_identity_partial",
    "unwarp_sinogram_chunk_loses_the_last_row_refuted"
   ],
   "note": "unwarp_sinogram_chunk is the identity for stop_index < height; with stop_index=-1 the last row returned is row height-2 instead of height-1, proved as a refutation."
  },
  {
   "property": "C33",
   "status": "partial",
   "theorems": [
    "unwarp_sinogram_equals_rows_of_unwarped_projections",
    "unwarp_sinogram_chunk_equals_rows_partial",
    "tilted_profile_line_interpolates_the_whole_image",
    "tilted_profile_chunk_interpolates_the_whole_image",
    "tilted_sinogram_is_made_of_profile_lines",
    "tilted_sinogram_chunk_is_made_of_profile_lines",
    "tilted_profile_line_angle_zero",
    "unwarp_sinogram_chunk_loses_the_last_row_refuted",
    "unwarp_projection_follows_the_radial_model"
   ],
   "note": "Reading the window gives the same values as interpolating the whole image. For unwarp_sinogram_chunk this needs the vertical mapping to advance by at least one row per row and to stay inside the image, the code is wrong otherwise (refuted theorem)."
  },
  {
   "property": "C34",
   "status": "proved",
   "theorems": [
    "beam_hardening_keeps_the_grey_range",
    "beam_hardening_rejects_small_n",
    "beam_hardening_rejects_unnormalised"
   ],
   "note": "Over Coq's real numbers (uses the Reals axioms)."
  },
  {
   "property": "C35",
   "status": "proved",
   "theorems": [
    "coarse_search_returns_the_best_integer_center",
    "coarse_search_rejects_an_empty_range",
    "fine_search_returns_the_best_candidate",
    "fine_search_candidates_lie_in_the_search_range",
    "fine_search_candidates_cover_the_search_range",
    "find_center_vo_without_downsampling",
    "find_center_vo_with_downsampling",
    "find_center_vo_default_range"
   ],
   "note": "The metric is an arbitrary function of the stacked image and the mask; the schedule is any permutation. Float32 rounding of the metric list (serial branch only) is not modelled."
  },
  {
   "property": "C36",
   "status": "partial",
   "theorems": [
    "find_overlap_with_a_side_honours_denoise",
    "find_overlap_without_side_equal_flags_partial",
    "find_overlap_without_side_swaps_the_flags_refuted",
    "find_overlap_default_never_denoises_refuted",
    "find_overlap_multiple_compares_neighbours",
    "find_overlap_multiple_rejects_a_single_image"
   ],
   "note": "The property is false of the code for side=None: norm and denoise are swapped in the two calls; it is proved for an explicit side and for equal flags."
  },
  {
   "property": "C37",
   "status": "partial",
   "theorems": [
    "overlap_search_windows_inside_the_images",
    "overlap_search_schedule_independent",
    "curvature_position_is_within_half_a_pixel_of_the_minimum",
    "curvature_is_the_least_squares_coefficient",
    "subpixel_parabola_interpolates",
    "find_overlap_recovers_the_overlap_partial",
    "find_overlap_wide_window_is_one_pixel_off_refuted",
    "curvature_and_position_are_those_of_the_fitted_parabolas"
   ],
   "note": "Windows are always inside. The recovered overlap is right (within half a pixel) for win_width < min(ncol)//2; for wider windows with min(ncol)//2 even it is one pixel off (refuted). Recovery is proved for denoise=False, norm=False."
  },
  {
   "property": "C38",
   "status": "partial",
   "theorems": [
    "remove_zinger_changes_only_outliers_partial",
    "remove_zinger_with_check_size_changes_only_small_objects",
    "remove_zinger_replaces_by_the_average_refuted"
   ],
   "note": "proved where the neighbourhood average is positive; refuted otherwise: a zero average is replaced by 1, a negative average selects low pixels. Non-modification of the argument: the code copies first (mat = np.copy), arrays are values in the model."
  },
  {
   "property": "C39",
   "status": "partial",
   "theorems": [
    "remove_blob_interpolates_only_masked_pixels_partial",
    "remove_blob_rejects_a_mask_of_another_shape",
    "remove_blob_leaves_its_mask_alone_refuted"
   ],
   "note": "pixel behaviour proved in full; 'does not modify mask' is refuted (the ends of the caller's mask are zeroed)"
  },
  {
   "property": "C40",
   "status": "partial",
   "theorems": [
    "remove_blob_1d_interpolates_when_both_ends_are_unmasked_partial",
    "remove_blob_1d_works_for_every_mask_refuted",
    "remove_blob_1d_clears_the_ends_of_its_mask"
   ],
   "note": "refuted: a blob reaching an end of the row raises ValueError; proved when both end pixels are unmasked"
  },
  {
   "property": "C41",
   "status": "proved",
   "theorems": [
    "stripe_normalization_corrects_each_row_once",
    "stripe_normalization_rejects_more_chunks_than_rows"
   ],
   "note": ""
  },
  {
   "property": "C42",
   "status": "proved",
   "theorems": [
    "remove_large_stripe_only_changes_detected_columns",
    "remove_large_stripe_fails_only_if_detection_fails"
   ],
   "note": "also covers norm=True (division by the column factor)"
  },
  {
   "property": "C43",
   "status": "partial",
   "theorems": [
    "upsample_sinogram_intervals",
    "upsample_sinogram_multiplies_the_sampling_partial",
    "upsample_sinogram_scale_from_6_refuted",
    "upsample_sinogram_keeps_the_measured_rows"
   ],
   "note": "The number of angular steps is multiplied by 2^(scale/2): the given scale for 2 and 4 only. The interpolated values are computed by a double-wedge filter that is a parameter."
  },
  {
   "property": "C44",
   "status": "proved",
   "theorems": [
    "wrapped_phase_is_in_the_interval_congruent_and_a_fixed_point",
    "wrapping_is_the_only_congruent_value_in_the_interval"
   ],
   "note": "over Coq's reals"
  },
  {
   "property": "C45",
   "status": "partial",
   "theorems": [
    "dark_field_does_not_depend_on_the_number_of_workers_partial",
    "transmission_is_the_mean_ratio_of_the_paired_windows",
    "dark_field_with_the_default_margin_depends_on_the_number_of_workers_refuted",
    "the_default_margin_is_the_largest_shift_truncated"
   ],
   "note": "Holds when the margin bounds the shifts; with the default margin (int() truncates the largest shift while shifts are rounded) the result depends on ncore: refuted."
  },
  {
   "property": "C46",
   "status": "partial",
   "theorems": [
    "dataset_min_and_max_are_the_extremes_of_the_visited_slices_partial",
    "dataset_mean_and_median_refuted",
    "dataset_of_one_slice_refuted"
   ],
   "note": "Min and max proved. The 'mean' returned is the mean of slice medians and the 'median' the median of slice means (columns 4 and 5 swapped, postprocessing.py:291): refuted by a concrete dataset. A dataset of one slice raises ValueError: refuted."
  },
  {
   "property": "C47",
   "status": "proved",
   "theorems": [
    "downsampling_by_mean_averages_the_cell",
    "downsampling_by_minimum_takes_the_smallest_of_the_cell",
    "downsampling_by_maximum_takes_the_largest_of_the_cell",
    "downsampling_stays_in_the_range_of_the_cell",
    "dataset_downsampling_by_mean_averages_the_cell",
    "dataset_downsampling_by_minimum_takes_the_smallest_of_the_cell",
    "dataset_downsampling_by_maximum_takes_the_largest_of_the_cell",
    "dataset_downsampling_stays_in_the_range_of_the_cell",
    "downsampling_by_median_refuted"
   ],
   "note": "Exact arithmetic. Outside the claim: the method 'median' takes medians axis by axis, which is not the median of the cell (downsampling_by_median_refuted)."
  },
  {
   "property": "C48",
   "status": "proved",
   "theorems": [
    "rescaled_values_are_the_scaled_and_truncated_clipped_values",
    "rescale_rejects_other_bit_depths"
   ],
   "note": "Exact arithmetic; gmin<gmax (gmin=gmax divides by zero in the code)."
  },
  {
   "property": "C49",
   "status": "partial",
   "theorems": [
    "reslicing_a_tif_stack_is_an_exact_transposition_partial",
    "reslicing_an_hdf_dataset_is_an_exact_transposition_without_leading_crop_partial",
    "reslicing_a_cropped_hdf_dataset_refuted",
    "reslicing_a_single_image_refuted",
    "resliced_images_are_numbered_with_five_digits",
    "resliced_image_names_refuted"
   ],
   "note": "tif: proved for every chunk, crop leaving at least 2 images and 2 slices. hdf: the leading crop of axis 0 is ignored when reading (postprocessing.py:716-764): refuted; proved when it is 0. One image or one slice: ValueError (refuted). More than 100000 slices reuse file names (refuted)."
  },
  {
   "property": "C50",
   "status": "partial",
   "theorems": [
    "rescaling_to_a_new_hdf_file_writes_the_requested_path_partial",
    "rescaling_with_overwrite_refuted"
   ],
   "note": "Holds when the path is free; with overwrite=True and an existing file the result goes to a numbered copy (postprocessing.py:558-561)."
  },
  {
   "property": "C51",
   "status": "partial",
   "theorems": [
    "reslicing_changes_only_the_output_and_its_working_folder_partial",
    "reslicing_to_a_new_folder_keeps_every_existing_file",
    "reslicing_to_a_new_hdf_file_keeps_every_existing_file_partial",
    "reslicing_to_hdf_ends_with_the_output_and_no_working_folder",
    "reslicing_deletes_a_folder_named_like_the_output_refuted"
   ],
   "note": "Every intermediate file system (crash point) and every saving order of the threads. hdf output: a folder named like the output without extension is deleted (postprocessing.py:949-952): refuted, also for overwrite=False."
  },
  {
   "property": "C52",
   "status": "partial",
   "theorems": [
    "back_projection_cpu_serial_schedules_give_the_full_sum_partial",
    "back_projection_cpu_loses_projections_at_worst_partial",
    "back_projection_cpu_depends_on_the_schedule_refuted"
   ],
   "note": "False as stated: the prange loop adds into shared pixels without protection, so two overlapping iterations can lose an update (refuted theorem, concrete schedule). Proved: without overlap, in any order of the iterations, the full sum; for every schedule, the sum over some duplicate-free subset of the projections."
  },
  {
   "property": "C53",
   "status": "proved",
   "theorems": [
    "back_projection_gpu_every_schedule_gives_the_full_sum",
    "back_projection_gpu_chunk_every_schedule_gives_the_full_sum",
    "back_projection_cpu_and_gpu_agree",
    "vertical_back_projection_every_schedule_gives_the_full_sum",
    "vertical_back_projection_chunk_every_schedule_gives_the_full_sum"
   ],
   "note": "Every interleaving of all threads (GPU and vertical kernels); reads are checked, so Ok means in bounds. Exact rationals; cos and sin are parameters. The CPU/GPU agreement is for non-overlapping CPU iterations, see C52."
  },
  {
   "property": "C54",
   "status": "partial",
   "theorems": [
    "reconstruction_keeps_positive_sinograms_partial",
    "fbp_overwrites_nonpositive_values_refuted",
    "vertical_reconstruction_leaves_positive_projections_unchanged_partial",
    "vertical_reconstruction_overwrites_the_projections_refuted",
    "find_center_based_slice_metric_overwrites_the_sinogram_refuted",
    "vertical_reconstruction_overwrites_only_used_nonpositive_values",
    "find_center_based_slice_metric_leaves_the_sinogram_unchanged_partial"
   ],
   "note": "fbp and bpf. False as stated: with apply_log the non-positive entries of the caller's array are overwritten with 1. Proved: unchanged without logarithm or when all values are positive, and exactly which entries change otherwise. The astra and gridrec wrappers have the same lines (1136-1141, 961-966) and are not modelled."
  },
  {
   "property": "C55",
   "status": "partial",
   "theorems": [
    "slice_metric_search_returns_a_best_candidate",
    "find_center_based_slice_metric_optimum_partial",
    "find_center_based_slice_metric_leaves_the_range_refuted",
    "find_center_based_slice_metric_fails_near_the_edge_refuted"
   ],
   "note": "Each stage returns an optimum of its own candidates for every metric, direction and task order; the result stays in the range widened by the fine-search radius. 'Inside the searched range' is false (refuted theorems): the fine search leaves the range, and a range close to the left edge raises ValueError. The score of a centre (reconstruction + metric) is a parameter."
  },
  {
   "property": "C56",
   "status": "proved",
   "theorems": [
    "vertical_reconstruction_sums_every_projection_once",
    "vertical_reconstruction_does_not_depend_on_how_it_is_computed",
    "vertical_reconstruction_different_angles_is_slice_by_slice",
    "vertical_reconstruction_multiple_is_slice_by_slice"
   ],
   "note": "For every valid argument set, chunk size (None, zero, negative, too large included), device, block, task order and thread schedule. The FFT filters, np.pad and the ramp window are parameters assumed to keep shapes and respect equality; -log, cos, sin, pi are parameters; exact rationals. At least two projections (with one the code divides by zero)."
  },
  {
   "property": "C57",
   "status": "proved",
   "theorems": [
    "vertical_slice_points_lie_on_the_requested_line",
    "vertical_slice_points_reject_other_angles_and_indices",
    "vertical_slice_multiple_lines_are_parallel"
   ],
   "note": "Over the real numbers with exact trigonometric functions; the dead radian/degree comparisons of the code are in the model. Rests on the axioms of Coq's Reals (see DESIGN.md)."
  },
  {
   "property": "C58",
   "status": "partial",
   "theorems": [
    "find_center_vertical_slice_returns_a_best_candidate_partial",
    "find_center_vertical_slice_truncates_the_metric_refuted",
    "find_center_vertical_slice_mask_ignores_unreconstructable_columns_partial",
    "find_center_vertical_slice_mask_keeps_unreconstructable_columns_refuted"
   ],
   "note": "Optimality holds for float arguments and is false for integer start/stop/step (metric array is integer); the mask is right when no candidate exceeds width/2 and wrong otherwise (np.min taken twice). Both refuted by theorems."
  },
  {
   "property": "C59",
   "status": "proved",
   "theorems": [
    "correlation_map_is_pearson_coefficient",
    "correlation_map_values_bounded",
    "correlation_map_one_exactly_for_copies",
    "correlation_map_ignores_brightness_and_contrast",
    "correlation_map_larger_image_rejected"
   ],
   "note": "CPU and GPU, single images and stacks. Real-number arithmetic (Reals axioms, see DESIGN.md)."
  },
  {
   "property": "C60",
   "status": "proved",
   "theorems": [
    "correlation_map_gpu_equals_cpu",
    "correlation_map_is_pearson_coefficient",
    "find_shift_gpu_equals_cpu"
   ],
   "note": "every block size and thread order; all kernel reads checked. Real-number arithmetic (Reals axioms, see DESIGN.md)."
  },
  {
   "property": "C61",
   "status": "partial",
   "theorems": [
    "locate_peak_without_subpixel_is_extremum",
    "locate_peak_stays_near_extremum_partial",
    "locate_peak_polyfit_near_extremum_refuted",
    "locate_peak_exact_on_quadratic_surface",
    "locate_peak_along_lines_is_the_vertex_of_the_parabola"
   ],
   "note": "True for method 'diff' (1 pixel; 1/2 for dim=1) and always inside the map; refuted for 'poly_fit': the parabola fitted to 0 0 10 9 9 has its vertex 1.7 pixels from the maximum (the window bounds it to <8 pixels). Real-number arithmetic (Reals axioms, see DESIGN.md)."
  },
  {
   "property": "C62",
   "status": "partial",
   "theorems": [
    "local_shifts_chunks_irrelevant_partial",
    "local_shifts_lines_chunks_irrelevant_partial",
    "local_shifts_every_chunk_size_refuted",
    "local_shifts_lines_normalised"
   ],
   "note": "The maps do not depend on chunk_size where they are computed (dim=2: any norm/norm_global for stacks; dim=1: norm=False, or norm=True with one chunk). Refuted: 'works for every chunk_size': if the number of pieces exceeds the usable rows an empty chunk raises IndexError. Not covered: chunked dim=1 with norm=True and GPU single images with norm=True (normalised per chunk, so chunk dependent)."
  },
  {
   "property": "C63",
   "status": "partial",
   "theorems": [
    "global_shift_of_listed_points_partial",
    "global_shift_of_single_point_partial",
    "global_shift_accepts_every_fitting_point_refuted",
    "global_shift_random_points_fit",
    "global_shift_malformed_arguments_rejected"
   ],
   "note": "Every point used has its windows inside the image (CPU and GPU, listed, single or random points). Refuted: a point whose window touches the first row or column fits but is rejected (strict comparison), listed points outside are silently dropped. Real-number arithmetic (Reals axioms, see DESIGN.md)."
  },
  {
   "property": "C64",
   "status": "partial",
   "theorems": [
    "stripe_artifact_in_its_columns_partial",
    "stripe_position_honoured_refuted",
    "stripe_never_reaches_last_column",
    "stripe_too_wide",
    "stripe_without_effect"
   ],
   "note": "Only the stripe columns change, by exactly the documented amount for all four types, and the argument is not modified; but the requested position is not always used (clip to ncol-size-1: the last column can never carry a stripe), refuted by an example; stripes as wide as the sinogram are rejected (full/partial) or silently not added (dead); partial stripes of strength <= 1/nrow have no effect."
  },
  {
   "property": "C65",
   "status": "partial",
   "theorems": [
    "open_hdf_stream_rejects_child_keys",
    "open_hdf_stream_accepts_unrelated_keys_refuted"
   ],
   "note": "rejection proved; acceptance refuted: the check is a substring test on the text of the key"
  },
  {
   "property": "C66",
   "status": "partial",
   "theorems": [
    "butterworth_window_damps_the_central_rows_partial",
    "butterworth_window_large_v_refuted"
   ],
   "note": "Refuted when v exceeds the centre row: the negative slice start wraps and the window is dropped."
  },
  {
   "property": "C67",
   "status": "proved",
   "theorems": [
    "spiral_positions_stay_in_the_field_of_view"
   ],
   "note": ""
  },
  {
   "property": "C68",
   "status": "partial",
   "theorems": [
    "stitch_image_aligns_the_scene_partial",
    "join_image_aligns_the_scene_partial",
    "stitch_image_fractional_overlap_misaligns_refuted",
    "join_image_fractional_gap_misaligns_refuted",
    "extend_sinogram_fractional_overlap_moves_the_axis_refuted"
   ],
   "note": "Refuted for fractional overlaps: mismatch s (stitch), 3s (join), s/2 (returned centre)."
  },
  {
   "property": "C69",
   "status": "partial",
   "theorems": [
    "overlap_of_mirrored_images",
    "find_center_projection_is_half_a_pixel_low_refuted",
    "find_center_projection_rows_inside"
   ],
   "note": "False of the code: the centre returned is the axis minus 1/2 (overlap/2 - 1.0 instead of overlap/2 - 0.5)."
  },
  {
   "property": "C70",
   "status": "proved",
   "theorems": [
    "mtf_deconvolution_with_flat_window_is_identity",
    "mtf_deconvolution_rejects_small_window"
   ],
   "note": "The Fourier division is a parameter known only to be the identity when dividing by 1."
  },
  {
   "property": "C71",
   "status": "proved",
   "theorems": [
    "center_metric_compares_with_the_mirror_image"
   ],
   "note": "Candidates with a fractional 2c go through the cubic spline shift, which is a parameter."
  },
  {
   "property": "C72",
   "status": "proved",
   "theorems": [
    "inverse_double_wedge_mask_shape"
   ],
   "note": "2 pi is a rational parameter."
  },
  {
   "property": "C73",
   "status": "proved",
   "theorems": [
    "downsample_cor_averages_blocks"
   ],
   "note": ""
  },
  {
   "property": "C74",
   "status": "proved",
   "theorems": [
    "overlap_of_mirrored_images",
    "find_center_360_returns_the_axis_of_the_overlap",
    "find_center_360_recovers_the_axis",
    "find_center_projection_rows_are_the_requested_strip"
   ],
   "note": "Recovery stated for denoise=False, norm=False, an explicit side and a window below half the width."
  },
  {
   "property": "C75",
   "status": "proved",
   "theorems": [
    "phase_correlation_shift_is_the_wrapped_peak",
    "phase_correlation_center_is_the_mirror_axis"
   ],
   "note": "The Fourier part is not modelled: the theorem starts from the correlation map and any position of its maximum."
  },
  {
   "property": "C76",
   "status": "proved",
   "theorems": [
    "stripe_sorting_with_a_neutral_filter_returns_the_input",
    "stripe_filtering_with_a_neutral_filter_returns_the_input",
    "stripe_2d_filtering_sorting_with_a_neutral_filter_returns_the_input",
    "stripe_fitting_with_a_neutral_filter_returns_the_input",
    "stripe_wavelet_fft_with_perfect_reconstruction_returns_the_input",
    "stripe_fft_with_an_all_pass_window_returns_a_nonnegative_input",
    "stripe_fft_with_an_all_pass_window_refuted_for_negative_values"
   ],
   "note": "for negative pixels the FFT method returns the absolute value (last theorem)"
  },
  {
   "property": "C77",
   "status": "proved",
   "theorems": [
    "remove_dead_stripe_only_changes_detected_columns",
    "stripe_interpolation_method_only_changes_detected_columns",
    "detect_stripe_finds_nothing_on_a_straight_profile",
    "detect_stripe_marks_outliers_of_the_fitted_line"
   ],
   "note": ""
  },
  {
   "property": "C78",
   "status": "partial",
   "theorems": [
    "regularization_leaves_constant_profiles_alone",
    "regularization_treats_left_and_right_alike_refuted"
   ],
   "note": "refuted: the coefficient matrix is not symmetric under mirroring for any width >= 2 and alpha > 0 (the -1 sits in the wrong cosh argument)"
  },
  {
   "property": "C79",
   "status": "proved",
   "theorems": [
    "cosine_unwrapping_recovers_the_phase_up_to_its_mean",
    "cosine_unwrapping_depends_on_the_phase_modulo_two_pi_only"
   ],
   "note": "Real arithmetic; dctn and idctn are modelled by their defining sums and proved inverse to each other."
  },
  {
   "property": "C80",
   "status": "partial",
   "theorems": [
    "a_uniformly_attenuated_window_gives_its_transmission_and_no_dark_field",
    "a_uniformly_attenuating_sample_gives_its_transmission_partial",
    "a_displaced_pattern_gives_transmission_one_refuted"
   ],
   "note": "Attenuation without displacement proved; the displacement half is false of the code: the sample window is read at +shift although the shifts found satisfy sam[i,j] = ref[i+y,j+x]."
  },
  {
   "property": "C81",
   "status": "proved",
   "theorems": [
    "aligning_a_pair_makes_the_reference_match_the_sample",
    "aligning_stacks_treats_every_pair_with_its_own_shifts",
    "aligning_stacks_of_different_lengths_is_rejected"
   ],
   "note": "ndi.shift is a parameter that is exact for whole-pixel shifts"
  },
  {
   "property": "C82",
   "status": "partial",
   "theorems": [
    "the_doubled_image_is_mirrored_and_the_crop_returns_the_image",
    "correcting_negative_values_gives_a_non_negative_surface_of_the_same_shape",
    "the_surface_window_treats_both_axes_alike_for_square_images_partial",
    "the_surface_window_treats_both_axes_alike_refuted",
    "the_surface_window_is_the_inverse_squared_frequency"
   ],
   "note": "phase.py:320 divides the vertical frequencies by the width"
  },
  {
   "property": "C83",
   "status": "proved",
   "theorems": [
    "fbp_of_a_stack_is_slice_by_slice"
   ],
   "note": "External functions (np.pad, FFT filter, windows, -log, cos, sin) are parameters with stated shape assumptions; CPU launches without overlapping iterations (see C52); floating-point sinograms (cast is the identity; see C87 for integers)."
  },
  {
   "property": "C84",
   "status": "partial",
   "theorems": [
    "bpf_of_a_stack_is_slice_by_slice_partial",
    "bpf_stack_and_slice_differ_for_a_window_of_another_size_refuted"
   ],
   "note": "Proved when the used window has the size of the padded slice (always so for ramp_win=None). Refuted otherwise: the 2D branch rebuilds the window without the requested filter name."
  },
  {
   "property": "C85",
   "status": "proved",
   "theorems": [
    "fbp_pixel_is_the_filtered_back_projection"
   ],
   "note": "ramp_win=None; exact rationals; the value of apply_ramp_filter is used as the library function it is; CPU launches without overlapping iterations (C52)."
  },
  {
   "property": "C86",
   "status": "proved",
   "theorems": [
    "reconstruction_rejects_a_centre_outside_and_a_wrong_number_of_angles"
   ],
   "note": ""
  },
  {
   "property": "C87",
   "status": "partial",
   "theorems": [
    "fbp_number_of_cores_does_not_matter_partial",
    "fbp_of_an_integer_stack_depends_on_the_number_of_cores_refuted"
   ],
   "note": "False for integer stacks without logarithm: with one core np.zeros_like keeps the integer dtype and the filtered values are truncated. Proved when the logarithm is applied or the dtype holds the filtered values."
  },
  {
   "property": "C88",
   "status": "partial",
   "theorems": [
    "vertical_reconstruction_rejects_wrong_arguments_partial",
    "vertical_reconstruction_accepts_a_stop_beyond_the_data_refuted"
   ],
   "note": "Rejection proved for every listed defect; the full property is false: proj_stop beyond the last projection is accepted and gives a wrongly normalised slice (refuted theorem)."
  },
  {
   "property": "C89",
   "status": "proved",
   "theorems": [
    "find_shift_recovers_displacement"
   ],
   "note": "polyfit and surface fit are parameters (arbitrary). Real-number arithmetic (Reals axioms, see DESIGN.md)."
  },
  {
   "property": "C90",
   "status": "proved",
   "theorems": [
    "find_shift_best_displacement_within_margin",
    "find_shift_best_place_of_smaller_image"
   ],
   "note": "Real-number arithmetic (Reals axioms, see DESIGN.md)."
  },
  {
   "property": "C91",
   "status": "partial",
   "theorems": [
    "find_shift_margin_too_large_reported_partial",
    "find_shift_margin_too_large_reported_refuted"
   ],
   "note": "Refuted for images of equal size: check2 stays True and (0,0) is returned for every content. Different sizes are reported. Real-number arithmetic (Reals axioms, see DESIGN.md)."
  },
  {
   "property": "C92",
   "status": "proved",
   "theorems": [
    "local_shifts_near_best_displacement",
    "local_shifts_recover_local_displacement",
    "local_shifts_of_images_near_best_displacement",
    "local_shifts_lines_near_best_displacement"
   ],
   "note": "Real numbers. Within one pixel for the differential method (PolyFit: within the margin)."
  },
  {
   "property": "C93",
   "status": "partial",
   "theorems": [
    "local_shifts_gpu_equals_cpu_partial",
    "local_shifts_gpu_equals_cpu_refuted",
    "local_shifts_lines_gpu_equals_cpu",
    "local_shifts_hybrid_equals_cpu"
   ],
   "note": "Equal for dim=1, hybrid mode, and dim=2 except where the best displacement is on a side of the search region: the GPU code does not refine these (dead branch), refuted with a concrete image."
  },
  {
   "property": "C94",
   "status": "partial",
   "theorems": [
    "global_value_tolerates_outliers",
    "global_value_between_local_values",
    "global_value_order_of_points_irrelevant",
    "global_value_of_symmetric_values_partial",
    "global_value_of_symmetric_values_refuted"
   ],
   "note": "Refuted part: with global_value='mixed' (the default) and an odd number of at least 7 points the six values averaged are not centred, so symmetric local shifts give a value below their centre. Real-number arithmetic (Reals axioms, see DESIGN.md)."
  },
  {
   "property": "C95",
   "status": "proved",
   "theorems": [
    "global_shift_recovers_displacement",
    "global_shift_random_points_recover_displacement"
   ],
   "note": "method 'poly_fit' on the CPU only with sub_pixel=False. Real-number arithmetic (Reals axioms, see DESIGN.md)."
  },
  {
   "property": "C96",
   "status": "proved",
   "theorems": [
    "xray_image_invertible",
    "xray_image_default_range"
   ],
   "note": ""
  },
  {
   "property": "C97",
   "status": "partial",
   "theorems": [
    "elliptic_mask_is_ellipse",
    "rectangular_mask_is_rectangle",
    "circular_mask_any_angle",
    "triangular_mask_is_triangle_partial"
   ],
   "note": "Ellipse, rectangle and circle exactly; the triangle up to a strip of 0.71 pixels (plus 0.5 percent) along the long sides and near their ends, because the code moves the cutting rectangles by half a pixel per axis. Zero lengths (nan in numpy) excluded."
  },
  {
   "property": "C98",
   "status": "proved",
   "theorems": [
    "simulated_projections_are_sums",
    "simulated_sinogram_rejects"
   ],
   "note": "Discrete Fourier transforms are modelled as exact sums and their inversion is proved; order-5 spline interpolation is a parameter that is exact on pixels."
  },
  {
   "property": "C99",
   "status": "proved",
   "theorems": [
    "opposite_projections_mirror"
   ],
   "note": ""
  }
 ]
}