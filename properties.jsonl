{"id": "C01", "title": "make_file_name returns a fresh name", "statement": "make_file_name(path) always returns, and the returned path does not exist on the file system; if the given path does not exist it is returned unchanged; otherwise the result keeps directory and suffix and inserts _NNNN with the smallest N whose name is free.", "quantifier": "every finite file-system content and every path", "why_tests_cant": "tests use one or two existing files; freshness, minimality and termination must hold for any directory content", "anchors": ["algotom/io/loadersaver.py:make_file_name"]}
{"id": "C02", "title": "overwrite=False never destroys data", "statement": "save_image, save_distortion_coefficient and open_hdf_stream called with overwrite=False leave every file that existed before byte-identical, and the new content is stored at the returned path.", "quantifier": "every file-system content, path, suffix and content", "why_tests_cant": "a test cannot enumerate all directory states in which the generated name might collide", "anchors": ["algotom/io/loadersaver.py:save_image", "algotom/io/loadersaver.py:save_distortion_coefficient", "algotom/io/loadersaver.py:open_hdf_stream"]}
{"id": "C03", "title": "make_folder_name is fresh", "statement": "make_folder_name never returns the name of an existing entry of the directory (it only checks directories: the stronger reading fails for plain files).", "quantifier": "every directory content, prefix and zero padding", "why_tests_cant": "collision depends on arbitrary directory histories (deleted / renumbered folders)", "anchors": ["algotom/io/loadersaver.py:make_folder_name"]}
{"id": "C04", "title": "save_image_multiple into a folder stores every slice", "statement": "After save_image_multiple(folder, stack, axis), slice i of the stack along the axis is found in the file numbered start_idx+i, for every number of workers and every execution order of the workers.", "quantifier": "every stack size, axis, start index, ncore and schedule", "why_tests_cant": "order and file-name collisions appear only for particular sizes and schedules (indices >= 100000 collide)", "anchors": ["algotom/io/loadersaver.py:save_image_multiple"]}
{"id": "C05", "title": "Concurrent overwrite=False saves do not lose images", "statement": "Several save_image(overwrite=False) calls running concurrently each end up in a file of their own.", "quantifier": "every interleaving of the existence check and the write of the concurrent calls", "why_tests_cant": "the race needs a specific interleaving", "anchors": ["algotom/io/loadersaver.py:save_image", "algotom/io/loadersaver.py:make_file_name", "algotom/io/loadersaver.py:save_image_multiple"]}
{"id": "C06", "title": "Distortion coefficients round trip", "statement": "load_distortion_coefficient(save_distortion_coefficient(...)) returns the same centre and the same list of factors, in order, for any number of factors.", "quantifier": "every list of factors and every number printer/parser that round-trips and prints no white space", "why_tests_cant": "the file format must be unambiguous for every list length and printed form", "anchors": ["algotom/io/loadersaver.py:save_distortion_coefficient", "algotom/io/loadersaver.py:load_distortion_coefficient"]}
{"id": "C07", "title": "convert_tif_to_hdf keeps order, content and crop", "statement": "The hdf dataset has shape (number of tifs, h-top-bottom, w-left-right) and its element (i,y,x) is pixel (y+top, x+left) of the i-th tif in sorted order; impossible crops are rejected.", "quantifier": "every stack size and crop", "why_tests_cant": "must hold for every index and crop, including boundaries", "anchors": ["algotom/io/converter.py:convert_tif_to_hdf"]}
{"id": "C08", "title": "extract_tif_from_hdf extracts the requested slices", "statement": "The files written are exactly the cropped slices of the requested index range along the requested axis, under distinct file names, and an integer index extracts exactly that slice.", "quantifier": "every dataset shape, axis, index and crop", "why_tests_cant": "index normalisation has several clamped cases (index=-1 extracts everything)", "anchors": ["algotom/io/converter.py:extract_tif_from_hdf"]}
{"id": "C09", "title": "HdfEmulatorFromTif indexes like the stacked array", "statement": "Indexing the emulator with an integer, a slice or a tuple gives the element numpy would give on the stacked images, including negative indices.", "quantifier": "every index expression and stack", "why_tests_cant": "index algebra over unbounded shapes", "anchors": ["algotom/io/converter.py:HdfEmulatorFromTif"]}
{"id": "C10", "title": "get_reference_sample_stacks_dls accepts only valid projection indices", "statement": "Whenever a projection index is accepted, it is a valid position in the sample-frame list of every dataset used, so no worker reads a wrong frame.", "quantifier": "every list of image-key arrays and every proj_idx", "why_tests_cant": "interaction of start/stop offsets of several scans", "anchors": ["algotom/io/loadersaver.py:get_reference_sample_stacks_dls"]}
{"id": "C100", "title": "Direct Fourier inversion reads every frequency from the right view and inverts exactly", "statement": "The coordinates used by dfi_reconstruction send every pixel of the image's spectrum inside the unit circle to the view (angle) and radius where the Fourier slice theorem puts it, inside the range of the sinogram's spectrum. With perfect interpolation of the spectra of the views, a sinogram of a band-limited image is turned back into exactly that image.", "quantifier": "all odd sizes, numbers of views, pixels, images and sinograms related by the Fourier slice theorem", "why_tests_cant": "a sign error, half-pixel offset or swapped shift in the polar mapping shows up as a slight rotation or blur that a tolerance-based test on one phantom accepts", "anchors": ["algotom/rec/reconstruction.py:generate_mapping_coordinate", "algotom/rec/reconstruction.py:dfi_reconstruction"]}
{"id": "C101", "title": "Direct Fourier inversion of a chunk is slice by slice, square and masked", "statement": "dfi_reconstruction of a 3D chunk returns, for every sinogram in the chunk, the slice it returns for that sinogram alone, of the sinogram's width in both directions; outside the circle given by ratio every pixel is 0; ratio = 0 uses the largest circle around the given centre; a centre outside the sinogram is a ValueError. With the rotation axis in the middle, padding (int(pad_rate * odd width) columns on each side) and apply_log (values that are not positive count as 1) give the middle of the slice reconstructed from a sinogram padded and log-transformed by hand.", "quantifier": "all chunk shapes, centres, angles, padding, ratios and filters", "why_tests_cant": "depends on every shape combination (np.squeeze drops axes of length 1) and every slice index", "anchors": ["algotom/rec/reconstruction.py:dfi_reconstruction"]}
{"id": "C102", "title": "Direct Fourier inversion uses the given angles", "statement": "With uniformly spaced angles over 180 or 360 degrees, in either direction and from any starting angle, dfi_reconstruction gives the slice it gives for the views at 0 .. 180 degrees; a wrong number of angles is a ValueError.", "quantifier": "all numbers of views, start angles that are multiples of the step, directions, parallel-beam sinograms", "why_tests_cant": "tests use one start angle and direction; the failure for decreasing angles depends on the start angle", "anchors": ["algotom/rec/reconstruction.py:dfi_reconstruction"]}
{"id": "C103", "title": "Ellipse fit is exact", "statement": "Given points that lie on an ellipse (at least five different ones, centre, half axes a >= b > 0 and angle arbitrary), fit_points_to_ellipse returns the centre, the full axis lengths 2a and 2b and the angle in degrees; arrays of different lengths raise ValueError.", "quantifier": "all ellipses, all sets of at least five different points on them", "why_tests_cant": "The statement is about every ellipse and point set; tests fit a handful of generated ellipses with many points.", "anchors": ["algotom/util/calibration.py:fit_points_to_ellipse"]}
{"id": "C104", "title": "Tilt and roll from an orbit", "statement": "find_tilt_roll reports tilt 0 and the angle of the line for a straight trajectory, by both methods; for a circular orbit seen under a tilt alpha and a roll theta it reports alpha and theta; arrays of different lengths or an unknown method raise ValueError.", "quantifier": "all trajectories, all tilt and roll angles, all numbers of points", "why_tests_cant": "Ranges over all real angles and orbits.", "anchors": ["algotom/util/calibration.py:find_tilt_roll", "algotom/util/calibration.py:find_tilt_roll_based_linear_fit", "algotom/util/calibration.py:find_tilt_roll_based_ellipse_fit"]}
{"id": "C105", "title": "Dots: binarising, sizes, selection", "statement": "binarize_image marks exactly the pixels above the threshold (the others when these are more than half and inverting is on), before filling holes, and refuses a threshold outside the range of the image; get_dot_size with min/max gives the size of the smallest/largest connected dot; select_dot_based_size keeps exactly the dots whose size is within the ratio of the wanted size.", "quantifier": "all images, thresholds, arrangements of dots, sizes and ratios", "why_tests_cant": "Quantifies over all arrangements of connected components.", "anchors": ["algotom/util/calibration.py:binarize_image", "algotom/util/calibration.py:invert_dot_contrast", "algotom/util/calibration.py:get_dot_size", "algotom/util/calibration.py:select_dot_based_size"]}
{"id": "C106", "title": "Background normalisation and dot distance", "statement": "normalize_background divides by the estimated background and multiplies by its mean, leaves pixels with zero background unchanged and never divides by zero when the mean is positive; calculate_distance of two images that show the same dot moved by (dy, dx) is the length of that displacement, whatever size option is chosen. The Fourier-based version smooths with sigma along the shorter side and ceil(sigma * ratio of the sides) along the longer one.", "quantifier": "all images, backgrounds, displacements and size options", "why_tests_cant": "Quantifies over all images and all displacements.", "anchors": ["algotom/util/calibration.py:normalize_background", "algotom/util/calibration.py:calculate_distance"]}
{"id": "C107", "title": "Listing, searching and displaying the content of an hdf file", "statement": "get_hdf_information lists every dataset of the file once, by its full path with its shape and type, and gives a shape to nothing else; find_hdf_key returns exactly the listed entries whose key contains the pattern; every key listed with a shape can be opened with load_hdf and gives that dataset, a path with no object raises ValueError; get_hdf_tree terminates and its lines, read by name and indentation, are exactly the entries of the file, each once, with the right shapes.", "quantifier": "every hdf file (tree of groups, datasets and dangling links of any depth and size), every pattern, every path, every order of the names in a group", "why_tests_cant": "a test looks at one or two small files; the claim is about all trees, including dangling links, empty groups and deep nesting", "anchors": ["algotom/io/loadersaver.py: get_hdf_information, find_hdf_key, load_hdf, get_hdf_tree"]}
{"id": "C108", "title": "Loading images", "statement": "load_image returns a one-channel image unchanged and a colour image as the average of its channels, with the height and width of the image; an unreadable file raises ValueError. load_image_multiple returns the images in the order of the paths for every number of cores and completion order, and fails if one file cannot be loaded or shapes differ.", "quantifier": "every image size and number of channels, every list of files, every schedule of the workers", "why_tests_cant": "tests load a few large images; the colour axis is guessed from the shape and the result order depends on the scheduler", "anchors": ["algotom/io/loadersaver.py: load_image, load_image_multiple"]}
{"id": "C109", "title": "Stacks of images from several datasets", "statement": "get_image_stack and get_reference_sample_stacks return, for the first num_use paths in order, the image asked for (index, negative from the end, or the average of the dataset), cropped, minus the dark field, divided by flat minus dark (zeros of that replaced by its mean) if a flat field is given; with fix_zero_div the zeros of the result are replaced by its mean. An index outside a dataset, a missing path or key, an empty folder and an impossible crop are errors.", "quantifier": "every list of datasets (folders, 2D and 3D hdf datasets), every index, crop, num_use, flat and dark field", "why_tests_cant": "tests use one or two datasets; the claim ranges over all lists, indices, crops and fields", "anchors": ["algotom/io/loadersaver.py: get_image_stack, get_reference_sample_stacks"]}
{"id": "C11", "title": "get_reference_sample_stacks_dls averages each dataset's own dark/flat frames", "statement": "For dataset i the dark (reference) average is taken over the dark (reference) frames of dataset i.", "quantifier": "every combination of image keys of the datasets", "why_tests_cant": "needs datasets where some have no dark frames", "anchors": ["algotom/io/loadersaver.py:get_reference_sample_stacks_dls", "algotom/io/loadersaver.py:__get_ref_sam_stacks_dls"]}
{"id": "C110", "title": "Polar transformation of slices, ring removal and rotated windows", "statement": "transform_slice_forward reads the slice along circles around its centre at evenly spaced radii and angles; transform_slice_backward reads every pixel back at its own angle and radius, so that the round trip is exact wherever no interpolation is needed; non-square slices and coordinate arrays of another shape are rejected, and precomputed coordinates change nothing. Ring removal is the polar image without stripes transformed back, 0 outside the circle, and leaves a uniform slice alone. transform_1d_window_to_2d turns a symmetric window into a radial one with the window as its middle column.", "quantifier": "every slice size, pixel, angle and radius, every stripe-removal method, every window length and content", "why_tests_cant": "tests check shapes and a standard deviation on one image; the geometry has to hold at every pixel of every size", "anchors": ["algotom/util/utility.py: rectangular_from_polar, polar_from_rectangular, transform_slice_forward, transform_slice_backward, transform_1d_window_to_2d", "algotom/post/postprocessing.py: remove_ring_based_fft, remove_ring_based_wavelet_fft"]}
{"id": "C111", "title": "Phase correlation finds a cyclic displacement exactly", "statement": "find_shift_based_phase_correlation(mat1, mat2) returns the displacement (y, x) when mat1 is mat2 moved cyclically by whole pixels, as the shortest displacement equal to it modulo the image size (half the size counts as positive); with gradient=True this also holds for a feature on a uniform background at least four pixels from the border. find_center_based_phase_correlation then returns the mirror axis of two opposite projections. Images of different shapes are not compared.", "quantifier": "all image sizes, all images with two neighbouring non-zero frequencies in each direction, all whole-pixel displacements, both gradient settings", "why_tests_cant": "The peak of the normalised cross-spectrum must be at the displacement for every image content and every displacement including those beyond half the size; tests use a few random images and tolerances.", "anchors": ["algotom/prep/calculation.py: complex_gradient, find_shift_based_phase_correlation, find_center_based_phase_correlation"]}
{"id": "C112", "title": "The Fresnel filter is a linear low-pass filter with the documented window", "statement": "fresnel_filter returns an image of the same shape (ValueError for a negative padding or a window of another shape); ratio = 0 returns the image, flat images are kept, without logarithm it is linear, with logarithm the result is positive and scales with the image; dim=1 filters every row for itself; without padding a wave with u and v periods over height and width is divided by 1 + ratio((u/height)^2 + (v/width)^2); it commutes with mirroring, turning and transposing the image.", "quantifier": "all image sizes and contents, ratios >= 0, paddings, both dims, with and without logarithm", "why_tests_cant": "Linearity, frequency response and symmetries quantify over all images and sizes (even and odd behave differently); tests compare a few statistics of random images.", "anchors": ["algotom/prep/filtering.py: make_fresnel_window, fresnel_filter"]}
{"id": "C113", "title": "The Fourier-based Gaussian filter smooths without changing brightness or orientation", "statement": "apply_gaussian_filter returns an image of the same shape, is linear for every padding mode, keeps flat images, and commutes with mirroring, turning by half a turn and transposing (with sigma_x/sigma_y and the padding modes exchanged).", "quantifier": "all image sizes and contents, sigmas, paddings and the padding modes edge, mean and reflect", "why_tests_cant": "Holds or fails depending on the parity of the image size and for every image; tests check only that a filtered random image has a smaller spread.", "anchors": ["algotom/util/utility.py: make_2d_gaussian_window, apply_gaussian_filter"]}
{"id": "C114", "title": "UMPA finds the displacement, transmission and contrast of the best least-squares fit", "statement": "find_local_shifts_umpa returns, at every pixel with room for window and margin, a shift less than one pixel from the displacement for which some transmission and contrast fit the sample window best (smallest weighted sum of squares over all images of the stack); transmission and dark signal are those of the least-squares fit at the displacement nearest to the shift. A sample that shows the reference speckles displaced by whole pixels, attenuated and with reduced contrast gets this displacement, transmission and contrast. Shifts are zero in the border; transmission and dark signal are continued into it. The result does not depend on chunk_size, nor (away from the limit of the search) on using the GPU. Stacks of different shapes or without room for the search are rejected.", "quantifier": "all stacks of any number and size of images, all window sizes, margins >= 1, chunk sizes, sub-pixel methods, launch configurations and thread orders, with or without dark signal", "why_tests_cant": "a test compares a few synthetic stacks with a tolerance; optimality over all displacements and real-valued transmissions and contrasts, and independence of chunking and thread order, range over unbounded sets", "anchors": ["algotom/util/correlation.py: find_local_shifts_umpa, __calc_shift_umpa, __get_2d_shift_multi_rows_3d_input_umpa_cpu, __calc_shift_umpa_gpu_kernel, __get_2d_shift_multi_rows_3d_input_umpa_gpu, __accu_correlate, __sum_multiply_no_norm_2d, __inverse_values"]}
{"id": "C115", "title": "SCS surface reconstruction is the periodic least-squares fit", "statement": "reconstruct_surface_from_gradient_SCS_method (no padding, default window) returns the zero-mean surface whose steps to the right and lower neighbours (image continued periodically) fit the given gradients best in total squared error, and only that surface plus a constant fits as well; hence a surface with exactly the given slopes comes back without its mean, a constant added to a gradient changes nothing, the method is linear and treats both axes alike. Padding reconstructs the padded gradients and crops; correct_negative adds one constant and leaves nothing negative; mismatched shapes, windows and a negative pad are rejected.", "quantifier": "every pair of gradient images of every size, window, padding and option", "why_tests_cant": "the minimum is over all surfaces; each result is one sample", "anchors": ["algotom/prep/phase.py:reconstruct_surface_from_gradient_SCS_method", "algotom/prep/phase.py:_make_window_SCS_method"]}
{"id": "C116", "title": "FC surface reconstruction integrates each frequency", "statement": "reconstruct_surface_from_gradient_FC_method integrates each cosine of the mirrored gradients on its own and drops the zero frequency: the surface of any two images is a fixed combination of sines and cosines of their cosine coefficients; a profile along x comes back as its exact antiderivative, and so does one along y; both axes are treated alike; constant gradients give a flat surface; correct_negative and the rejections are as for the SCS method.", "quantifier": "every pair of gradient images of every size", "why_tests_cant": "all images and all sizes, square or not", "anchors": ["algotom/prep/phase.py:reconstruct_surface_from_gradient_FC_method", "algotom/prep/phase.py:_make_window_FC_method", "algotom/prep/phase.py:_double_image"]}
{"id": "C117", "title": "FFT-based phase unwrapping", "statement": "unwrap_phase_based_fft and unwrap_phase_iterative_fft accept every non-empty image and return an image of the same size with mean zero. Whole turns added to any pixels, or one constant added everywhere, do not change the result, with or without a weight map. The opposite, mirrored, upside-down or transposed phase gives the opposite, mirrored, upside-down or transposed result. A smooth phase comes back up to its mean, and the iteration approaches the phase up to a constant and whole turns: each round adds the unwrapping of what is missing and a matching result is kept. Windows of a wrong size are rejected.", "quantifier": "every phase image of every size, every number of iterations, every weight map and window", "why_tests_cant": "all images, all sizes and the limit over the iterations", "anchors": ["algotom/prep/phase.py:unwrap_phase_based_fft", "algotom/prep/phase.py:unwrap_phase_iterative_fft", "algotom/prep/phase.py:_make_window", "algotom/prep/phase.py:_forward_operator", "algotom/prep/phase.py:_backward_operator", "algotom/prep/phase.py:_wrap_to_pi"]}
{"id": "C118", "title": "Quality map and weight mask of a phase image", "statement": "get_quality_map gives a non-negative map of the size of the image whose value at a pixel is the deviation of the wrapped phase steps in the window around that pixel: it depends on this surrounding only, is zero exactly where the steps are steady, ignores whole turns and a constant in the phase, and is mirrored or transposed with the image; even window sizes mean the next odd one; empty images and negative sizes are rejected. get_weight_mask selects the pixels above one threshold: values 0 and 1 only, brighter pixels first, fewer pixels for a larger ratio, independent of the arrangement of the pixels and of brightness and contrast, nothing for a flat image.", "quantifier": "every image, window size and ratio, every resampling function", "why_tests_cant": "all images and all pixel positions; the border behaviour needs every size", "anchors": ["algotom/prep/phase.py:get_quality_map", "algotom/prep/phase.py:get_weight_mask", "algotom/prep/phase.py:_wrap_to_pi"]}
{"id": "C119", "title": "Speckle tracking recovers the displacement of the speckles", "statement": "retrieve_phase_based_speckle_tracking returns the phase alone, or with the shifts (return_shift) and the transmission and dark signals (dark_signal) added, the phase and the shifts being the same whatever else is asked for; the phase is the surface integrated from the returned shifts; the shifts are the local shifts found between the two images or stacks, with the blank border replaced by the mirrored inner lines; if the sample image is the reference displaced by the same whole number of pixels everywhere then every pixel of the shift maps shows this displacement.", "quantifier": "every pair of images or stacks, every dimension, device, window, margin and chunk size, every surface and fitting function", "why_tests_cant": "the border handling depends on the relation of margin and window; recovery is for every speckle pattern and every displacement", "anchors": ["algotom/prep/phase.py:retrieve_phase_based_speckle_tracking", "algotom/util/correlation.py:find_local_shifts"]}
{"id": "C12", "title": "get_tif_stack rejects out-of-range indices", "statement": "An index is accepted exactly when it is valid in Python's sense (-n <= idx < n) and then selects that file.", "quantifier": "every number of files and every integer index", "why_tests_cant": "double negative wrap only for idx < -n", "anchors": ["algotom/io/loadersaver.py:get_tif_stack"]}
{"id": "C120", "title": "Shifts between stacks of images and between sample images", "statement": "find_shift_between_image_stacks gives one shift per pair of images, found from this pair alone, and rejects stacks of different shapes; displaced images yield their displacement. find_shift_between_sample_images gives one shift per image, the first being zero and the others found from the first and the k-th images only; missing shifts are rejected; the result is the displacement of the sample between the sample images, as align_image_stacks needs it, whatever the speckles did.", "quantifier": "every pair of stacks, every displacement within the margin, every choice of points, method and device, every scene that can be recognised", "why_tests_cant": "displacements and scenes are unlimited; the effect only shows when references move differently", "anchors": ["algotom/prep/phase.py:find_shift_between_image_stacks", "algotom/prep/phase.py:find_shift_between_sample_images"]}
{"id": "C121", "title": "Visual centre search by sinograms", "statement": "find_center_visual_sinograms creates a new folder with exactly one tif file per tested centre, named after the centre with two decimals, and changes nothing else; the centres are start, start+step, ... up to and including stop; each image is the sinogram above its copy mirrored about the tested centre.", "quantifier": "every sinogram with two columns or more, every file system, start, stop, step and zoom in their documented ranges", "why_tests_cant": "file systems and ranges are unlimited; the boundary cases (last column, non-multiples of the step) are rarely tried", "anchors": ["algotom/util/utility.py:find_center_visual_sinograms"]}
{"id": "C122", "title": "Visual centre search by slices", "statement": "find_center_visual_slices and find_center_visual_vertical_slices create a new folder with exactly one tif file per tested centre, named after the centre, holding the slice reconstructed with that centre by the chosen method; masking zeroes the columns that cannot be reconstructed; the input is unchanged.", "quantifier": "every sinogram or stack of projections, every method that gives an image, every file system, start, stop, step and zoom", "why_tests_cant": "file systems, ranges and zoom factors are unlimited; coinciding names and half-pixel offsets do not show in small tests", "anchors": ["algotom/rec/reconstruction.py:find_center_visual_slices", "algotom/rec/reconstruction.py:_reconstruct_slice", "algotom/rec/vertrec.py:find_center_visual_vertical_slices"]}
{"id": "C123", "title": "Regularisation filter", "statement": "apply_regularization_filter keeps the shape and filters every line (row, or column for axis=0) independently and linearly; a constant line is unchanged; every line becomes the solution of the regularisation problem (close to the data with weight alpha, little variation), in particular its mean is kept and a mirrored image gives the mirrored result.", "quantifier": "every image with two points per line or more, every alpha > 0, both axes, every line", "why_tests_cant": "all images and weights; tests compare with stored numbers", "anchors": ["algotom/util/utility.py:apply_1d_regularizer", "algotom/util/utility.py:apply_regularization_filter", "algotom/util/utility.py:calculate_regularization_coefficient"]}
{"id": "C124", "title": "Blob mask", "statement": "generate_blob_mask returns a 0/1 mask of the shape of the flat field: a pixel is marked exactly if it, or its left or right neighbour, stands out of the band of values of its row (relative to the smoothed row); it does not depend on the exposure of the flat field, a clean flat field gives an empty mask, two columns at both sides stay free, and the mask can be used with remove_blob and remove_blob_1d on every image of that shape.", "quantifier": "every flat field, ratio and filter size for which the call returns; every image the mask is used on; every exposure factor > 0", "why_tests_cant": "all images; tests use one random image with one blob", "anchors": ["algotom/prep/removal.py:generate_blob_mask", "algotom/prep/removal.py:remove_blob", "algotom/prep/removal.py:remove_blob_1d", "algotom/util/utility.py:detect_stripe"]}
{"id": "C125", "title": "Gridrec reconstruction", "statement": "gridrec_reconstruction hands tomopy the sinogram (after the logarithm) widened to a power of two, by at least pad columns on both sides and about equally, with the axis moved along; it returns the middle of every slice, masked outside the circle, 2D for a sinogram and 3D for a stack (also a stack of one); a stack is reconstructed slice by slice; wrong arguments are refused and a refused call leaves the sinogram unchanged.", "quantifier": "every sinogram or stack of width >= 2, centre, angles, pad, ratio and number of cores; every tomopy that works slice by slice", "why_tests_cant": "all inputs; the function is excluded from the test coverage", "anchors": ["algotom/rec/reconstruction.py:gridrec_reconstruction"]}
{"id": "C126", "title": "Astra reconstruction", "statement": "astra_reconstruction hands astra the sinogram (after the logarithm) widened on both sides and moved so that the axis is in the middle, runs the method asked for (its CPU version on a machine without GPU), and returns the middle of every slice masked outside the circle; a stack is reconstructed slice by slice for every number of cores; unknown methods, a wrong centre or number of angles are refused and leave the sinogram unchanged; the sinogram is never modified.", "quantifier": "every sinogram or stack, centre, angles, pad, ratio, method name, with and without a GPU; every astra algorithm", "why_tests_cant": "all inputs and method names; the function is excluded from the test coverage", "anchors": ["algotom/rec/reconstruction.py:astra_reconstruction", "algotom/rec/reconstruction.py:__astra_recon_single"]}
{"id": "C127", "title": "Double-wedge filter", "statement": "double_wedge_filter returns a sinogram of the same size; it is linear and commutes with half turns and mirroring; a mask of ones or no iteration changes nothing; the average of every column and every sinogram with equal rows are kept; every wave is either kept or removed according to its position relative to the wedge, in the same way for opposite frequencies; a 180-degree sinogram is filtered through its 360-degree completion about the centre; wrong types, masks, pads are refused.", "quantifier": "every sinogram, centre, number of iterations, mask, ratio and pad", "why_tests_cant": "all inputs and frequencies", "anchors": ["algotom/prep/filtering.py:make_double_wedge_mask", "algotom/prep/filtering.py:double_wedge_filter"]}
{"id": "C128", "title": "Correlation metric and the overlap search with it", "statement": "correlation_metric lies between 0 and 2, does not depend on the order of the images nor on their brightness and contrast, and is 0 exactly when one image is a copy of the other up to a positive contrast and a brightness. find_overlap therefore does not depend on the brightness of the two images, and recovers to half a pixel the overlap of two images of which one is a copy with another brightness (with norm: with another contrast per row) wherever no other window looks the same.", "quantifier": "all images that vary, contrasts > 0 and brightnesses, both sides, with and without use_overlap, every order of the parallel search", "why_tests_cant": "all images and all orders", "anchors": ["algotom/prep/calculation.py:correlation_metric", "algotom/prep/calculation.py:search_overlap", "algotom/prep/calculation.py:find_overlap", "algotom/prep/calculation.py:calculate_curvature"]}
{"id": "C129", "title": "FFT and wavelet-FFT stripe filters only remove stripes", "statement": "remove_stripe_based_fft keeps the size of the sinogram, smooths what is constant along the angular direction (stripes) with the Butterworth low-pass of width u and order n, and keeps everything else: rows without horizontal change and fast vertical changes are returned as they were; it scales with the sinogram and commutes with half turns. remove_stripe_based_wavelet_fft changes nothing but the vertical details of the wavelet decomposition, from which the stripes (column totals) are removed; the number of levels is clipped so that at least 16 pixels are left.", "quantifier": "all sinograms of any size, all u, n, v, level, size and both windows, all wavelet transforms", "why_tests_cant": "the result depends on the parity of every padded size and on every frequency; tests look at one sinogram of an even size and only check that a norm changes", "anchors": ["algotom/prep/removal.py:remove_stripe_based_fft", "algotom/prep/removal.py:remove_stripe_based_wavelet_fft", "algotom/util/utility.py:make_2d_butterworth_window", "algotom/util/utility.py:make_2d_damping_window", "algotom/util/utility.py:apply_wavelet_decomposition"]}
{"id": "C13", "title": "A stack of flat/dark images is averaged; a single image is used as is", "statement": "The reference-loading functions use a 2D flat (dark) field unchanged when it has the projection's shape, and average a 3D stack along axis 0.", "quantifier": "every shape of flat/dark field", "why_tests_cant": "depends on the coincidence of a dimension being 3", "anchors": ["algotom/io/loadersaver.py:__check_dark_flat_field"]}
{"id": "C130", "title": "The face phantom is a symmetric picture inside its head", "statement": "make_face_phantom(size) returns a size x size array that is the same on both sides of the column size // 2, has grey values between 0 and 1 and is zero outside the ellipse of the head (for every size from 16).", "quantifier": "all sizes and all pixels", "why_tests_cant": "the parts are placed with rotated masks at fractional positions; whether they overlap or leave the head depends on the size, tests look at one size", "anchors": ["algotom/util/simulation.py:make_face_phantom", "algotom/util/simulation.py:make_elliptic_mask", "algotom/util/simulation.py:make_rectangular_mask"]}
{"id": "C131", "title": "Simulated noise and background fluctuation have the strength asked for", "statement": "add_noise adds to every pixel a number drawn around zero whose size is noise_ratio times the average of the non-zero pixels, independent of the pixel, and scales with the image; an image whose average is negative is refused. add_background_fluctuation multiplies every row with a Gaussian beam profile of its own: factors between 0 and 1, a shift of at most strength_ratio / 4 of the width; strength 0 leaves the sinogram as it was.", "quantifier": "all images, all draws of the random generator, all strengths", "why_tests_cant": "the functions draw random numbers, so tests can only look at one draw; the claims hold for every draw", "anchors": ["algotom/util/simulation.py:add_noise", "algotom/util/simulation.py:add_background_fluctuation"]}
{"id": "C132", "title": "The line target is a resolution pattern", "statement": "make_line_target(size) returns a size x size array with the values 0 and 1 only: a bright disc with three dark bars of every width 1, 2, ..., n on both sides of the centre, in the horizontal and in the vertical direction, where n is the largest width that fits; all bars lie inside the disc and no two of them overlap.", "quantifier": "all sizes and all pixels", "why_tests_cant": "the bars are placed by two loops whose positions depend on each other; tests look at one or two sizes, while the crossing of the bars only appears from size 1616", "anchors": ["algotom/util/simulation.py:make_line_target", "algotom/util/simulation.py:make_elliptic_mask", "algotom/util/simulation.py:make_rectangular_mask"]}
{"id": "C133", "title": "Sample detection depends on the sample only", "statement": "detect_sample(sinogram, sino_type) answers for '180' and '360' and refuses other types; the answer does not change when the scan starts at another angle, when a 180-degree scan is seen from the other side, when the grey values are scaled by any non-zero factor, when every projection gets its own brightness or when every detector column gets its own offset (stripes); a sinogram that consists of brightness changes and stripes only is never reported as a sample, and there are sinograms of every accepted size in which a sample is found.", "quantifier": "all sinograms, sizes, factors, brightness profiles, stripes, starting angles", "why_tests_cant": "the answer goes through a Fourier transform, a Gaussian filter and positions of maxima, so tests on a few phantoms say nothing about invariance", "anchors": ["algotom/util/utility.py:detect_sample"]}
{"id": "C134", "title": "Combined stripe removal restores striped columns", "statement": "With its default median filters, the sorting method gives every pixel a value bracketed by the pixels of the same rank in the majority of the neighbouring columns and never reverses the order of two pixels of a column; so columns whose response is any increasing function of the true value (a minority in each window) get the true values back, up to the factor by which neighbouring columns differ. Removal of large stripes undoes multiplicative gains whatever the detection marks. remove_all_stripe (dead, large, sorting) keeps the shape, restores such a scene up to the cube of that factor, commutes with scaling of the data by a positive factor (same refusals) and refuses noise-free data with ValueError.", "quantifier": "all positive sinograms, sizes, windows, responses of striped columns, scale factors, sorting procedures", "why_tests_cant": "the guarantee is over all sinograms and all responses, ties and mirrored borders included; a test only sees one phantom", "anchors": ["algotom/prep/removal.py:remove_all_stripe", "algotom/prep/removal.py:remove_dead_stripe", "algotom/prep/removal.py:remove_large_stripe", "algotom/prep/removal.py:remove_stripe_based_sorting", "algotom/util/utility.py:detect_stripe"]}
{"id": "C135", "title": "MTF deconvolution restores an image blurred by the optics", "statement": "If an image was blurred by a point spread function that is the same from both sides and the window given to mtf_deconvolution is the transfer function of it (frequency 0 in the middle, no zeros), the result is the sharp image, whatever the padding; a constant image is divided by the value of the window in the middle.", "quantifier": "all images, point spread functions, window sizes and paddings", "why_tests_cant": "the statement is about every image and every blur; a test compares one blurred phantom with a tolerance", "anchors": ["algotom/prep/correction.py:mtf_deconvolution"]}
{"id": "C136", "title": "A rejected or interrupted save leaves existing files alone", "statement": "If save_image, save_distortion_coefficient or open_hdf_stream raises, every file that existed before the call is still there with its content. If the process is killed at any moment inside such a call, no file other than the one asked to be overwritten is lost or changed, and with overwrite=False no file at all; a file that was cut short is noticed when it is loaded.", "quantifier": "all file systems, paths, contents, options, failing calls and crash points (every step between two file operations, every half-written content)", "why_tests_cant": "a test sees calls that run to their end; the claim is about every point where a call can stop", "anchors": ["algotom/io/loadersaver.py:save_image", "algotom/io/loadersaver.py:save_distortion_coefficient", "algotom/io/loadersaver.py:open_hdf_stream", "algotom/io/loadersaver.py:make_folder", "algotom/io/loadersaver.py:load_distortion_coefficient"]}
{"id": "C137", "title": "find_file gives exactly the matching entries in order, and a saved stack comes back in its order", "statement": "find_file raises FileNotFoundError exactly when no entry of the folder fits the pattern; otherwise it returns each entry that fits, once, in ascending order of the names. Searching a folder after a stack was saved into it gives the slices of the stack in their order, whatever the order in which the worker threads finished.", "quantifier": "all file systems, folders, patterns made of characters, *, ? and sets [...] or [!...], stacks, axes, start indices and thread schedules", "why_tests_cant": "a test checks a few names; the claim covers every pattern, every set of names and every schedule", "anchors": ["algotom/io/loadersaver.py:find_file", "algotom/io/loadersaver.py:save_image_multiple"]}
{"id": "C138", "title": "The slice metrics of the centre searches measure what they are called", "statement": "The entropy metric is the entropy of the grey-level histogram smoothed over seven levels; together with the normalisation it does not depend on brightness and contrast of the slice, and slices with a single grey level score lowest. The sharpness metric is the mean gradient magnitude: 0 exactly for blank slices, proportional to the contrast, and the search with it returns the sharpest slice. The autocorrelation metric is the mean energy of the rows.", "quantifier": "all slices of all sizes, grey levels, contrasts and brightnesses, search ranges and schedules", "why_tests_cant": "tests look at the centre found in one sinogram; what the metric prefers must be known for every slice", "anchors": ["algotom/rec/reconstruction.py:find_center_based_slice_metric", "algotom/rec/vertrec.py:find_center_vertical_slice"]}
{"id": "C139", "title": "The automatic threshold follows the brightness levels of the image", "statement": "calculate_threshold returns an end value of a least-squares cubic through the sorted and resampled pixels: it follows every change of brightness and contrast (for a negative, the bright and the dark background change places), depends on the values of the pixels and not on their places, is the grey level of a uniform image, refuses images smaller than six by six pixels, and lies between the smallest and the largest pixel, so that binarize_image without a threshold separates two levels.", "quantifier": "all images of all sizes, brightnesses, contrasts, arrangements of the pixels, both backgrounds, and every resampling that keeps brightness, contrast, direction and lists of the right length", "why_tests_cant": "tests look at one threshold; how it moves with the brightness, and whether it leaves the range of the pixels, must be known for every image", "anchors": ["algotom/util/calibration.py:calculate_threshold", "algotom/util/calibration.py:binarize_image"]}
{"id": "C14", "title": "Image-stack loading never divides by zero", "statement": "After zero replacement the flat-minus-dark denominator used by the stack loaders contains no zero.", "quantifier": "every flat and dark field", "why_tests_cant": "needs flat-dark of zero mean", "anchors": ["algotom/io/loadersaver.py:get_tif_stack", "algotom/io/loadersaver.py:get_image_stack", "algotom/io/loadersaver.py:get_reference_sample_stacks"]}
{"id": "C140", "title": "Helical slice indices and angles cover the scan exactly", "statement": "The largest index that calculate_maximum_index returns is that of the last slice not above the reconstructable heights; every index accepted by generate_sinogram_helical_scan belongs to a slice within the reconstructable heights; with the default angles the sinogram covers exactly a half turn (scan type 180) or a full turn (360) in equal steps, opposite rows of a full turn half a turn apart.", "quantifier": "all scan ranges, pitches, pixel sizes, numbers of projections, indices, crops and projections", "why_tests_cant": "an index or an angle off by one shows only at the ends of the range and depends on real-valued geometry", "anchors": ["algotom/prep/calculation.py:calculate_maximum_index", "algotom/prep/calculation.py:calculate_reconstructable_height", "algotom/prep/conversion.py:generate_sinogram_helical_scan"]}
{"id": "C15", "title": "parallel_process_slices equals the sequential slice-by-slice loop", "statement": "The result equals applying the method to each slice along the axis and putting results back on the same axis, for any number of workers and any completion order; processing by the identity returns the data.", "quantifier": "every 3D array, axis, method, ncore and schedule", "why_tests_cant": "schedules and sizes are unbounded", "anchors": ["algotom/util/utility.py:parallel_process_slices"]}
{"id": "C16", "title": "sort_backward inverts sort_forward", "statement": "sort_forward sorts each column (row for axis=1) and returns a permutation of the indices; sort_backward with that index restores the original positions, also after the sorted image has been modified; hence sorting-based stripe removal with a filter that changes nothing returns the input.", "quantifier": "every image, axis and every (possibly unstable) argsort", "why_tests_cant": "ties and unbounded sizes", "anchors": ["algotom/util/utility.py:sort_forward", "algotom/util/utility.py:sort_backward", "algotom/prep/removal.py:remove_stripe_based_sorting"]}
{"id": "C17", "title": "Circle mask is the disk of the given ratio", "statement": "make_circle_mask(width, ratio) is 1 exactly at pixels whose integer distance to pixel width//2 is at most ratio*(width//2), 0 elsewhere.", "quantifier": "every width and ratio", "why_tests_cant": "boundary pixels for every width parity", "anchors": ["algotom/util/utility.py:make_circle_mask"]}
{"id": "C18", "title": "Stripe interpolation only touches masked columns", "statement": "interpolate_inside_stripe leaves every unmasked column and the two first and last columns unchanged, replaces every other masked column by the linear interpolation of its nearest unmasked neighbours, never modifies its arguments and rejects masks of the wrong length.", "quantifier": "every image and mask", "why_tests_cant": "arbitrary mask patterns", "anchors": ["algotom/util/utility.py:interpolate_inside_stripe"]}
{"id": "C19", "title": "locate_slice covers the stack and blends with weights summing to one", "statement": "For a grid scan every slice index inside the scanned height is found in one or two rows at a valid row index showing that height; two hits get complementary weights in [0,1].", "quantifier": "every number of rows, row height and overlap list", "why_tests_cant": "all combinations of overlaps and sides", "anchors": ["algotom/util/utility.py:locate_slice"]}
{"id": "C20", "title": "locate_slice_chunk agrees with locate_slice", "statement": "Each slice of the chunk gets the same (row, position, weight) triples as locate_slice gives for the single slice.", "quantifier": "every chunk, height, overlaps, side", "why_tests_cant": "middle rows with unequal overlaps", "anchors": ["algotom/util/utility.py:locate_slice_chunk"]}
{"id": "C21", "title": "fix_non_sample_areas only fills empty cells from neighbours", "statement": "Cells with a nonzero overlap are returned unchanged; the input is not modified; every filled value is a pair copied from an original non-empty cell; a grid with all cells filled is a fixed point.", "quantifier": "every grid and direction", "why_tests_cant": "two in-place scan passes with order-dependent propagation", "anchors": ["algotom/util/utility.py:fix_non_sample_areas"]}
{"id": "C22", "title": "Frequency separation is lossless", "statement": "separate_frequency_component returns two images that add up to the input, whatever the window and FFT do, and rejects a window of the wrong length.", "quantifier": "every image, window and linear filter", "why_tests_cant": "must hold for every window", "anchors": ["algotom/util/utility.py:separate_frequency_component"]}
{"id": "C23", "title": "Wavelet level arguments are validated", "statement": "check_level returns only levels in [1, n] and rejects everything else; ignore_level zeroes exactly the requested detail level counted from the finest.", "quantifier": "every level argument and decomposition depth", "why_tests_cant": "boundary values of level", "anchors": ["algotom/util/utility.py:check_level", "algotom/util/utility.py:apply_wavelet_reconstruction"]}
{"id": "C24", "title": "flat_field_correction is exact and never divides by zero", "statement": "Every denominator used is nonzero; a pixel equal to the (scaled) flat becomes 1 and a pixel equal to dark becomes 0 wherever flat differs from dark; pixels with nonzero denominators follow (proj-dark)/(ratio*flat-dark); the caller's arrays are untouched.", "quantifier": "every projection, flat, dark and ratio", "why_tests_cant": "zero denominators and zero mean corner cases", "anchors": ["algotom/prep/correction.py:flat_field_correction"]}
{"id": "C25", "title": "stitch_image reproduces its inputs and blends linearly", "statement": "Stitched width is ncol1+ncol2-overlap; outside the overlap pixels are copied from the owning image; inside, the two linear ramps sum to 1 so equal inputs are reproduced and results stay between the inputs; both sides are mirror images; images of different height are rejected.", "quantifier": "every pair of images, overlap 1<=ov<=min width, side", "why_tests_cant": "unbounded widths and values", "anchors": ["algotom/prep/conversion.py:make_weight_matrix", "algotom/prep/conversion.py:stitch_image"]}
{"id": "C26", "title": "stitch_image_multiple honours its norm argument", "statement": "stitch_image_multiple(norm=False) stitches without normalisation; its result is the left fold of stitch_image with the same norm.", "quantifier": "every list of images and norm flag", "why_tests_cant": "positional argument mix-up is only visible for norm=False and unequal intensities", "anchors": ["algotom/prep/conversion.py:stitch_image_multiple"]}
{"id": "C27", "title": "join_image keeps data outside the joint and interpolates inside", "statement": "Joined width is ncol1+ncol2+gap; all pixels outside [ncol1-2, ncol1+gap+3) are copied; inside, values are the linear interpolation between the two bounding columns.", "quantifier": "every pair of images, gap and side", "why_tests_cant": "unbounded widths and values", "anchors": ["algotom/prep/conversion.py:join_image"]}
{"id": "C28", "title": "convert_sinogram_360_to_180 is consistent with find_center_360", "statement": "For a centre computed from (overlap, side), passing the centre or the tuple gives the same stitched sinogram; the output has nrow//2+1 rows, 2*ncol-overlap columns and its returned centre is the middle of the stitched axis.", "quantifier": "every sinogram size and centre of rotation", "why_tests_cant": "every parity of sizes and half-integer centres", "anchors": ["algotom/prep/conversion.py:convert_sinogram_360_to_180", "algotom/prep/calculation.py:find_center_360"]}
{"id": "C29", "title": "extend_sinogram doubles the field of view", "statement": "The extended sinogram has 2*ncol-overlap columns; columns outside the overlap are twice the data; weights of opposite angles sum to one so that flipping gives a complete projection; padded columns repeat the border.", "quantifier": "every sinogram and overlap", "why_tests_cant": "unbounded sizes", "anchors": ["algotom/prep/conversion.py:extend_sinogram"]}
{"id": "C30", "title": "convert_sinogram_180_to_360 doubles the angular range", "statement": "The result has 2*nrow-1 rows, starts with the input and continues with the mirrored rows 1..nrow-1 about the centre (exact for integer shifts of the mirrored image).", "quantifier": "every sinogram and centre", "why_tests_cant": "unbounded sizes", "anchors": ["algotom/prep/conversion.py:convert_sinogram_180_to_360"]}
{"id": "C31", "title": "Helical sinograms interpolate between the two detector rows", "statement": "Every row of a helical sinogram returned without error is the convex combination of two adjacent detector rows that lie inside the crop, weights summing to one, and the angle list has one angle per row.", "quantifier": "every index, pitch, pixel size, crop and number of projections", "why_tests_cant": "geometry-dependent index ranges", "anchors": ["algotom/prep/conversion.py:generate_sinogram_helical_scan", "algotom/prep/conversion.py:generate_full_sinogram_helical_scan", "algotom/prep/calculation.py:calculate_maximum_index"]}
{"id": "C32", "title": "Unwarping with the identity model is the identity", "statement": "With list_fact=[1] unwarp_projection, unwarp_sinogram and unwarp_sinogram_chunk return the original data.", "quantifier": "every image size, centre and index", "why_tests_cant": "must hold for every size and chunk boundary", "anchors": ["algotom/prep/correction.py:unwarp_projection", "algotom/prep/correction.py:unwarp_sinogram", "algotom/prep/correction.py:unwarp_sinogram_chunk"]}
{"id": "C33", "title": "The loaded row window contains every sampled row", "statement": "The rows [yd_min, yd_max) loaded from the data contain every row needed to interpolate the requested (unwarped or tilted) sinogram.", "quantifier": "every distortion model, centre, tilt and row range", "why_tests_cant": "window boundary errors appear only at particular sub-pixel positions", "anchors": ["algotom/prep/correction.py:unwarp_sinogram", "algotom/prep/correction.py:unwarp_sinogram_chunk", "algotom/prep/correction.py:generate_tilted_sinogram", "algotom/prep/correction.py:generate_tilted_sinogram_chunk", "algotom/prep/correction.py:generate_tilted_profile_chunk"]}
{"id": "C34", "title": "Beam hardening correction keeps the grey-scale range", "statement": "For q>0 and n>=2 the correction fixes 0 and 1, is monotone on [0,1] and maps [0,1] into [0,1].", "quantifier": "every q, n and intensity", "why_tests_cant": "real-valued quantification", "anchors": ["algotom/prep/correction.py:non_linear_function", "algotom/prep/correction.py:beam_hardening_correction"]}
{"id": "C35", "title": "Centre searches return the best candidate", "statement": "coarse_search_cor / fine_search_cor return a candidate inside the clipped search range whose metric is minimal among all candidates, independent of ncore and schedule.", "quantifier": "every metric function, range and schedule", "why_tests_cant": "metric is arbitrary; ranges unbounded", "anchors": ["algotom/prep/calculation.py:coarse_search_cor", "algotom/prep/calculation.py:fine_search_cor"]}
{"id": "C36", "title": "find_overlap honours denoise and norm", "statement": "find_overlap(side=None) evaluates both sides with the denoise and norm flags given by the caller.", "quantifier": "every combination of flags and side", "why_tests_cant": "flags are swapped only on one code path", "anchors": ["algotom/prep/calculation.py:find_overlap", "algotom/prep/calculation.py:search_overlap"]}
{"id": "C37", "title": "find_overlap stays inside the images", "statement": "The search windows lie inside the images and the returned overlap position is within one pixel of a minimum of the metric.", "quantifier": "every image size, window width and metric", "why_tests_cant": "index arithmetic for all sizes", "anchors": ["algotom/prep/calculation.py:search_overlap", "algotom/prep/calculation.py:calculate_curvature", "algotom/prep/calculation.py:find_overlap"]}
{"id": "C38", "title": "remove_zinger changes only outliers", "statement": "A pixel is unchanged unless it exceeds its neighbourhood average by more than the threshold, in which case it becomes the average; the caller's image is not modified.", "quantifier": "every image, threshold and size>=1", "why_tests_cant": "unbounded images", "anchors": ["algotom/prep/removal.py:remove_zinger"]}
{"id": "C39", "title": "remove_blob only changes masked pixels and leaves its inputs alone", "statement": "remove_blob returns an image differing from the input only at masked pixels that are not in the two first/last columns, and does not modify mat or mask.", "quantifier": "every image and mask", "why_tests_cant": "aliasing of the mask argument", "anchors": ["algotom/prep/removal.py:remove_blob"]}
{"id": "C40", "title": "remove_blob_1d works for every mask", "statement": "remove_blob_1d interpolates every masked pixel (except the two at each end) and never raises for masks touching the ends.", "quantifier": "every mask", "why_tests_cant": "specific mask patterns at the border", "anchors": ["algotom/prep/removal.py:remove_blob_1d"]}
{"id": "C41", "title": "Chunked stripe normalisation covers each row once", "statement": "For 1<=num_chunk<=nrow each row is normalised exactly once with its chunk's correction, and the mean profile of each chunk becomes the filtered profile.", "quantifier": "every image, chunk number and filter", "why_tests_cant": "partition of rows for all sizes", "anchors": ["algotom/prep/removal.py:remove_stripe_based_normalization", "algotom/prep/removal.py:remove_stripe_based_regularization"]}
{"id": "C42", "title": "remove_large_stripe with norm=False only changes detected stripes", "statement": "Columns outside the dilated stripe mask are returned unchanged; columns inside are the back-sorted smoothed columns.", "quantifier": "every sinogram, filter and mask", "why_tests_cant": "arbitrary mask", "anchors": ["algotom/prep/removal.py:remove_large_stripe"]}
{"id": "C43", "title": "upsample_sinogram geometry", "statement": "upsample_sinogram multiplies the angular sampling by the given scale.", "quantifier": "every even scale and sinogram height", "why_tests_cant": "only scale=2 is tested; the number of doublings is scale/2 not log2(scale)", "anchors": ["algotom/prep/correction.py:upsample_sinogram"]}
{"id": "C44", "title": "Phase wrapping", "statement": "Wrapping maps every phase into [-pi, pi), differs from it by a multiple of 2 pi and is idempotent.", "quantifier": "every real phase", "why_tests_cant": "real-valued quantification", "anchors": ["algotom/prep/phase.py:_wrap_to_pi"]}
{"id": "C45", "title": "Chunked dark-field retrieval equals the sequential one", "statement": "The chunk/halo decomposition used by get_transmission_dark_field_signal gives the same image for every ncore.", "quantifier": "every image height, window and ncore", "why_tests_cant": "chunk boundary errors", "anchors": ["algotom/prep/phase.py:get_transmission_dark_field_signal"]}
{"id": "C46", "title": "Dataset statistics are what they are called", "statement": "get_statistical_information_dataset returns the global min/max over visited slices, the mean of slice means as 'mean' and the median of slice medians as 'median'; any number of slices >=1 is accepted.", "quantifier": "every dataset, skip and crop", "why_tests_cant": "column mix-up invisible on symmetric data", "anchors": ["algotom/post/postprocessing.py:get_statistical_information_dataset"]}
{"id": "C47", "title": "Downsampling aggregates disjoint cells", "statement": "downsample / downsample_dataset output has floor(shape/cell) elements, element (i,j) is the mean (min, max) over exactly the cell's pixels, so a constant stays constant and results stay within the range of the cell.", "quantifier": "every image, cell size and method", "why_tests_cant": "unbounded shapes and remainders", "anchors": ["algotom/post/postprocessing.py:downsample", "algotom/post/postprocessing.py:downsample_dataset", "algotom/prep/calculation.py:downsample_cor"]}
{"id": "C48", "title": "rescale is monotone and in range", "statement": "rescale maps gmin to 0, gmax to 2^nbit-1, is monotone, clips values outside, stays within the integer range and rejects other bit depths.", "quantifier": "every image, nbit and gmin<gmax", "why_tests_cant": "real-valued quantification; equal min and max divide by zero", "anchors": ["algotom/post/postprocessing.py:rescale"]}
{"id": "C49", "title": "reslice_dataset is an exact transposition of the cropped volume", "statement": "Output slice j, row i, column k equals the cropped input element, independent of the chunk size, for both input types.", "quantifier": "every volume, crop, axis, chunk size", "why_tests_cant": "chunk remainders and depth crops; hdf input ignores the depth crop", "anchors": ["algotom/post/postprocessing.py:reslice_dataset", "algotom/post/postprocessing.py:__save_intermediate_data"]}
{"id": "C50", "title": "rescale_dataset(overwrite=True) writes to the requested file", "statement": "With overwrite=True the hdf output is stored at the requested path.", "quantifier": "every file-system state", "why_tests_cant": "only visible if the file exists", "anchors": ["algotom/post/postprocessing.py:rescale_dataset"]}
{"id": "C51", "title": "reslice_dataset does not delete unrelated data", "statement": "reslice_dataset leaves all files other than the requested output untouched.", "quantifier": "every file-system state", "why_tests_cant": "only visible if a folder with the output's base name exists", "anchors": ["algotom/post/postprocessing.py:reslice_dataset"]}
{"id": "C52", "title": "CPU back-projection does not depend on the thread schedule", "statement": "back_projection_cpu returns the sum over projection angles for every schedule of its parallel loop.", "quantifier": "every interleaving of the parallel loop iterations", "why_tests_cant": "a race needs a specific interleaving", "anchors": ["algotom/rec/reconstruction.py:back_projection_cpu"]}
{"id": "C53", "title": "Parallel back-projection kernels equal the sequential definition", "statement": "GPU and vertical-slice kernels give for each pixel the sum over angles of the linearly interpolated sinogram value for every schedule; all detector reads are in bounds; CPU and GPU versions agree.", "quantifier": "every image size, centre, angle set, grid and schedule", "why_tests_cant": "schedules and geometry unbounded", "anchors": ["algotom/rec/reconstruction.py:__back_projection_gpu_kernel", "algotom/rec/reconstruction.py:__back_projection_gpu_chunk_kernel", "algotom/rec/vertrec.py:vertical_back_projection_cpu", "algotom/rec/vertrec.py:vertical_back_projection_cpu_chunk", "algotom/rec/vertrec.py:__vertical_back_projection_gpu_kernel"]}
{"id": "C54", "title": "Reconstruction functions do not modify the input sinogram", "statement": "fbp_reconstruction, bpf_reconstruction, gridrec and astra wrappers and vertical_reconstruction leave the caller's data unchanged.", "quantifier": "every input and option", "why_tests_cant": "only visible for non-positive values with apply_log", "anchors": ["algotom/rec/reconstruction.py:fbp_reconstruction", "algotom/rec/reconstruction.py:bpf_reconstruction", "algotom/rec/vertrec.py:vertical_reconstruction"]}
{"id": "C55", "title": "Slice-metric centre finding picks the optimum", "statement": "The centre found by metric is a candidate with minimal (or maximal when inverted) metric and lies inside the searched range.", "quantifier": "every metric and range", "why_tests_cant": "arbitrary metric functions", "anchors": ["algotom/rec/reconstruction.py:find_center_based_slice_metric"]}
{"id": "C56", "title": "Vertical reconstruction does not depend on chunk_size", "statement": "The result equals the one computed from all projections at once, every projection used exactly once with its own angle, for any chunk size, and projection ranges.", "quantifier": "every number of projections, chunk_size, proj_start/stop", "why_tests_cant": "chunk remainders", "anchors": ["algotom/rec/vertrec.py:vertical_reconstruction", "algotom/rec/vertrec.py:vertical_reconstruction_multiple", "algotom/rec/vertrec.py:vertical_reconstruction_different_angles"]}
{"id": "C57", "title": "Vertical slices lie on the requested line", "statement": "All points generated for slice index s and angle alpha satisfy x sin(alpha) - y cos(alpha) = s - centre, are equally spaced by 1 and ordered along the line, for every angle in [0,180].", "quantifier": "every alpha, width, index", "why_tests_cant": "real-valued quantification; dead degree/radian comparisons", "anchors": ["algotom/rec/vertrec.py:_get_points_single_line"]}
{"id": "C58", "title": "Vertical centre search ignores the non-reconstructable region", "statement": "find_center_vertical_slice masks every pixel not reconstructable for all tested centres and returns a candidate of optimal metric.", "quantifier": "every range of centres", "why_tests_cant": "mask radius uses min twice", "anchors": ["algotom/rec/vertrec.py:find_center_vertical_slice"]}
{"id": "C59", "title": "Correlation coefficients are bounded", "statement": "All correlation-map values are in [-1,1]; identical windows give 1; the map is invariant to affine intensity changes with positive slope.", "quantifier": "every pair of images", "why_tests_cant": "Cauchy-Schwarz for every size", "anchors": ["algotom/util/correlation.py:generate_correlation_map"]}
{"id": "C60", "title": "GPU and CPU correlation maps agree", "statement": "The GPU kernels compute the same (real-number) correlation map as the CPU code for every block/grid size, each entry written by exactly one thread.", "quantifier": "every image size and block size", "why_tests_cant": "grid arithmetic and algebraic re-arrangement", "anchors": ["algotom/util/correlation.py:_generate_correlation_map_2d_input_gpu", "algotom/util/correlation.py:_generate_correlation_map_2d_input_cpu"]}
{"id": "C61", "title": "Sub-pixel peak stays near the discrete peak", "statement": "locate_peak returns a position within one pixel (half for 1D differences) of the maximum, inside the map.", "quantifier": "every map", "why_tests_cant": "arbitrary data", "anchors": ["algotom/util/correlation.py:locate_peak", "algotom/util/correlation.py:_locate_1d_peak_subpixel", "algotom/util/correlation.py:_locate_2d_peak_subpixel", "algotom/util/correlation.py:__locate_1d_peak_kernel"]}
{"id": "C62", "title": "Chunked local-shift maps equal the unchunked map", "statement": "find_local_shifts gives the same map for every chunk_size (without per-chunk normalisation), all window reads in bounds, and works for every chunk_size.", "quantifier": "every image size, window, margin and chunk size", "why_tests_cant": "chunk boundary errors; small chunk sizes create empty chunks", "anchors": ["algotom/util/correlation.py:find_local_shifts", "algotom/util/correlation.py:_get_2d_shift_full_image_3d_input_cpu"]}
{"id": "C63", "title": "User points are accepted exactly when their windows fit", "statement": "Every accepted point of find_global_shift_based_local_shifts has its window inside the image, and points whose window fits are accepted.", "quantifier": "every point list", "why_tests_cant": "border points", "anchors": ["algotom/util/correlation.py:__get_input_list"]}
{"id": "C64", "title": "Simulated stripe artifacts change only their columns", "statement": "add_stripe_artifact changes only columns in [position, position+size), full stripes scale by (1-strength); input not modified.", "quantifier": "every sinogram and stripe", "why_tests_cant": "unbounded sizes", "anchors": ["algotom/util/simulation.py:add_stripe_artifact"]}
{"id": "C65", "title": "open_hdf_stream rejects metadata keys exactly when they clash with the data key", "statement": "A metadata key that is the data key or below it is rejected; a key that neither contains nor is contained in the data key's path is accepted.", "quantifier": "every metadata dictionary and key path", "why_tests_cant": "keys are arbitrary strings; tests try a few", "anchors": ["algotom/io/loadersaver.py:open_hdf_stream"]}
{"id": "C66", "title": "Butterworth window rows", "statement": "make_2d_butterworth_window damps exactly the rows whose distance to the centre row is at most v; all other rows are 1.", "quantifier": "every width, height, v and profile", "why_tests_cant": "needs v larger than half the height for every height", "anchors": ["algotom/util/utility.py:make_2d_butterworth_window"]}
{"id": "C67", "title": "Spiral positions stay in the field of view", "statement": "generate_spiral_positions returns num_pos positions all within the half-width and half-height of the field of view, or raises.", "quantifier": "every step, number of positions, shape and image size", "why_tests_cant": "real-valued positions for unbounded counts", "anchors": ["algotom/util/utility.py:generate_spiral_positions"]}
{"id": "C68", "title": "Sub-pixel overlaps align the scene", "statement": "Stitching, joining or extending with a fractional overlap/gap shifts the images so that both halves show one scene in one coordinate system; extend_sinogram returns the axis position of the shifted data.", "quantifier": "every pair of images of a straight-line scene and every overlap", "why_tests_cant": "the mismatch is a fraction of a pixel, invisible in integer-overlap tests", "anchors": ["algotom/prep/conversion.py:stitch_image", "algotom/prep/conversion.py:join_image", "algotom/prep/conversion.py:extend_sinogram"]}
{"id": "C69", "title": "find_center_projection returns the axis of rotation", "statement": "For two projections mirrored about an axis, find_center_projection returns the axis given by the overlap it found (as find_center_360 does).", "quantifier": "every pair of projections, window and flags", "why_tests_cant": "the geometry must hold for every image size, axis and candidate", "anchors": ["algotom/prep/calculation.py:find_center_projection"]}
{"id": "C70", "title": "MTF deconvolution with a flat window changes nothing", "statement": "mtf_deconvolution with a window equal to 1 everywhere returns the input image whatever the padding, and an image larger than the window is rejected.", "quantifier": "every image, window size >= image size and pad >= 0", "why_tests_cant": "pad/unpad bookkeeping must line up for every size", "anchors": ["algotom/prep/correction.py:mtf_deconvolution"]}
{"id": "C71", "title": "Centre metric compares the sinogram with its mirror image", "statement": "For a candidate centre c with 2c an integer, the image whose spectrum is measured is the sinogram on top of its mirror image about c; columns whose mirror falls outside the detector come from the up-down flipped sinogram.", "quantifier": "every sinogram and every candidate", "why_tests_cant": "the geometry must hold for every image size, axis and candidate", "anchors": ["algotom/prep/calculation.py:calculate_center_metric"]}
{"id": "C72", "title": "Double-wedge mask", "statement": "make_inverse_double_wedge_mask is 0/1 valued and is 1 exactly at the pixels outside the dropped rows and columns whose distance to the vertical axis is at most the wedge width of their row.", "quantifier": "every height, width >= 3, radius and drops", "why_tests_cant": "the geometry must hold for every image size, axis and candidate", "anchors": ["algotom/prep/calculation.py:make_inverse_double_wedge_mask"]}
{"id": "C73", "title": "downsample_cor averages whole blocks", "statement": "Every pixel of downsample_cor is the mean of a distinct full block of the input, inside the image, and the result has at least 2 rows and columns.", "quantifier": "every image and factor", "why_tests_cant": "the geometry must hold for every image size, axis and candidate", "anchors": ["algotom/prep/calculation.py:downsample_cor"]}
{"id": "C74", "title": "find_center_360 recovers the axis", "statement": "For a 360-degree sinogram whose two halves are mirrored about c, and a similarity metric that is zero only on the matching window, find_center_360 returns c within a quarter of a pixel; in all cases the centre is the axis of the overlap it reports.", "quantifier": "every sinogram, axis, side and schedule", "why_tests_cant": "the geometry must hold for every image size, axis and candidate", "anchors": ["algotom/prep/calculation.py:find_center_360,find_overlap,search_overlap,calculate_curvature"]}
{"id": "C75", "title": "Phase-correlation shift", "statement": "find_shift_based_phase_correlation returns the position of the correlation peak, refined by at most half a pixel and wrapped into the half-size range; find_center_based_phase_correlation turns it into the mirror axis.", "quantifier": "every correlation map and position of its maximum", "why_tests_cant": "the geometry must hold for every image size, axis and candidate", "anchors": ["algotom/prep/calculation.py:find_shift_based_phase_correlation,find_center_based_phase_correlation"]}
{"id": "C76", "title": "Stripe removal with a neutral filter returns the input", "statement": "Each stripe-removal method built on sorting, frequency separation, fitting, wavelets or FFT returns the input sinogram when its inner filter changes nothing (perfect reconstruction / all-pass window), with and without sorting; the FFT method does so for non-negative sinograms (it returns absolute values).", "quantifier": "every sinogram, every legal argsort, every window/fit/padding", "why_tests_cant": "the methods' bookkeeping (sort, pad, crop, split, scale) must cancel for every input", "anchors": ["algotom/prep/removal.py:remove_stripe_based_sorting", "algotom/prep/removal.py:remove_stripe_based_filtering", "algotom/prep/removal.py:remove_stripe_based_fitting", "algotom/prep/removal.py:remove_stripe_based_2d_filtering_sorting", "algotom/prep/removal.py:remove_stripe_based_wavelet_fft", "algotom/prep/removal.py:remove_stripe_based_fft"]}
{"id": "C77", "title": "Dead-stripe removal and interpolation only change detected columns", "statement": "remove_dead_stripe (residual=False) and remove_stripe_based_interpolation (norm=False, linear) leave every column that is not within one column of a detected stripe, and the two first/last columns, unchanged; changed columns are linearly interpolated between the nearest untouched columns; a straight sorted profile is never reported as a stripe.", "quantifier": "every sinogram, every mask the detector returns", "why_tests_cant": "quantifies over all masks, including ones touching the borders or each other", "anchors": ["algotom/prep/removal.py:remove_dead_stripe", "algotom/prep/removal.py:remove_stripe_based_interpolation", "algotom/util/utility.py:detect_stripe"]}
{"id": "C78", "title": "Regularisation treats left and right alike", "statement": "remove_stripe_based_regularization leaves a sinogram with constant column means unchanged and gives the mirrored result for a mirrored sinogram.", "quantifier": "every width, alpha and profile", "why_tests_cant": "hyperbolic coefficient matrix for every width and alpha", "anchors": ["algotom/prep/removal.py:remove_stripe_based_regularization", "algotom/util/utility.py:calculate_regularization_coefficient"]}
{"id": "C79", "title": "Cosine-transform unwrapping recovers the phase", "statement": "If the true phase changes by less than half a turn (in [-pi, pi)) between neighbouring pixels, unwrap_phase_based_cosine_transform applied to the wrapped image returns the true phase minus its mean, and it depends on its input modulo 2 pi only.", "quantifier": "every image size and every true phase with small steps", "why_tests_cant": "quantifies over all real images; relies on the discrete cosine transform diagonalising the Neumann Laplacian", "anchors": ["algotom/prep/phase.py:unwrap_phase_based_cosine_transform", "algotom/prep/phase.py:_make_cosine_window", "algotom/prep/phase.py:_wrap_to_pi"]}
{"id": "C80", "title": "Transmission and dark-field values", "statement": "Where the sample image is the reference multiplied by c inside the compared windows, the transmission is c and the dark-field signal 1; in particular a sample which only displaces the pattern by the given shifts gives transmission 1.", "quantifier": "every stack, window, shift and attenuation", "why_tests_cant": "quantifies over all images and shifts", "anchors": ["algotom/prep/phase.py:get_transmission_dark_field_signal", "algotom/prep/phase.py:_calculate_transmission_dark_field_values"]}
{"id": "C81", "title": "Alignment of image stacks", "statement": "align_image_stacks applies to each pair its own shifts, so that after alignment reference and sample coincide wherever both are defined, and rejects lists of different lengths.", "quantifier": "every stack, every list of whole-pixel shifts", "why_tests_cant": "sign and axis-order errors; every shift", "anchors": ["algotom/prep/phase.py:align_image_stacks"]}
{"id": "C82", "title": "Mirroring and windows of the surface integration", "statement": "The doubled image is symmetric about both axes, cropping it gives back the image, correct_negative yields non-negative surfaces with unchanged differences, and the window treats the two axes alike.", "quantifier": "every image and shape", "why_tests_cant": "every shape", "anchors": ["algotom/prep/phase.py:_double_image", "algotom/prep/phase.py:_make_window_FC_method", "algotom/prep/phase.py:reconstruct_surface_from_gradient_FC_method"]}
{"id": "C83", "title": "FBP of a stack is slice-by-slice FBP", "statement": "fbp_reconstruction of a 3D stack (num_proj, num_sino, width) returns (width, num_sino, width) whose slice j equals fbp_reconstruction of sinogram j, for every number of sinograms (including 1), CPU or GPU, block size, core number, thread schedule and task completion order.", "quantifier": "every stack, option and schedule", "why_tests_cant": "a mixed-up axis or slice, or a dependence on scheduling, shows only for particular shapes and schedules", "anchors": ["algotom/rec/reconstruction.py:fbp_reconstruction", "algotom/rec/reconstruction.py:apply_ramp_filter"]}
{"id": "C84", "title": "BPF of a stack is slice-by-slice BPF", "statement": "bpf_reconstruction of a 3D stack equals, slice by slice, bpf_reconstruction of each sinogram, for every option and schedule.", "quantifier": "every stack, option and schedule", "why_tests_cant": "the 2D and 3D branches pass different arguments to the filter", "anchors": ["algotom/rec/reconstruction.py:bpf_reconstruction", "algotom/rec/reconstruction.py:apply_circular_ramp_filter"]}
{"id": "C85", "title": "FBP pixel value", "statement": "Every pixel inside the circle of fbp_reconstruction is pi/(number of projections - 1) times the sum over all projections of the linearly interpolated ramp-filtered (and log-transformed) sinogram at the detector position where the pixel is seen; pixels outside the circle are 0.", "quantifier": "every sinogram, centre, angle set, ratio, pad and schedule", "why_tests_cant": "unbounded sizes and real-valued geometry", "anchors": ["algotom/rec/reconstruction.py:fbp_reconstruction", "algotom/rec/reconstruction.py:back_projection_cpu"]}
{"id": "C86", "title": "Reconstruction rejects wrong centre and angles", "statement": "fbp_reconstruction and bpf_reconstruction raise ValueError when the centre is outside [0, width) or the number of angles differs from the number of sinogram rows, for 2D and 3D input and all other options.", "quantifier": "every input", "why_tests_cant": "all combinations of options", "anchors": ["algotom/rec/reconstruction.py:fbp_reconstruction", "algotom/rec/reconstruction.py:bpf_reconstruction"]}
{"id": "C87", "title": "The number of cores does not change an FBP result", "statement": "fbp_reconstruction of a stack gives the same result for every ncore and completion order of the parallel filter tasks.", "quantifier": "every stack, ncore and schedule", "why_tests_cant": "the sequential branch uses an array of the input's dtype", "anchors": ["algotom/rec/reconstruction.py:fbp_reconstruction"]}
{"id": "C88", "title": "Vertical reconstruction rejects arguments that do not fit the data", "statement": "Projection ranges, angle lists, crops, centres, slice indices and flat/dark images that do not fit the projections are rejected with an error instead of producing a slice.", "quantifier": "every combination of arguments", "why_tests_cant": "every combination of wrong arguments", "anchors": ["algotom/rec/vertrec.py:vertical_reconstruction"]}
{"id": "C89", "title": "The shift between two displaced images is found", "statement": "If, away from the margin, the second image is a copy (up to brightness and contrast) of the reference displaced by (dy,dx) within the margin, and by no other displacement, then find_shift_based_correlation_map returns (dx,dy) exactly without sub-pixel refinement and within one pixel with finite differences.", "quantifier": "every pair of images or stacks, margin, displacement, CPU or GPU with every block size and thread order", "why_tests_cant": "needs Cauchy-Schwarz equality for every image", "anchors": ["algotom/util/correlation.py:find_shift_based_correlation_map"]}
{"id": "C90", "title": "The returned shift is the best one within the margin", "statement": "find_shift_based_correlation_map returns a shift whose components do not exceed the margin, zero along the axis that is not searched, and (without sub-pixel refinement) maximising the correlation among all integer displacements in that range; with a smaller second image, the best place of it in the reference.", "quantifier": "every pair of images or stacks, margin, axis", "why_tests_cant": "all displacements of all images", "anchors": ["algotom/util/correlation.py:find_shift_based_correlation_map", "algotom/util/correlation.py:locate_peak"]}
{"id": "C91", "title": "A margin that leaves no room is reported", "statement": "find_shift_based_correlation_map raises ValueError when the margin is too large for the images.", "quantifier": "every pair of images and margin", "why_tests_cant": "boundary cases of sizes and margins", "anchors": ["algotom/util/correlation.py:find_shift_based_correlation_map"]}
{"id": "C92", "title": "Local shifts point to the best displacement", "statement": "For every pixel whose windows fit into the image, find_local_shifts returns a shift of at most margin pixels within one pixel of the displacement with the highest correlation (the first one in reading order); if the surroundings are found at only one place within the margin, the shift leads there; all other pixels are zero.", "quantifier": "every stack or image, window, margin, device, block size and thread order", "why_tests_cant": "depends on the content of every window", "anchors": ["algotom/util/correlation.py:find_local_shifts", "algotom/util/correlation.py:_get_2d_shift_multi_rows_3d_input", "algotom/util/correlation.py:_get_1d_shift_single_row_2d_input"]}
{"id": "C93", "title": "GPU, hybrid and CPU give the same local shifts", "statement": "find_local_shifts with gpu=True or gpu='hybrid' gives the same maps as on the CPU with the differential method.", "quantifier": "every stack, window, margin, chunk size, block size and thread order", "why_tests_cant": "the GPU code is a separate implementation of the peak search; differences only show for peaks at particular places", "anchors": ["algotom/util/correlation.py:__locate_2d_peak_kernel", "algotom/util/correlation.py:__locate_1d_peak_kernel", "algotom/util/correlation.py:_get_2d_shift_multi_rows_3d_input_cpu_gpu"]}
{"id": "C94", "title": "The global shift is a robust summary of the local shifts", "statement": "The value find_global_shift_based_local_shifts returns lies between the smallest and largest local shift, stays within the range of the other values when a number of local shifts depending on the option (median, mixed, mean) are arbitrarily wrong, does not depend on the order of the points, and is the centre of values that are symmetric around it.", "quantifier": "every list of points, every number of points, every option, CPU and GPU", "why_tests_cant": "all lists of local values of every length", "anchors": ["algotom/util/correlation.py:find_global_shift_based_local_shifts", "algotom/util/correlation.py:_find_global_shift_based_local_shifts_cpu", "algotom/util/correlation.py:_find_global_shift_based_local_shifts_gpu"]}
{"id": "C95", "title": "The global shift recovers the displacement of two images", "statement": "If what surrounds the points used is found in the reference, up to brightness and contrast and within the margin, only at the displacement (dy,dx) - for all but a tolerated number of points - find_global_shift_based_local_shifts returns (dx,dy) within one pixel, and exactly with sub_pixel=False on the CPU.", "quantifier": "every pair of images, list of points or random points, option, CPU and GPU with every block size and thread order", "why_tests_cant": "needs Cauchy-Schwarz equality for every image and robust statistics for every number of points", "anchors": ["algotom/util/correlation.py:find_global_shift_based_local_shifts", "algotom/util/correlation.py:_find_global_shift_based_local_shifts_cpu", "algotom/util/correlation.py:_find_global_shift_based_local_shifts_gpu"]}
{"id": "C96", "title": "A simulated X-ray image determines the sinogram", "statement": "convert_to_Xray_image(sinogram, global_max) gives intensities from which -log recovers the sinogram up to the factor global_max (> 0); a larger absorption is always darker; without global_max the intensities of a non-negative sinogram lie in [1/e, 1] and the range is used completely.", "quantifier": "every sinogram and every positive global_max", "why_tests_cant": "exact inversion for all real pixel values", "anchors": ["algotom/util/simulation.py:convert_to_Xray_image"]}
{"id": "C97", "title": "Phantom masks are the shapes they are named after", "statement": "make_elliptic_mask and make_rectangular_mask return a 0/1 image that is 1 exactly at the pixels whose position (x right, y up, from pixel size//2) lies in the ellipse / rectangle with the given lengths (1 percent larger), turned counterclockwise by angle degrees and moved to center; a circle does not depend on the angle; make_triangular_mask fills the isosceles triangle.", "quantifier": "every size, centre, lengths, angle and pixel", "why_tests_cant": "ranges over all real parameters", "anchors": ["algotom/util/simulation.py:make_elliptic_mask", "algotom/util/simulation.py:make_rectangular_mask", "algotom/util/simulation.py:make_triangular_mask"]}
{"id": "C98", "title": "Simulated projections at right angles are exact sums", "statement": "make_sinogram returns, for the angles 0, pi/2 and pi, the sums of the image over columns, over rows (from bottom to top) and over columns mirrored, with the rotation axis at column width//2, for every image with a dark border (or zero padding), both parities of the width and every padding rate.", "quantifier": "every square image, padding rate, interpolation exact on pixels", "why_tests_cant": "Fourier-based code: equality for all images and sizes cannot be tested", "anchors": ["algotom/util/simulation.py:make_sinogram"]}
{"id": "C99", "title": "Opposite simulated projections are mirror images", "statement": "For every image, angle and interpolation, the rows of make_sinogram for theta and theta + pi are mirror images about column width//2.", "quantifier": "every image, angle, padding", "why_tests_cant": "all real angles", "anchors": ["algotom/util/simulation.py:make_sinogram"]}
