{
 "claims": [
  {
   "property": "C01",
   "status": "proved",
   "theorems": [
    "C01_roundtrip_with_delay",
    "C01_roundtrip_without_delay",
    "C01_accepts_exactly_the_grammar",
    "C01_int_of_str",
    "C01_not_a_string"
   ],
   "note": "All strings; the delay grammar is Python's int() restricted to ASCII digits without underscores."
  },
  {
   "property": "C02",
   "status": "proved",
   "theorems": [
    "C02_producer_strictly_earlier",
    "C02_positive_delay_refuted"
   ],
   "note": "For non-positive delays (documented use). C02_positive_delay_refuted shows that the statement is false of the code when a list input carries a positive delay."
  },
  {
   "property": "C03",
   "status": "proved",
   "theorems": [
    "C03_terminates",
    "C03_shape"
   ],
   "note": ""
  },
  {
   "property": "C04",
   "status": "proved",
   "theorems": [
    "C04_delayed_consumer_first"
   ],
   "note": "For non-positive delays."
  },
  {
   "property": "C05",
   "status": "proved",
   "theorems": [
    "C05_schedulable_is_scheduled",
    "C05_scheduled_is_schedulable"
   ],
   "note": "Both directions."
  },
  {
   "property": "C06",
   "status": "proved",
   "theorems": [
    "C06_missing_waits_for_missing",
    "C06_loop_never_scheduled"
   ],
   "note": "A missing object waits for an object that is missing or not declared."
  },
  {
   "property": "C07",
   "status": "proved",
   "theorems": [
    "C07_any_schedule",
    "C07_configuration_order"
   ],
   "note": "Holds for the iterations of the loop (setup() and finalize() run in schedule order and are outside the claim), for orders where objects of the same trigger list do not interfere (tame)."
  },
  {
   "property": "C08",
   "status": "proved",
   "theorems": [
    "C08_build_order",
    "C08_build_order_exists",
    "C08_circular"
   ],
   "note": "Soundness, existence for resolvable acyclic references, rejection of cycles. OutOfFuel stands for RecursionError."
  },
  {
   "property": "C09",
   "status": "proved",
   "theorems": [
    "C09_combine",
    "C09_missing_override",
    "C09_duplicate",
    "C09_missing_removal",
    "C09_removal_complete"
   ],
   "note": "Effect of every entry as a relation on the dictionaries, errors for missing or duplicate objects; the value of 'remove' is a list."
  },
  {
   "property": "C10",
   "status": "proved",
   "theorems": [
    "C10_two_parts",
    "C10_three_parts",
    "C10_other_forms",
    "C10_frame",
    "C10_last"
   ],
   "note": "Exact effect of both forms, rejection of others, frame and last-wins for any set of overrides."
  },
  {
   "property": "C100",
   "status": "proved",
   "theorems": [
    "C100_dark_axis",
    "C100_light_left",
    "C100_extinction",
    "C100_blind_to_piston",
    "C100_average_blind_to_waves",
    "C100_flat_phase",
    "C100_long_exposure",
    "C100_average_flat_phase_refuted",
    "C100_core_dark_axis_refuted",
    "C100_core_blind_to_waves_refuted"
   ],
   "note": "Real numbers of the standard library, exact Fourier transforms; the first frame is not dark."
  },
  {
   "property": "C101",
   "status": "proved",
   "theorems": [
    "C101_defined",
    "C101_transparent",
    "C101_transmission",
    "C101_passive",
    "C101_linear",
    "C101_brightness",
    "C101_complementary_masks",
    "C101_phase_plate",
    "C101_lossless_mask",
    "C101_phase_masks_lossless",
    "C101_whole_waves",
    "C101_written_field",
    "C101_photons_refuted",
    "C101_knife_edge",
    "C101_no_knife_edge",
    "C101_directions",
    "C101_centred",
    "C101_too_large"
   ],
   "note": "Real numbers of the standard library, exact Fourier transforms; the masks are arbitrary arrays (how they are drawn is not part of this claim); the field is already interpolated to the size of the object; angle is only assumed to give the angle of the values that occur."
  },
  {
   "property": "C102",
   "status": "proved",
   "theorems": [
    "C102_made",
    "C102_refused",
    "C102_round",
    "C102_square",
    "C102_defaults",
    "C102_symmetric",
    "C102_grows",
    "C102_obstruction",
    "C102_obstruction_square_refuted",
    "C102_centre_on_pixel",
    "C102_centre_on_pixel_refuted",
    "C102_same_disc",
    "C102_circular",
    "C102_circular_defaults",
    "C102_annular",
    "C102_indices"
   ],
   "note": "Spider arms are not modelled. as_masked_array and fromMaskedArray of the class are not modelled (the first raises AttributeError on every call, the second needs scipy and skimage)."
  },
  {
   "property": "C103",
   "status": "proved",
   "theorems": [
    "C103_refused",
    "C103_field",
    "C103_field_left",
    "C103_largest_refuted",
    "C103_sizes",
    "C103_fits",
    "C103_sampling_refused",
    "C103_sampling",
    "C103_sampling_exact",
    "C103_psf_geometry",
    "C103_psf_geometry_both"
   ],
   "note": "Exact rationals; the conversion of wavelength and pitch to a field of view (constants of astronomy) is an input."
  },
  {
   "property": "C104",
   "status": "proved",
   "theorems": [
    "C104_profile",
    "C104_total",
    "C104_distances",
    "C104_bounds",
    "C104_linear",
    "C104_energy",
    "C104_rises",
    "C104_energy_refused",
    "C104_areas",
    "C104_lookup_refused",
    "C104_lookup",
    "C104_lookup_exact",
    "C104_lookup_rises",
    "C104_width_none",
    "C104_width",
    "C104_width_scale",
    "C104_width_unit",
    "C104_width_refuted",
    "C104_metrics",
    "C104_metrics_energy",
    "C104_metrics_scale"
   ],
   "note": "Exact rationals; the square root is an arbitrary function without negative values; searchsorted is modelled for sorted distances."
  },
  {
   "property": "C105",
   "status": "proved",
   "theorems": [
    "C105_normal_equations",
    "C105_optimal",
    "C105_unique",
    "C105_least_squares",
    "C105_other_form",
    "C105_inverted",
    "C105_inverse",
    "C105_inverse_refuted",
    "C105_variances",
    "C105_variances_defined",
    "C105_left_over",
    "C105_variances_as_inverses",
    "C105_trust_refuted",
    "C105_no_noise",
    "C105_one_variance",
    "C105_list",
    "C105_array",
    "C105_generate",
    "C105_sizes",
    "C105_diagonal"
   ],
   "note": "Exact rationals; the inverse of a matrix is an arbitrary function with the hypothesis that it inverts the invertible matrices of the size in question; the covariance of the atmosphere is an input; infinite results are one value."
  },
  {
   "property": "C106",
   "status": "proved",
   "theorems": [
    "C106_defined",
    "C106_simple",
    "C106_cumulated",
    "C106_short",
    "C106_offset",
    "C106_scale",
    "C106_ramp",
    "C106_ramp_refuted",
    "C106_tone",
    "C106_tone_exact",
    "C106_tone_amplitude",
    "C106_tone_refuted",
    "C106_windows",
    "C106_whole_periods"
   ],
   "note": "Real numbers of the standard library (axioms of the reals, and classic through the inverse cosine); one signal, the columns of an array are independent."
  },
  {
   "property": "C107",
   "status": "proved",
   "theorems": [
    "C107_found",
    "C107_sizes",
    "C107_least",
    "C107_fine",
    "C107_choice",
    "C107_fov",
    "C107_nonempty",
    "C107_cut",
    "C107_rows",
    "C107_again",
    "C107_fits_refuted",
    "C107_rounding_refuted",
    "C107_defaults_refuted"
   ],
   "note": "Exact rationals; the theorem on floating point uses the specification of IEEE arithmetic of the standard library. Convolution kernels and prints are not modelled."
  },
  {
   "property": "C108",
   "status": "proved",
   "theorems": [
    "C108_image",
    "C108_local",
    "C108_piston",
    "C108_flux",
    "C108_symmetric",
    "C108_centred",
    "C108_tilt",
    "C108_total",
    "C108_sequence",
    "C108_distributed",
    "C108_missing_rows",
    "C108_distributed_refuted",
    "C108_shared_refuted"
   ],
   "note": "Real numbers and exact Fourier transforms; no convolution kernel; the interpolation of the field and the resampling to the detector are those of other claims, here for sizes that are multiples."
  },
  {
   "property": "C109",
   "status": "proved",
   "theorems": [
    "C109_image",
    "C109_focal",
    "C109_faces",
    "C109_faces_rebuild",
    "C109_columns",
    "C109_rows",
    "C109_transposed",
    "C109_detector",
    "C109_symmetric",
    "C109_light",
    "C109_transmission",
    "C109_flux",
    "C109_inside",
    "C109_constant",
    "C109_weights",
    "C109_amplitude_refuted",
    "C109_single_point_refuted",
    "C109_steps_given",
    "C109_steps_default",
    "C109_one_step_refuted",
    "C109_layout_refused",
    "C109_distance",
    "C109_pupil_size",
    "C109_pupil_size_refuted",
    "C109_prism",
    "C109_odd_refuted",
    "C109_few_steps_refuted",
    "C109_default_given_refuted"
   ],
   "note": "Real numbers and exact Fourier transforms; the sizes and numbers of steps in exact rationals. Perfect edges and tip of the prism, no shift of the pupils; the resampling to the detector adds squares of pixels."
  },
  {
   "property": "C11",
   "status": "proved",
   "theorems": [
    "C11_iterations",
    "C11_terminates",
    "C11_endless_runs",
    "C14_calls",
    "C11_not_started"
   ],
   "note": "Iteration times, count, termination; call sequence in C14_calls."
  },
  {
   "property": "C110",
   "status": "proved",
   "theorems": [
    "C110_lengths",
    "C110_output",
    "C110_contribution",
    "C110_light",
    "C110_factors",
    "C110_mean",
    "C110_single",
    "C110_tilt",
    "C110_tilt_refuted",
    "C110_malformed_tilt",
    "C110_pupil_refused"
   ],
   "note": "Exact rationals; the sensors of the single wavelengths are parameters (their images are C108 and C109)."
  },
  {
   "property": "C111",
   "status": "proved",
   "theorems": [
    "C111_when",
    "C111_law",
    "C111_bounds",
    "C111_positive",
    "C111_total",
    "C111_errors",
    "C111_running_mean",
    "C111_first_frame",
    "C111_zero_mode",
    "C111_settled",
    "C111_settled_below",
    "C111_max_stable",
    "C111_max_stable_refuted",
    "C111_dt_zero",
    "C111_safety_refuted",
    "C111_optical_refuted"
   ],
   "note": "Exact rationals; the estimate of the spectrum, the rejection of the loop and the stability of a gain are parameters."
  },
  {
   "property": "C112",
   "status": "proved",
   "theorems": [
    "C112_radial_order",
    "C112_degrees",
    "C112_numbers",
    "C112_one_number",
    "C112_value",
    "C112_refused",
    "C112_parity",
    "C112_edge",
    "C112_mask",
    "C112_pixel",
    "C112_calls",
    "C112_derivative_x",
    "C112_derivative_y",
    "C112_derivative_outside",
    "C112_derivative_zero_refuted"
   ],
   "note": "Real numbers; eval_jacobi is taken as the Jacobi polynomial and arctan2 as the angle. Non-integer numbers and masks other than the centred disk are not modelled."
  },
  {
   "property": "C113",
   "status": "proved",
   "theorems": [
    "C113_wave_accepted",
    "C113_wave_refused",
    "C113_wave",
    "C113_bounds",
    "C113_periodic",
    "C113_half_wave",
    "C113_square",
    "C113_two_values_refuted",
    "C113_triangle",
    "C113_accepted_fails_refuted",
    "C113_random_refused",
    "C113_unknown_distribution",
    "C113_amplitudes",
    "C113_unknown_law",
    "C113_random",
    "C113_modal",
    "C113_uniform_bounds",
    "C113_all_forced_refuted"
   ],
   "note": "Real numbers; the numbers drawn are inputs. Sizes that are not positive, and the choice of a seed, are not modelled."
  },
  {
   "property": "C114",
   "status": "proved",
   "theorems": [
    "C114_init",
    "C114_setup",
    "C114_setup_errors",
    "C114_square",
    "C114_disjoint",
    "C114_outside_refuted",
    "C114_errors",
    "C114_error_kind",
    "C114_lengths",
    "C114_dark",
    "C114_plane",
    "C114_piston",
    "C114_scale",
    "C114_local",
    "C114_mean",
    "C114_bounds",
    "C114_mean_refuted",
    "C114_additive_refuted",
    "C114_one_pixel_refuted"
   ],
   "note": "Exact rationals. The phase is the one after extrapolation, which is an input; the constant of units is a parameter."
  },
  {
   "property": "C115",
   "status": "proved",
   "theorems": [
    "C115_errors",
    "C115_band",
    "C115_wavelength",
    "C115_five_magnitudes",
    "C115_background",
    "C115_proportional",
    "C115_positive",
    "C115_J_refuted",
    "C115_last_refuted"
   ],
   "note": "Real numbers; the decimal constants of the tables are exact."
  },
  {
   "property": "C116",
   "status": "proved",
   "theorems": [
    "C116_errors",
    "C116_error_kinds",
    "C116_shape",
    "C116_piston",
    "C116_one",
    "C116_sum",
    "C116_special",
    "C116_gradient_mean",
    "C116_gradient_norm",
    "C116_gradient_support",
    "C116_orthogonal",
    "C116_rotation",
    "C116_turn",
    "C116_centres",
    "C116_special_refuted"
   ],
   "note": "Real numbers, rounding ignored; arctan2 is an arbitrary function; the mask is an input, whether given or built; masks of a single row or column are outside the model."
  },
  {
   "property": "C117",
   "status": "proved",
   "theorems": [
    "C117_size",
    "C117_local",
    "C117_flux",
    "C117_light",
    "C117_centre",
    "C117_binary",
    "C117_intensity",
    "C117_geometric",
    "C117_aligned",
    "C117_entries",
    "C117_found",
    "C117_failure",
    "C117_obstruction",
    "C117_obstruction_flux",
    "C117_waits",
    "C117_outcome",
    "C117_total",
    "C117_success",
    "C117_errors",
    "C117_dynamic",
    "C117_rows_refuted",
    "C117_obstruction_refuted"
   ],
   "note": "Real numbers, rounding ignored; frames of one shape; files and plots are not modelled."
  },
  {
   "property": "C118",
   "status": "proved",
   "theorems": [
    "C118_tiles",
    "C118_partition",
    "C118_brightest",
    "C118_even",
    "C118_odd_refuted",
    "C118_squares",
    "C118_disjoint",
    "C118_overlap_refuted",
    "C118_mask",
    "C118_scale",
    "C118_errors",
    "C118_name",
    "C118_inputs",
    "C118_inputs_error"
   ],
   "note": "Exact rationals; the writing of the file is not modelled. Odd sizes that do not divide the image fail in some cases and sub-apertures may overlap: stated as refuted."
  },
  {
   "property": "C119",
   "status": "proved",
   "theorems": [
    "C119_frame",
    "C119_one",
    "C119_first_round",
    "C119_cut",
    "C119_phase",
    "C119_seeing",
    "C119_runs",
    "C119_construct",
    "C119_zero_interval",
    "C119_interval_refuted",
    "C119_name_refuted"
   ],
   "note": "Real numbers; the screen of a seed is a function of the seed; the pupil stop has the size of the pupil."
  },
  {
   "property": "C12",
   "status": "partial",
   "theorems": [
    "C12_last_iteration_partial",
    "C12_not_multiple_refuted",
    "C12_start_time_refuted",
    "C12_second_run_refuted",
    "C12_iterations"
   ],
   "note": "Proved for the first run from time 0 with a duration multiple of the step; refuted otherwise."
  },
  {
   "property": "C120",
   "status": "proved",
   "theorems": [
    "C120_plot",
    "C120_iterations",
    "C120_iterations_refuted",
    "C120_first_failure",
    "C120_failure_refuted",
    "C120_width_refuted",
    "C120_vector",
    "C120_elements",
    "C120_choice",
    "C120_size",
    "C120_history",
    "C120_print",
    "C120_print_regular",
    "C120_print_values",
    "C120_no_history"
   ],
   "note": "Values of any type; the points and presence of lines and the last message, not the rest of the figure."
  },
  {
   "property": "C121",
   "status": "proved",
   "theorems": [
    "C121_sources",
    "C121_two_rows",
    "C121_two_sources_refuted",
    "C121_psf",
    "C121_modal",
    "C121_cube",
    "C121_downsampled",
    "C121_stored",
    "C121_negative",
    "C121_same_file",
    "C121_reused",
    "C121_computed",
    "C121_modal_file",
    "C121_distinct_refuted",
    "C121_modal_refuted",
    "C121_extract",
    "C121_precision",
    "C121_inverse_refuted"
   ],
   "note": "Texts of numbers are parameters of the model; the simulation is any function from parameters and files to files; displays are not modelled."
  },
  {
   "property": "C122",
   "status": "proved",
   "theorems": [
    "C122_new",
    "C122_initial",
    "C122_batches",
    "C122_iterations",
    "C122_no_iteration",
    "C122_unperturbed",
    "C122_sensitivities",
    "C122_no_parameter",
    "C122_gains",
    "C122_correction",
    "C122_silent",
    "C122_kept_refuted"
   ],
   "note": "Exact rationals; the nominal matrix of the sub-class, the pseudo-inverse, the square root and the demodulation are parameters of the model."
  },
  {
   "property": "C123",
   "status": "proved",
   "theorems": [
    "C123_removed",
    "C123_covariance",
    "C123_condition",
    "C123_orthonormal",
    "C123_refused",
    "C123_commands",
    "C123_filt_modes_refuted",
    "C123_no_zernike_commands_refuted"
   ],
   "note": "Exact rationals; the root, the decompositions, the Fourier transforms and the Zernike modes are parameters, and what is needed from them is a hypothesis of the theorem that needs it, checked on a concrete case."
  },
  {
   "property": "C124",
   "status": "proved",
   "theorems": [
    "C124_disc_inside",
    "C124_disc_balanced",
    "C124_disc_empty",
    "C124_refused",
    "C124_flat",
    "C124_layers",
    "C124_focus",
    "C124_threshold",
    "C124_polar_points",
    "C124_unchanged",
    "C124_crop",
    "C124_size_refused",
    "C124_disc_light_refuted",
    "C124_threshold_light_refuted",
    "C124_psf_centre_refuted",
    "C124_nearest",
    "C124_gauss_grid",
    "C124_psf_grid",
    "C124_psf_polar",
    "C124_rings_inside"
   ],
   "note": "Exact rationals; pi, the cosines and sines, the Gaussian and the interpolation are parameters. Nothing is proved about the distances of the points of rings, which need trigonometry."
  },
  {
   "property": "C125",
   "status": "proved",
   "theorems": [
    "C125_grid",
    "C125_cut",
    "C125_cut_large",
    "C125_cut_refuted",
    "C125_light",
    "C125_images_light",
    "C125_swap",
    "C125_llt_new",
    "C125_llt_restored",
    "C125_llt_unsaved",
    "C125_llt_version",
    "C125_llt_no_position_refuted",
    "C125_llt_no_position"
   ],
   "note": "Exact rationals; the intensity in the focal plane, the masks and toccd are parameters of the model."
  },
  {
   "property": "C126",
   "status": "proved",
   "theorems": [
    "C126_refused",
    "C126_rows",
    "C126_stable",
    "C126_resonant",
    "C126_default_refuted",
    "C126_negative_refuted"
   ],
   "note": "Exact rationals; trigonometric functions are parameters; the cosines of the sections are assumed between 0 and 1 where needed."
  },
  {
   "property": "C127",
   "status": "proved",
   "theorems": [
    "C127_even",
    "C127_zero",
    "C127_transform",
    "C127_refused",
    "C127_last_refuted"
   ],
   "note": "Entries are exact integers."
  },
  {
   "property": "C128",
   "status": "proved",
   "theorems": [
    "C128_shape",
    "C128_ideal_gas",
    "C128_standard",
    "C128_humidity",
    "C128_dispersion",
    "C128_bands",
    "C128_reference",
    "C128_polynomial",
    "C128_vapour",
    "C128_nearest_refuted"
   ],
   "note": "Exact rationals; the saturation pressure of water and the entries of the tables are parameters."
  },
  {
   "property": "C129",
   "status": "proved",
   "theorems": [
    "C129_init",
    "C129_none",
    "C129_opposite",
    "C129_redder",
    "C129_separate",
    "C129_formula"
   ],
   "note": "Exact rationals; the pressure profile and the secant and tangent of the zenith angle are parameters."
  },
  {
   "property": "C13",
   "status": "proved",
   "theorems": [
    "C13_triggers_iff",
    "C13_fresh_means_refreshed_now",
    "C13_delayed_only_never_runs",
    "C13_optional_list_refuted"
   ],
   "note": "Optional input lists left empty are an exception: refuted by C13_optional_list_refuted."
  },
  {
   "property": "C130",
   "status": "proved",
   "theorems": [
    "C130_sum",
    "C130_fitted",
    "C130_not_fitted",
    "C130_errors",
    "C130_background",
    "C130_amplitude",
    "C130_success_refuted",
    "C130_border"
   ],
   "note": "Exact rationals; the fitter of astropy and the width of a Moffat profile are parameters."
  },
  {
   "property": "C131",
   "status": "proved",
   "theorems": [
    "C131_size",
    "C131_symmetric",
    "C131_spot",
    "C131_none",
    "C131_size_refuted"
   ],
   "note": "Exact rationals; distances compared by their squares. The rest of the sensor is the pyramid of C109."
  },
  {
   "property": "C132",
   "status": "proved",
   "theorems": [
    "C132_init",
    "C132_scalar",
    "C132_fringes",
    "C132_piston",
    "C132_one_branch",
    "C132_photons",
    "C132_dark",
    "C132_brightness"
   ],
   "note": "Exact rationals; the interpolated fields of the branches are inputs and the resampling is a parameter."
  },
  {
   "property": "C133",
   "status": "proved",
   "theorems": [
    "C133_paa",
    "C133_sweep",
    "C133_still",
    "C133_vectors",
    "C133_timing",
    "C133_direction_refuted",
    "C133_swept"
   ],
   "note": "Real numbers of the standard library; layer by layer."
  },
  {
   "property": "C134",
   "status": "proved",
   "theorems": [
    "C134_uncoupled",
    "C134_parts",
    "C134_symmetric",
    "C134_inverse",
    "C134_truncated",
    "C134_diagonal",
    "C134_diagonal_y",
    "C134_quarter",
    "C134_flux_refuted"
   ],
   "note": "Exact rationals, from the elongations; elongations of truncated sub-apertures are not zero."
  },
  {
   "property": "C14",
   "status": "proved",
   "theorems": [
    "C14_calls",
    "C14_trigger_lists",
    "C14_guards_unreachable",
    "C14_flags_down"
   ],
   "note": ""
  },
  {
   "property": "C15",
   "status": "proved",
   "theorems": [
    "C15_synchronous_step",
    "C15_same_trigger_list_refuted"
   ],
   "note": "Needs that objects in the same trigger list do not interfere; refuted without."
  },
  {
   "property": "C16",
   "status": "proved",
   "theorems": [
    "C16_same_results",
    "C16_whole_run",
    "C16_same_histories",
    "C16_setup_refuted"
   ],
   "note": "conditions stated in the property; counterexample when setup() changes an output"
  },
  {
   "property": "C17",
   "status": "proved",
   "theorems": [
    "C17_no_deadlock",
    "C17_terminates",
    "C17_no_exception",
    "C17_not_multiple_refuted"
   ],
   "note": "also: all executions have the same length, no new exceptions; counterexample when the duration is not a multiple of the step"
  },
  {
   "property": "C18",
   "status": "proved",
   "theorems": [
    "C18_channels_empty",
    "C18_list_output_refuted",
    "C18_no_iteration_refuted"
   ],
   "note": "conditions stated in the property; counterexamples for list outputs and for runs without iterations"
  },
  {
   "property": "C19",
   "status": "proved",
   "theorems": [
    "C19_formats_agree",
    "C19_faithful",
    "C19_scalar_refuted",
    "C19_resize_refuted",
    "C19_attributes_refuted"
   ],
   "note": "conditions stated in the property; counterexamples for None-to-scalar, resized arrays and other attributes"
  },
  {
   "property": "C20",
   "status": "partial",
   "theorems": [
    "C20_strings_partial",
    "C20_collision_refuted",
    "C20_names_refuted"
   ],
   "note": "the property is false for every hash function; the hashed strings are different"
  },
  {
   "property": "C21",
   "status": "proved",
   "theorems": [
    "C21_flattened",
    "C21_type_checked"
   ],
   "note": ""
  },
  {
   "property": "C22",
   "status": "proved",
   "theorems": [
    "C22_current_data",
    "C22_stale_attributes",
    "C22_attributes_refuted",
    "C22_in_place"
   ],
   "note": "arrays and times; the staleness of other attributes is proved too"
  },
  {
   "property": "C23",
   "status": "proved",
   "theorems": [
    "C23_seconds",
    "C23_within_one",
    "C23_near",
    "C23_same",
    "C23_exact",
    "C23_literal_exact",
    "C23_iterations",
    "C23_refuted",
    "C23_time_step_refuted",
    "C23_last_iteration_refuted",
    "C23_multiple_refuted",
    "C23_halves"
   ],
   "note": "The statement as written is false (C23_refuted: 15 ns become 14 ns); proved for all times below 2^52 ns: the round trip gives the time or one nanosecond less, and is exact outside the top 7% of each binary octave."
  },
  {
   "property": "C24",
   "status": "proved",
   "theorems": [
    "C24_integer_delay",
    "C24_C25_delay",
    "C24_iir_and_ssr_are_laws"
   ],
   "note": "any filter law; ValueError exactly when an input does not fit"
  },
  {
   "property": "C25",
   "status": "proved",
   "theorems": [
    "C25_fractional_delay",
    "C24_C25_delay"
   ],
   "note": ""
  },
  {
   "property": "C26",
   "status": "proved",
   "theorems": [
    "C26_difference_equation"
   ],
   "note": "exact arithmetic; leading denominator coefficient non-zero; integration flag off gives the FIR form"
  },
  {
   "property": "C27",
   "status": "proved",
   "theorems": [
    "C27_integrator",
    "C27_no_forgetting",
    "C27_constructor_errors",
    "C27_mode_list_mismatch"
   ],
   "note": "exact arithmetic"
  },
  {
   "property": "C28",
   "status": "proved",
   "theorems": [
    "C28_iir_linear",
    "C28_ssr_linear"
   ],
   "note": "exact arithmetic"
  },
  {
   "property": "C29",
   "status": "proved",
   "theorems": [
    "C29_iir_channels",
    "C62_block_channels"
   ],
   "note": "IIR for any arithmetic; state-space filters built from per-channel blocks in exact arithmetic (general state-space matrices couple channels)"
  },
  {
   "property": "C30",
   "status": "partial",
   "theorems": [
    "C30_iir_reset",
    "C30_ssr_reset",
    "C30_multirate_reset_refuted",
    "C30_stale_output_refuted"
   ],
   "note": "proved for IIR and state-space filters; false for the multirate filter (it inherits a reset that only clears the delay buffer) and for the published output after a reset with fractional delay"
  },
  {
   "property": "C31",
   "status": "proved",
   "theorems": [
    "C31_delay_tf",
    "C31_tf_total"
   ],
   "note": "exact arithmetic"
  },
  {
   "property": "C32",
   "status": "proved",
   "theorems": [
    "C32_recursion",
    "C32_convolution"
   ],
   "note": "convolution in exact arithmetic"
  },
  {
   "property": "C33",
   "status": "proved",
   "theorems": [
    "C33_sync_errors",
    "C33_fused_input"
   ],
   "note": ""
  },
  {
   "property": "C34",
   "status": "proved",
   "theorems": [
    "C34_window_sum",
    "C34_each_input_once",
    "C34_average",
    "C34_setup"
   ],
   "note": "sum over the window for any trigger times; each input once; average when triggered every step. Exact arithmetic."
  },
  {
   "property": "C35",
   "status": "proved",
   "theorems": [
    "C35_emission_times",
    "C35_time_stamp",
    "C35_misaligned_never_emits",
    "C35_any_start_refuted"
   ],
   "note": "non-negative start on a loop step; other start times are accepted but give a short first window or no output (C35_any_start_refuted, C35_misaligned_never_emits)"
  },
  {
   "property": "C36",
   "status": "proved",
   "theorems": [
    "C36_frame_content",
    "C36_frame_holds",
    "C36_exposures"
   ],
   "note": "binning, QE and noise are an arbitrary function of the random state and the integrated frame"
  },
  {
   "property": "C37",
   "status": "proved",
   "theorems": [
    "C37_schedule",
    "C37_checked",
    "C37_unsorted_refuted"
   ],
   "note": "increasing switch times, any transitive comparison; unsorted times are accepted and break the rule (C37_unsorted_refuted)"
  },
  {
   "property": "C38",
   "status": "proved",
   "theorems": [
    "C38_playback",
    "C38_empty_history"
   ],
   "note": "also VibrationGenerator play-back"
  },
  {
   "property": "C39",
   "status": "proved",
   "theorems": [
    "C39_defined",
    "C39_history",
    "C39_one_mode",
    "C39_total",
    "C39_pushpull_balances",
    "C39_generator",
    "C39_rejects",
    "C39_first_mode"
   ],
   "note": "amplitude vector as given by the caller; the radial-order scaling of a single amplitude is not modelled"
  },
  {
   "property": "C40",
   "status": "proved",
   "theorems": [
    "C40_factors",
    "C40_downsampled",
    "C40_last_extra_refuted"
   ],
   "note": "complete description of the saved samples; the extra last sample is shown to occur (C40_last_extra_refuted: saved samples are not only number 0, N, 2N, ...)"
  },
  {
   "property": "C41",
   "status": "proved",
   "theorems": [
    "C41_chunks",
    "C41_complete",
    "C41_folders",
    "C41_single",
    "C41_lost_refuted"
   ],
   "note": "the original claim 'every sample exactly once' is refuted by C41_lost_refuted and C41_single; the theorem describes exactly what is saved"
  },
  {
   "property": "C42",
   "status": "proved",
   "theorems": [
    "C42_fits",
    "C42_pickle",
    "C42_error",
    "C42_collision_refuted"
   ],
   "note": "exact ranges and error bound; C42_collision_refuted shows that single precision pickle times can collide"
  },
  {
   "property": "C43",
   "status": "proved",
   "theorems": [
    "C43_new_folder",
    "C43_name",
    "C43_search_ends"
   ],
   "note": "create_tn=False (writing into the given folder) is not covered by the claim"
  },
  {
   "property": "C44",
   "status": "proved",
   "theorems": [
    "C44_blocks",
    "C44_no_loss",
    "C44_finalize"
   ],
   "note": "calls are those of the trigger"
  },
  {
   "property": "C45",
   "status": "proved",
   "theorems": [
    "C45_source",
    "C45_store_and_replay",
    "C45_pickle_refuted"
   ],
   "note": "C45_pickle_refuted: false for single precision pickle files"
  },
  {
   "property": "C46",
   "status": "proved",
   "theorems": [
    "C46_replay",
    "C46_no_dangling",
    "C46_delayed_refuted",
    "C46_list_refuted",
    "C46_other_output_refuted",
    "C46_two_stores_refuted"
   ],
   "note": "Exact description with one store, no dangling references under stated conditions, and counterexamples (refuted) for each condition and for two stores."
  },
  {
   "property": "C47",
   "status": "proved",
   "theorems": [
    "C47_slice",
    "C47_indices",
    "C47_one_index",
    "C47_both_arguments",
    "C47_declared_length",
    "C47_declared_length_refuted",
    "C47_snapshot",
    "C47_snapshot_refuted"
   ],
   "note": "declared length refuted outside the range; slice outputs are views (refuted as snapshots)"
  },
  {
   "property": "C48",
   "status": "proved",
   "theorems": [
    "C48_arguments",
    "C48_rest_is_zero",
    "C48_inserted",
    "C48_accepted",
    "C48_size"
   ],
   "note": ""
  },
  {
   "property": "C49",
   "status": "proved",
   "theorems": [
    "C49_same_size",
    "C49_shorter",
    "C49_neutral",
    "C49_neutral_mul_refuted",
    "C49_stale_refuted",
    "C49_remapped",
    "C49_concat",
    "C49_constants",
    "C49_div_sub",
    "C49_sizes"
   ],
   "note": "neutral filling refuted for products; stale elements with varying sizes refuted"
  },
  {
   "property": "C50",
   "status": "proved",
   "theorems": [
    "C50_combinator",
    "C50_longer_rejected_refuted",
    "C50_second_chunk_refuted",
    "C50_linear_inputs",
    "C50_linear",
    "C50_linear_platescale"
   ],
   "note": "rejection of longer commands and use of a second low-order chunk refuted"
  },
  {
   "property": "C51",
   "status": "proved",
   "theorems": [
    "C51_range",
    "C51_listed",
    "C51_modal",
    "C51_last_command",
    "C51_missing_is_zero_refuted",
    "C51_arguments",
    "C51_too_many"
   ],
   "note": "The literal reading (missing trailing elements always zero) is false after a longer command: C51_missing_is_zero_refuted; the corrected statement is proved for mode ranges, mode lists and mode-to-command matrices."
  },
  {
   "property": "C52",
   "status": "proved",
   "theorems": [
    "C52_agree",
    "C52_stale",
    "C52_always_refuted",
    "C52_implicit_open_loop_output",
    "C52_command_list",
    "C52_arguments",
    "C52_products",
    "C52_implicit_needs_all"
   ],
   "note": "The unconditional reading is refuted by C52_always_refuted (stale slopes); agreement is proved for fresh slopes and all histories."
  },
  {
   "property": "C53",
   "status": "proved",
   "theorems": [
    "C53_construction",
    "C53_setup",
    "C53_outputs",
    "C53_sum",
    "C53_errors"
   ],
   "note": ""
  },
  {
   "property": "C54",
   "status": "proved",
   "theorems": [
    "C54_average",
    "C54_several",
    "C54_before_first",
    "C54_from_slopes",
    "C54_from_slopes_zero",
    "C54_same",
    "C54_several_sensors",
    "C54_before_first_refuted",
    "C54_several_refuted",
    "C54_stale_refuted",
    "C54_no_data",
    "C54_no_sensor",
    "C54_one_slope",
    "C54_wrong_size"
   ],
   "note": "Frames with one non-zero command. What happens with several, or before the first mode, is stated separately; the refuted theorems are witnesses of the surprising cases (element-wise division, wrap-around, stale slopes with several sensors)."
  },
  {
   "property": "C55",
   "status": "proved",
   "theorems": [
    "C55_estimate",
    "C55_at_most_one",
    "C55_bounds",
    "C55_unchanged",
    "C55_scalar_command",
    "C55_estimate_above_one_refuted"
   ],
   "note": "Exact rationals. The refuted theorem is a witness that the unlimited estimate, also an output, exceeds one."
  },
  {
   "property": "C56",
   "status": "proved",
   "theorems": [
    "C56_construction",
    "C56_interleaved_odd",
    "C56_resize",
    "C56_resize_like_new",
    "C56_sequential",
    "C56_interleaved",
    "C56_write_read",
    "C56_write_local",
    "C56_set_value",
    "C56_maps",
    "C56_intensity_map",
    "C56_no_map",
    "C56_sum_subtract",
    "C56_resize_refuted",
    "C56_construction_refuted"
   ],
   "note": "X/Y positions after construction and resize, reading, writing, maps, sum and subtraction; the claim fails for interleaved vectors of odd size and after resize to an odd size (refuted with witnesses)"
  },
  {
   "property": "C57",
   "status": "proved",
   "theorems": [
    "C57_restored",
    "C57_not_saved_again",
    "C57_refuted",
    "C57_no_factor"
   ],
   "note": "the matrix survives; statistics, tags and normalisation factor do not (refuted), and a restored matrix cannot be saved again"
  },
  {
   "property": "C58",
   "status": "proved",
   "theorems": [
    "C58_recmat",
    "C58_recmat_name",
    "C58_m2c",
    "C58_ifunc",
    "C58_ifuncinv",
    "C58_ifunc_file",
    "C58_subap",
    "C58_pupdata",
    "C58_pixels",
    "C58_pixels_created",
    "C58_intensity",
    "C58_layer",
    "C58_pupilstop",
    "C58_slopes",
    "C58_value",
    "C58_value_not_finite",
    "C58_history",
    "C58_filter",
    "C58_source",
    "C58_source_infinite",
    "C58_not_replaced",
    "C58_kinds",
    "C58_recmat_name_refuted",
    "C58_recmat_layer_refuted",
    "C58_m2c_refuted",
    "C58_pupdata_refuted",
    "C58_kinds_refuted",
    "C58_value_header",
    "C58_block_kinds"
   ],
   "note": "round trips for all these kinds of objects with the exact list of what is lost; refuted: reconstructor names without extension, layer assignment, M2C factor, slopes-from-intensity flag, kinds of files"
  },
  {
   "property": "C59",
   "status": "proved",
   "theorems": [
    "C59_blocks",
    "C59_mean",
    "C59_refused",
    "C59_accepted",
    "C59_sample",
    "C59_sample_then_mean",
    "C59_wide_refuted"
   ],
   "note": "Blocks, mean, refusals and sampling for all sizes, under the condition found (target columns at most input rows, or same shape); C59_wide_refuted shows a 4x10 to 2x5 rebinning refused."
  },
  {
   "property": "C60",
   "status": "proved",
   "theorems": [
    "C60_unravel",
    "C60_ravel",
    "C60_dimensions"
   ],
   "note": "For all shapes with at least one column."
  },
  {
   "property": "C61",
   "status": "partial",
   "theorems": [
    "C61_output_stable_partial",
    "C61_output_stable_refuted"
   ],
   "note": "proved for the undelayed output, zero and fractional delays; false for positive integer delays"
  },
  {
   "property": "C62",
   "status": "proved",
   "theorems": [
    "C62_block_channels",
    "C62_repeated_blocks",
    "C62_missing_block"
   ],
   "note": "exact arithmetic"
  },
  {
   "property": "C63",
   "status": "proved",
   "theorems": [
    "C63_same_integrator"
   ],
   "note": "exact arithmetic"
  },
  {
   "property": "C64",
   "status": "proved",
   "theorems": [
    "C64_pure_gain"
   ],
   "note": "exact arithmetic"
  },
  {
   "property": "C65",
   "status": "proved",
   "theorems": [
    "C65_dc_weights"
   ],
   "note": "exact arithmetic"
  },
  {
   "property": "C66",
   "status": "proved",
   "theorems": [
    "C66_binning",
    "C66_no_binning",
    "C66_wide",
    "C66_size_refuted",
    "C66_flux_refuted",
    "C66_sampling_refused",
    "C66_sampling_errors"
   ],
   "note": "Mean of blocks and flux division by b^2; refutations for light collection, wide sensors and sizes that are not multiples."
  },
  {
   "property": "C67",
   "status": "proved",
   "theorems": [
    "C67_both_ends",
    "C67_unknown"
   ],
   "note": ""
  },
  {
   "property": "C68",
   "status": "proved",
   "theorems": [
    "C68_targeted_replay",
    "C68_terminates",
    "C68_caller_unchanged_refuted",
    "C68_lists_kept_refuted"
   ],
   "note": "Self-containment, provenance of inputs and termination; caller's parameters and list inputs are counterexamples."
  },
  {
   "property": "C69",
   "status": "proved",
   "theorems": [
    "C69_matrix",
    "C69_choice",
    "C69_exact",
    "C69_intmat_refuted"
   ],
   "note": ""
  },
  {
   "property": "C70",
   "status": "proved",
   "theorems": [
    "C70_period",
    "C70_between",
    "C70_mode_numbers",
    "C70_selected_mode_refuted",
    "C70_columns"
   ],
   "note": "demodulate_signal is a parameter. The refuted theorem is a witness that mode_numbers does not select from one-dimensional data."
  },
  {
   "property": "C71",
   "status": "proved",
   "theorems": [
    "C71_set_nmodes",
    "C71_set_nslopes",
    "C71_add_remove_modes",
    "C71_add_remove_slopes",
    "C71_reduce_size",
    "C71_reduce_slopes",
    "C71_start_mode",
    "C71_same_modes",
    "C71_m2c",
    "C71_negative_discard",
    "C71_cut_range",
    "C71_cut_start",
    "C71_cut_number",
    "C71_cut_nothing",
    "C71_cut_list",
    "C71_cut_columns",
    "C71_negative_start_refuted",
    "C71_negative_start_mode_refuted"
   ],
   "note": "All shapes and numbers; negative arguments are covered by C71_negative_discard and the refutations."
  },
  {
   "property": "C72",
   "status": "proved",
   "theorems": [
    "C72_area",
    "C72_square",
    "C72_refused",
    "C72_wide_refuted"
   ],
   "note": "Under the shape condition made explicit, which square shapes always satisfy; other shapes are refused (C72_refused, C72_wide_refuted). mx x eps is the maximum with the smallest normal number."
  },
  {
   "property": "C73",
   "status": "proved",
   "theorems": [
    "C73_slopes",
    "C73_counts",
    "C73_fixed_norm",
    "C73_intensity",
    "C73_bounds",
    "C73_flat",
    "C73_scale",
    "C73_dark",
    "C73_negative_norm",
    "C73_shlike_rejected",
    "C73_dark_refuted",
    "C73_shlike_refuted",
    "C73_negative_norm_refuted",
    "C73_padding_refuted",
    "C73_numbers",
    "C73_order"
   ],
   "note": "Frames over rationals, results in rationals extended with infinities and NaN; no rounding."
  },
  {
   "property": "C74",
   "status": "proved",
   "theorems": [
    "C74_weighted",
    "C74_slopes",
    "C74_bounds",
    "C74_dark_subaperture",
    "C74_one_pixel",
    "C74_scale",
    "C74_transpose",
    "C74_rotate",
    "C74_symmetric",
    "C74_one_pixel_rejected",
    "C74_dark_refuted",
    "C74_neighbour_refuted"
   ],
   "note": "As C73; weights accumulated over time included."
  },
  {
   "property": "C75",
   "status": "proved",
   "theorems": [
    "C75_reference",
    "C75_filter",
    "C75_filter_linear",
    "C75_filter_removes",
    "C75_filter_modes",
    "C75_filter_keeps",
    "C75_construction",
    "C75_pyramid",
    "C75_one_column_refuted",
    "C75_layout_refuted",
    "C75_products"
   ],
   "note": "Over any field."
  },
  {
   "property": "C76",
   "status": "proved",
   "theorems": [
    "C76_sum",
    "C76_off",
    "C76_regular",
    "C76_weights",
    "C76_first_window_refuted",
    "C76_missed_end_refuted"
   ],
   "note": "The accumulation that feeds the weights of C74."
  },
  {
   "property": "C77",
   "status": "proved",
   "theorems": [
    "C77_axis",
    "C77_quarter",
    "C77_fft",
    "C77_spacing",
    "C77_symmetric",
    "C77_symmetric_ends",
    "C77_inside",
    "C77_zero",
    "C77_grid",
    "C77_too_small",
    "C77_symmetric_refuted"
   ],
   "note": "Rationals; the exact linspace."
  },
  {
   "property": "C78",
   "status": "proved",
   "theorems": [
    "C78_zernike",
    "C78_zernike_scale",
    "C78_curvature",
    "C78_curvature_bounds",
    "C78_curvature_exchange",
    "C78_zernike_dark_refuted",
    "C78_counts_refuted"
   ],
   "note": "Pixel positions are given; make_mask is not modelled."
  },
  {
   "property": "C79",
   "status": "proved",
   "theorems": [
    "C79_reset",
    "C79_resize",
    "C79_product",
    "C79_products",
    "C79_products_order",
    "C79_sub_square",
    "C79_sub_rectangle",
    "C79_area",
    "C79_display",
    "C79_reset_refuted",
    "C79_product_default_refuted",
    "C79_small_refuted",
    "C79_sub_idx_refuted",
    "C79_display_refuted",
    "C79_fits"
   ],
   "note": "Over any field; NaN through the extended rationals."
  },
  {
   "property": "C80",
   "status": "proved",
   "theorems": [
    "C80_combine",
    "C80_combine_order",
    "C80_inputs",
    "C80_combine_rectangle",
    "C80_reflect",
    "C80_reflect_twice",
    "C80_flatten",
    "C80_flatten_mean",
    "C80_flatten_twice",
    "C80_rectangle_refuted"
   ],
   "note": "Numbers of any field; the test for light is a parameter."
  },
  {
   "property": "C81",
   "status": "proved",
   "theorems": [
    "C81_value",
    "C81_identity",
    "C81_shape",
    "C81_grid_shape",
    "C81_surface_pixel",
    "C81_surface_linear",
    "C81_surface_between",
    "C81_between",
    "C81_linear",
    "C81_copy",
    "C81_quarter",
    "C81_gpu_reads",
    "C81_gpu",
    "C81_gpu_coords",
    "C81_shift_refuted",
    "C81_last_refuted",
    "C81_gpu_reads_refuted"
   ],
   "note": "Exact rationals; rotations given by cosine and sine; infinite coordinates (magnification 0) not represented."
  },
  {
   "property": "C82",
   "status": "proved",
   "theorems": [
    "C82_setup",
    "C82_above",
    "C82_centre",
    "C82_propagate",
    "C82_order",
    "C82_rays",
    "C82_separate",
    "C82_chromatic_refuted",
    "C82_parity_refuted",
    "C82_shift_refuted",
    "C82_small_refuted",
    "C82_rectangle_refuted"
   ],
   "note": "Without physical propagation (Fresnel); square layers at non-negative heights below the source for the values. Chromatic shifts are a parameter."
  },
  {
   "property": "C83",
   "status": "proved",
   "theorems": [
    "C83_evolution",
    "C83_since",
    "C83_frozen",
    "C83_constant",
    "C83_ahead",
    "C83_no_seeing",
    "C83_full_turn",
    "C83_two",
    "C83_backwards_refuted",
    "C83_extra_refuted",
    "C83_periodic_refuted",
    "C83_sampling_refuted"
   ],
   "note": "Exact rationals; rotations other than quarter turns and the power of the seeing are parameters."
  },
  {
   "property": "C84",
   "status": "proved",
   "theorems": [
    "C84_files",
    "C84_whole",
    "C84_size",
    "C84_apart",
    "C84_layers",
    "C84_each",
    "C84_refuses",
    "C84_ready",
    "C84_outer_refuted",
    "C84_pitch_refuted",
    "C84_position_refuted",
    "C84_negative_refuted",
    "C84_total_refuted",
    "C84_small_refuted",
    "C84_old_names",
    "C84_new_file"
   ],
   "note": "The random computation of squares, square roots and the wavelength factor are parameters; directories contain screens made by the manager itself."
  },
  {
   "property": "C85",
   "status": "proved",
   "theorems": [
    "C85_modes",
    "C85_exact",
    "C85_linear",
    "C85_outside",
    "C85_mirror",
    "C85_single",
    "C85_lists",
    "C85_product",
    "C85_refused",
    "C85_least",
    "C85_list_refuted",
    "C85_both_refuted",
    "C85_cut_refuted",
    "C85_pixels_refuted",
    "C85_priority_refuted",
    "C85_start"
   ],
   "note": "Exact field arithmetic; the pseudo-inverse, the unwrapping and the standard deviation are parameters."
  },
  {
   "property": "C86",
   "status": "proved",
   "theorems": [
    "C86_field",
    "C86_outside",
    "C86_constant",
    "C86_plane",
    "C86_last",
    "C86_identity",
    "C86_refused",
    "C86_square_only",
    "C86_shallow_refuted",
    "C86_shift_refuted",
    "C86_update_refuted",
    "C86_default_refuted",
    "C86_stale_refuted",
    "C86_rectangle_refuted",
    "C86_update_refused"
   ],
   "note": "Exact rational arithmetic; angles by cosine and sine; square fields (rectangles are shown to be refused)."
  },
  {
   "property": "C87",
   "status": "proved",
   "theorems": [
    "C87_screen",
    "C87_sample",
    "C87_too_long",
    "C87_output",
    "C87_same",
    "C87_slices",
    "C87_given",
    "C87_before_refuted",
    "C87_single_refuted",
    "C87_rectangle_refuted",
    "C87_name_refuted",
    "C87_crop_refuted",
    "C87_not_cube"
   ],
   "note": "Exact rational arithmetic; square screens; times increasing."
  },
  {
   "property": "C88",
   "status": "proved",
   "theorems": [
    "C88_last",
    "C88_first",
    "C88_refused",
    "C88_roundtrip",
    "C88_set",
    "C88_times",
    "C88_set_refuted",
    "C88_times_refuted",
    "C88_version"
   ],
   "note": "Types of numbers and file formats are not represented."
  },
  {
   "property": "C89",
   "status": "proved",
   "theorems": [
    "C89_equation",
    "C89_fir",
    "C89_delay",
    "C89_reset",
    "C89_ok",
    "C89_integrator",
    "C89_started_at_zero",
    "C89_gain_refuted",
    "C89_protected_refuted",
    "C89_rows",
    "C89_set_gain",
    "C89_keep_refuted",
    "C89_one_for_all_refuted"
   ],
   "note": "Exact arithmetic over any field."
  },
  {
   "property": "C90",
   "status": "proved",
   "theorems": [
    "C90_mean",
    "C90_wait",
    "C90_idle",
    "C90_subtract",
    "C90_restarted",
    "C90_ok",
    "C90_restart_refuted",
    "C90_number_refuted",
    "C90_load_refuted",
    "C90_protected_refuted",
    "C90_reset_time_refuted",
    "C90_no_frames"
   ],
   "note": "Exact arithmetic over any field."
  },
  {
   "property": "C91",
   "status": "proved",
   "theorems": [
    "C91_checked",
    "C91_found",
    "C91_class_refuted",
    "C91_no_clash",
    "C91_absolute",
    "C91_unknown",
    "C91_slope_null",
    "C91_slope_null_ok",
    "C91_refuses",
    "C91_twice_refuted",
    "C91_end_refuted",
    "C91_multi",
    "C91_multi_relative",
    "C91_multi_refuted",
    "C91_directories",
    "C91_directories_made",
    "C91_sizes"
   ],
   "note": "POSIX paths as strings; exact arithmetic for the mean; headers of files are not represented."
  },
  {
   "property": "C92",
   "status": "proved",
   "theorems": [
    "C92_placed",
    "C92_once",
    "C92_args",
    "C92_tag",
    "C92_unknown",
    "C92_complete",
    "C92_same",
    "C92_alone",
    "C92_distributed",
    "C92_tag_elsewhere",
    "C92_tag_elsewhere_refuted",
    "C92_reference_elsewhere_refuted",
    "C92_output_reference_refuted",
    "C92_data_dir_refuted",
    "C92_device_refused",
    "C92_object_refused"
   ],
   "note": "Classes, their signatures and type hints, and the success of constructors and of reading files are parameters of the model."
  },
  {
   "property": "C93",
   "status": "proved",
   "theorems": [
    "C93_inputs",
    "C93_outputs",
    "C93_rest",
    "C93_diagram",
    "C93_ok",
    "C93_references",
    "C93_both_ends",
    "C93_shared",
    "C93_loop",
    "C93_wired",
    "C93_distributed",
    "C93_spread",
    "C93_shared_refuted",
    "C93_type_refuted",
    "C93_list_refuted",
    "C93_output_kinds",
    "C93_input_list_kind",
    "C93_destination_kind",
    "C93_none_kind"
   ],
   "note": "Data objects and types are abstract with an isinstance test; remote_outputs is kept as the list of its entries."
  },
  {
   "property": "C94",
   "status": "proved",
   "theorems": [
    "C94_entries",
    "C94_rest",
    "C94_values",
    "C94_local",
    "C94_ok",
    "C94_twice_refuted",
    "C94_elsewhere_refuted",
    "C94_order_refuted",
    "C94_empty_refuted"
   ],
   "note": "As C93; type() of a value is an abstract function."
  },
  {
   "property": "C95",
   "status": "proved",
   "theorems": [
    "C95_sizes",
    "C95_stencil",
    "C95_geometry",
    "C95_line",
    "C95_preview",
    "C95_half_turn",
    "C95_transpose",
    "C95_strip"
   ],
   "note": "Matrices A and B are any matrices of the right sizes (their computation from covariances is not modelled); arithmetic is exact."
  },
  {
   "property": "C96",
   "status": "proved",
   "theorems": [
    "C96_runs",
    "C96_no_seeing",
    "C96_frozen",
    "C96_sampling",
    "C96_rigid",
    "C96_refused",
    "C96_inputs",
    "C96_reversal_refuted",
    "C96_range_refuted",
    "C96_diagonal_sampling_refuted",
    "C96_cn2_refuted"
   ],
   "note": "Exact rationals; cosine, sine, square root and the strength of the seeing are parameters, with root(x*x)=x for x>=0 where needed."
  },
  {
   "property": "C97",
   "status": "proved",
   "theorems": [
    "C97_down",
    "C97_down_frozen",
    "C97_up_refuted",
    "C97_ahead_refuted",
    "C97_down_second_refuted"
   ],
   "note": "As C96."
  },
  {
   "property": "C98",
   "status": "proved",
   "theorems": [
    "C98_is_power_spectrum",
    "C98_needs_room",
    "C98_normalised",
    "C98_peak",
    "C98_blind_to_piston_and_waves",
    "C98_tilt_moves",
    "C98_opposite_phase_turns",
    "C98_scaled_amplitude"
   ],
   "note": "Real numbers of the standard library (exact sums, exponentials and Fourier transforms); arrays of positive size."
  },
  {
   "property": "C99",
   "status": "proved",
   "theorems": [
    "C99_run_defined",
    "C99_image_sizes",
    "C99_strehl_ratio",
    "C99_last_frame",
    "C99_long_exposure",
    "C99_no_exposure",
    "C99_finalized_twice",
    "C99_strehl_bounded_refuted"
   ],
   "note": "As C98; the first frame is not dark; the oversampling is rational; radial profiles are not part of this model."
  }
 ]
}
