{
 "claims": [
  {
   "property": "C01",
   "status": "proved",
   "theorems": [
    "C01_seed_reproducible"
   ],
   "note": ""
  },
  {
   "property": "C02",
   "status": "proved",
   "theorems": [
    "C02_seed_reported",
    "C02_seed_raises"
   ],
   "note": ""
  },
  {
   "property": "C03",
   "status": "proved",
   "theorems": [
    "C03_replay"
   ],
   "note": ""
  },
  {
   "property": "C04",
   "status": "proved",
   "theorems": [
    "C04_seed_low_32_bits"
   ],
   "note": ""
  },
  {
   "property": "C05",
   "status": "proved",
   "theorems": [
    "C05_seeds_differ",
    "C05_seeds_differ_double"
   ],
   "note": "Streams differ within the first 386 uniform numbers, in both builds; exact and as doubles."
  },
  {
   "property": "C06",
   "status": "proved",
   "theorems": [
    "C06_uniform_range",
    "C06_module_reachable"
   ],
   "note": "All five kinds of draws, every reachable state, both builds; module states are reachable ones."
  },
  {
   "property": "C07",
   "status": "proved",
   "theorems": [
    "C07_same_step",
    "C07_same_streams",
    "C07_same_programs"
   ],
   "note": "Step function, streams and whole programs."
  },
  {
   "property": "C08",
   "status": "proved",
   "theorems": [
    "C08_step_injective",
    "C08_no_shorter_cycle",
    "C08_parity"
   ],
   "note": "Invertibility on reachable states, both builds; parity counted in one bits."
  },
  {
   "property": "C09",
   "status": "proved",
   "theorems": [
    "C09_low_dim_independent"
   ],
   "note": ""
  },
  {
   "property": "C10",
   "status": "proved",
   "theorems": [
    "C10_queries_harmless"
   ],
   "note": ""
  },
  {
   "property": "C11",
   "status": "proved",
   "theorems": [
    "C11_threads_same_fields",
    "C11_threads_mixed",
    "C11_race_same_field",
    "C11_race_any",
    "C11_one_at_a_time",
    "C11_race_overrun"
   ],
   "note": "Second sentence over interleaved loads and stores of the shared generator (1D/2D calls). C11_race_any: any number of concurrent calls of any dimension can all get the field each would get alone (M_Race3.v)."
  },
  {
   "property": "C12",
   "status": "partial",
   "theorems": [
    "C12_finite_partial",
    "C12_generator_partial",
    "C12_centre_refuted"
   ],
   "note": "False as stated: two uniform numbers exactly 1/2 in a row in the tail branch give NaN. Proved for all other streams, in doubles; missing: that the generator never gives that pair."
  },
  {
   "property": "C13",
   "status": "proved",
   "theorems": [
    "C13_mixture",
    "C13_envelope",
    "C13_branches",
    "C13_retry",
    "C13_central_law",
    "C13_central_probability",
    "C13_tail_branch",
    "C13_tail_disc",
    "C13_tail_radius",
    "C13_tail_law",
    "C13_tail_pair",
    "C13_tail_first",
    "C13_tail_second",
    "C13_total"
   ],
   "note": "Exact arithmetic. Within 3: bound 1e-9 on the density; beyond 3 the law is exactly normal."
  },
  {
   "property": "C14",
   "status": "proved",
   "theorems": [
    "C14_noise_3d",
    "C14_noise_2d",
    "C14_noise_1d",
    "C14_consecutive"
   ],
   "note": "For every library instance and generator step."
  },
  {
   "property": "C15",
   "status": "proved",
   "theorems": [
    "C15_result_length",
    "C15_C22_unused_arguments_1d",
    "C15_C22_unused_arguments_2d"
   ],
   "note": ""
  },
  {
   "property": "C16",
   "status": "proved",
   "theorems": [
    "C16_fortran_order_1d",
    "C16_fortran_order_2d",
    "C16_fortran_order_3d"
   ],
   "note": ""
  },
  {
   "property": "C17",
   "status": "proved",
   "theorems": [
    "C17_size_rule",
    "C17_any_variogram",
    "C17_doubles"
   ],
   "note": "C17_size_rule and C17_any_variogram are in exact arithmetic, C17_doubles in double precision with each operation rounded. C17_size_rule is in terms of the arguments of variogram(); C17_any_variogram is about any variogram object and has the example C17_case."
  },
  {
   "property": "C18",
   "status": "partial",
   "theorems": [
    "C18_dimension_partial",
    "C18_missing_spacing_refuted"
   ],
   "note": "False as stated: with ny>1 and dy left out or negative the two functions disagree (refuted). Proved: they agree exactly when no counted direction has a negative or missing spacing."
  },
  {
   "property": "C19",
   "status": "partial",
   "theorems": [
    "C19_best_size",
    "C19_grid_used",
    "C19_single_precision",
    "C19_double_precision",
    "C19_one_cell_refuted",
    "C19_float_size_refuted",
    "C19_single_precision_refuted"
   ],
   "note": "Proved for all sizes up to 2^52 for which the computed logarithms are right to within one upwards, which is proved for sizes up to 2^18 (single precision) / 2^24 (double). Refuted: request 1 with an even size; request 2^24+1; request 2^22+1 with single precision logarithms."
  },
  {
   "property": "C20",
   "status": "partial",
   "theorems": [
    "C20_in_bounds_partial",
    "C20_negative_spacing_refuted",
    "C20_large_grid_refuted",
    "C94_wrap_refuted",
    "C94_fits_partial",
    "C20_doubles_partial"
   ],
   "note": "False as stated: negative spacing, sizes where the FFT size search answers too small a number, and 3D grids whose number of bytes exceeds 64 bits (C94_wrap_refuted) read or write out of bounds. Proved when every requested size has room for its cells and the logarithms are good; C20_in_bounds_partial counts cells without wrapping, which is right below 2^60 cells (C94_fits_partial). C20_doubles_partial: in double precision, positive ranges and cell sizes are enough for that room."
  },
  {
   "property": "C21",
   "status": "proved",
   "theorems": [
    "C21_explicit_default_padding"
   ],
   "note": "When simulation_size answers in the simulated dimension (see C18)."
  },
  {
   "property": "C22",
   "status": "proved",
   "theorems": [
    "C22_defaults",
    "C22_large_smoothing",
    "C15_C22_unused_arguments_1d",
    "C15_C22_unused_arguments_2d"
   ],
   "note": ""
  },
  {
   "property": "C23",
   "status": "partial",
   "theorems": [
    "C23_defined_partial",
    "C23_defined_exact_partial",
    "C23_search_refuted"
   ],
   "note": "False as stated: requests 0 and 32769. Proved up to 8192 (32768 with exact logarithms)."
  },
  {
   "property": "C24",
   "status": "proved",
   "theorems": [
    "C24_covariance_1d",
    "C24_exact_1d",
    "C24_api"
   ],
   "note": ""
  },
  {
   "property": "C25",
   "status": "proved",
   "theorems": [
    "C25_covariance_2d",
    "C25_exact_2d",
    "C25_api"
   ],
   "note": ""
  },
  {
   "property": "C26",
   "status": "proved",
   "theorems": [
    "C26_covariance_3d",
    "C26_exact_3d",
    "C26_api"
   ],
   "note": ""
  },
  {
   "property": "C27",
   "status": "proved",
   "theorems": [
    "C27_no_negative_spectrum",
    "C27_covariance"
   ],
   "note": "Positive main range, non-zero other ranges, positive power, smoothing off."
  },
  {
   "property": "C28",
   "status": "partial",
   "theorems": [
    "C28_padded_partial",
    "C28_trace_refuted"
   ],
   "note": "Proved when x is an axis of the variogram or the main range is the largest; refuted otherwise: 1D padding looks at the main range only."
  },
  {
   "property": "C29",
   "status": "proved",
   "theorems": [
    "C29_variance_1d",
    "C29_variance_2d",
    "C29_variance_3d"
   ],
   "note": ""
  },
  {
   "property": "C30",
   "status": "proved",
   "theorems": [
    "C30_linear_1d",
    "C30_linear_2d",
    "C30_linear_3d",
    "C30_zero_1d",
    "C30_zero_2d",
    "C30_zero_3d",
    "C30_mean_1d",
    "C30_mean_2d",
    "C30_mean_3d"
   ],
   "note": ""
  },
  {
   "property": "C31",
   "status": "proved",
   "theorems": [
    "C31_table_1d",
    "C31_table_2d",
    "C31_table_3d",
    "C31_origin"
   ],
   "note": "Tables over every arithmetic; the origin in exact arithmetic."
  },
  {
   "property": "C32",
   "status": "partial",
   "theorems": [
    "C32_symmetric_1d",
    "C32_products_commute",
    "C32_symmetric_2d_partial",
    "C32_symmetric_3d_partial",
    "C32_no_rotation_partial",
    "C32_half_row_refuted"
   ],
   "note": "True in 1D (real and double arithmetic), in 2D/3D off the half-size rows, and everywhere without rotation; false on the half-size row of an even grid for a rotated variogram (witness)."
  },
  {
   "property": "C33",
   "status": "partial",
   "theorems": [
    "C33_images_1d_partial",
    "C33_images_2d_partial",
    "C33_images_3d_partial",
    "C33_images_1d_refuted",
    "C33_images_2d_refuted",
    "C33_images_3d_refuted"
   ],
   "note": "Proved under conditions on ranges and angles (3D: no dip); refuted without them."
  },
  {
   "property": "C34",
   "status": "partial",
   "theorems": [
    "C34_documented_names",
    "C34_case_insensitive",
    "C34_other_names",
    "C34_functions",
    "C34_different",
    "C34_general_exponential",
    "C34_non_ascii",
    "C34_every_other_name_refuted",
    "C34_call",
    "C34_python"
   ],
   "note": "All ASCII names as claimed. A name with a non-ASCII byte is undefined behaviour (toupper on a negative char) instead of spherical. The functions are pairwise different unless the power of the general exponential is 1 or 2."
  },
  {
   "property": "C35",
   "status": "partial",
   "theorems": [
    "C35_negative_ranges",
    "C35_zero_range_refuted",
    "C35_zero_everywhere_refuted",
    "C35_zero_nan_refuted"
   ],
   "note": "Negative ranges mean the main range; zero, documented to do so, does not: corr at lag 0 becomes 0 (NaN distance) for a spherical variogram in doubles. In fact every correlation of a spherical variogram is then 0, at every lag in one, two and three dimensions (C35_zero_everywhere_refuted). For exponential, gaussian and Matern variograms it is NaN everywhere (C35_zero_nan_refuted)."
  },
  {
   "property": "C36",
   "status": "proved",
   "theorems": [
    "C36_correlation"
   ],
   "note": "Exact arithmetic, all created variograms."
  },
  {
   "property": "C37",
   "status": "proved",
   "theorems": [
    "C37_dimensions",
    "C37_double_1d",
    "C37_double_2d"
   ],
   "note": "Exact arithmetic for all variograms; bit for bit in doubles when the anisotropy products are finite."
  },
  {
   "property": "C38",
   "status": "partial",
   "theorems": [
    "C38_axes",
    "C38_norm",
    "C38_half_turn_partial",
    "C38_half_turn_refuted"
   ],
   "note": "Directions, ranges and norm proved. Adding 180 degrees to the azimuth changes nothing in 2D or without dip; it changes corr in 3D with dip (witness)."
  },
  {
   "property": "C39",
   "status": "proved",
   "theorems": [
    "C39_five_percent"
   ],
   "note": "For every lag vector of normalised distance one."
  },
  {
   "property": "C40",
   "status": "proved",
   "theorems": [
    "C40_bitwise_symmetric"
   ],
   "note": "Flocq binary64 with a single NaN; libm functions arbitrary."
  },
  {
   "property": "C41",
   "status": "partial",
   "theorems": [
    "C41_never_increases",
    "C32_symmetric_1d",
    "C41_one_range_x_partial",
    "C41_one_range_y_partial",
    "C41_rotated_partial",
    "C41_one_range_y_refuted"
   ],
   "note": "Never increases, lag zero, symmetry: proved. Any angles: each parameter is the factor at one reach along its axis, where the reach is the largest projection of the three axes up to 0.001 of the other ranges, because the code uses 3.14/2 for a quarter turn. Without rotation: exactly the parameter along x; along y off by a power below 1.000001 (witness)."
  },
  {
   "property": "C42",
   "status": "proved",
   "theorems": [
    "C42_like_fresh",
    "C42_effect",
    "C42_throws"
   ],
   "note": "All setter sequences, any arithmetic."
  },
  {
   "property": "C43",
   "status": "proved",
   "theorems": [
    "C43_round_trip_1d",
    "C43_round_trip_2d",
    "C43_round_trip_3d",
    "C43_energy_1d",
    "C43_energy_2d",
    "C43_energy_3d"
   ],
   "note": ""
  },
  {
   "property": "C44",
   "status": "proved",
   "theorems": [
    "C44_index_of_cell_2d",
    "C44_cell_of_index_2d",
    "C44_index_of_cell_3d",
    "C44_cell_of_index_3d",
    "C44_in_range",
    "C44_write_one_cell_2d",
    "C44_write_one_cell_3d",
    "C44_valid"
   ],
   "note": ""
  },
  {
   "property": "C45",
   "status": "proved",
   "theorems": [
    "C45_bulk_is_single"
   ],
   "note": "Any sequence of even sizes >= 382 from a fresh generator, four kinds, both builds with their own conversions."
  },
  {
   "property": "C46",
   "status": "partial",
   "theorems": [
    "C46_leak_count_partial",
    "C46_no_accumulation_refuted"
   ],
   "note": "False of the code: each 1D/2D field leaves one generator object behind. Proved: the exact number lost after any program."
  },
  {
   "property": "C47",
   "status": "partial",
   "theorems": [
    "C47_star_import_refuted",
    "C47_other_names_partial"
   ],
   "note": "False: SizeTVector and DoubleVector are listed but not defined; every other name works."
  },
  {
   "property": "C48",
   "status": "proved",
   "theorems": [
    "C48_units"
   ],
   "note": "Exact arithmetic. Ranges are taken non-zero because division by zero is not IEEE's over the reals."
  },
  {
   "property": "C49",
   "status": "proved",
   "theorems": [
    "C49_constant"
   ],
   "note": "Exact arithmetic; grid_fits: the padded size is at least the number of cells (C19/C20)."
  },
  {
   "property": "C50",
   "status": "proved",
   "theorems": [
    "C50_raw_noise"
   ],
   "note": "Exact arithmetic; the order of the draws is part of the statement."
  },
  {
   "property": "C51",
   "status": "proved",
   "theorems": [
    "C51_position_or_keyword",
    "C51_keyword_order",
    "C51_default",
    "C51_rejected",
    "C51_variogram",
    "C51_size_simulate",
    "C51_advanced",
    "C51_seed",
    "C51_corr"
   ],
   "note": "Python objects other than None, bool, int, float, str, Variogram and Enum members are not modelled."
  },
  {
   "property": "C52",
   "status": "partial",
   "theorems": [
    "C52_stubs_partial",
    "C52_stubs_refuted"
   ],
   "note": "False of the code: simulate(v, nx, ny, nz, dx, dy, dz), the two shorter overloads of advanced.simulate, seed(seed=...) and corr(dx=...) (refuted). Proved for all other overloads."
  },
  {
   "property": "C53",
   "status": "partial",
   "theorems": [
    "C53_none_refuted",
    "C53_none_always",
    "C53_none_partial",
    "C53_none_elsewhere"
   ],
   "note": "False of the code: None in the place of the variogram is bound as a null pointer and dereferenced. Proved for all other calls."
  },
  {
   "property": "C54",
   "status": "proved",
   "theorems": [
    "C54_members",
    "C54_one_each"
   ],
   "note": ""
  },
  {
   "property": "C55",
   "status": "partial",
   "theorems": [
    "C55_fields_3d",
    "C55_fields_2d_partial",
    "C55_fields_2d_null",
    "C55_fields_2d_refuted"
   ],
   "note": "Holds in 3D and in 2D with a generator supplied by the caller; refuted in 2D without one (one seed is drawn for all fields)."
  },
  {
   "property": "C56",
   "status": "proved",
   "theorems": [
    "C56_same_seed_same_field",
    "C56_repeats",
    "C56_unseeded"
   ],
   "note": ""
  },
  {
   "property": "C57",
   "status": "proved",
   "theorems": [
    "C57_own_generator_2d",
    "C57_own_generator_1d",
    "C57_like_python"
   ],
   "note": "The 3D function has no generator parameter."
  },
  {
   "property": "C58",
   "status": "partial",
   "theorems": [
    "C58_vector_filled_partial",
    "C58_vector_too_long_refuted"
   ],
   "note": "Holds for vectors up to the padded size; a longer one is filled by reading out of bounds."
  },
  {
   "property": "C59",
   "status": "proved",
   "theorems": [
    "C59_estimate",
    "C59_unbiased"
   ],
   "note": "Exact arithmetic; numpy and scipy functions by their documentation."
  },
  {
   "property": "C60",
   "status": "partial",
   "theorems": [
    "C60_shift",
    "C60_reported_distance_refuted",
    "C60_first_value"
   ],
   "note": "False: the value reported at (k+1)*dx has the correlation at k*dx as its mean (the 'midpoints' are the upper ends of the bins); for exponential variograms it is always too large. The first value is 1 whatever the fields."
  },
  {
   "property": "C61",
   "status": "partial",
   "theorems": [
    "C61_dummy_data",
    "C61_exact_refuted"
   ],
   "note": "The estimates are the average correlations of the bins. The agreement with true_variogram is false: that one is evaluated at the upper ends of the bins."
  },
  {
   "property": "C62",
   "status": "proved",
   "theorems": [
    "C62_all",
    "C62_one",
    "C62_random",
    "C62_regular",
    "C62_offsets",
    "C62_backwards",
    "C62_errors"
   ],
   "note": "random.sample is any list of different positions."
  },
  {
   "property": "C63",
   "status": "partial",
   "theorems": [
    "C63_shapes_refuted"
   ],
   "note": "True for grids with more than one row in y, or one row in z (C59_estimate). False with one row in y and several in z."
  },
  {
   "property": "C64",
   "status": "proved",
   "theorems": [
    "C64_points",
    "C64_groups",
    "C64_value",
    "C64_mean"
   ],
   "note": "Exact arithmetic; connected components of the closeness graph by definition."
  },
  {
   "property": "C65",
   "status": "partial",
   "theorems": [
    "C65_deviation",
    "C65_zero_mean_refuted"
   ],
   "note": "The deviations are from the first m simulations, m the last number up to nmax that ends in 1 (591 of the default 600). Zero mean is false: the shift of C60 remains. One dimension, resolution equal to the spacing (the defaults)."
  },
  {
   "property": "C66",
   "status": "partial",
   "theorems": [
    "C66_seed_partial",
    "C66_seed_zero_refuted",
    "C66_axis_refuted"
   ],
   "note": "False for the seed 0, which is replaced by 12313, and for the distances."
  },
  {
   "property": "C67",
   "status": "proved",
   "theorems": [
    "C67_values",
    "C67_bounds",
    "C67_points"
   ],
   "note": "Exact arithmetic; after any history of setter calls."
  },
  {
   "property": "C68",
   "status": "partial",
   "theorems": [
    "C68_failed_read_partial",
    "C68_what_is_reported",
    "C68_reported_seed_refuted",
    "C68_refused"
   ],
   "note": "The stream is kept; the seed reported becomes 0 or 2^64-1 when the file is read but holds no number (refuted)."
  },
  {
   "property": "C69",
   "status": "proved",
   "theorems": [
    "C69_text",
    "C69_read",
    "C69_handover",
    "C69_chain"
   ],
   "note": "num_get/num_put of the C++ library modelled for decimal unsigned long."
  },
  {
   "property": "C70",
   "status": "partial",
   "theorems": [
    "C70_crash_partial",
    "C70_crash_refuted",
    "C70_full_disk_refuted"
   ],
   "note": "False as stated: the file is emptied first, so a crash (or a full disk, without an exception) can leave an empty file, or a seed cut short. What can be left is characterised."
  },
  {
   "property": "C71",
   "status": "partial",
   "theorems": [
    "C71_only_needed",
    "C71_all_needed",
    "C71_start_header_refuted"
   ],
   "note": "Holds except for headers given as start files, whose source files are not collected. The regular expressions and the preprocessor are not modelled: each file has a list of names."
  },
  {
   "property": "C72",
   "status": "proved",
   "theorems": [
    "C72_ends"
   ],
   "note": ""
  },
  {
   "property": "C73",
   "status": "partial",
   "theorems": [
    "C73_skipped_partial",
    "C73_folders_refuted"
   ],
   "note": "False as stated: the test compares text prefixes, so ignoring 'sr' drops 'src'."
  },
  {
   "property": "C74",
   "status": "partial",
   "theorems": [
    "C74_spherical",
    "C74_one_dimension_partial",
    "C74_rotated_partial",
    "C74_nearly_partial",
    "C74_above_one_refuted",
    "C74_nan_refuted"
   ],
   "note": "False as stated: Matern 5/2 with range 1 gives 1 + 2^-52 at lag 3.3e-9 (C74_above_one_refuted) and NaN at lag 2^511 (C74_nan_refuted). Proved: the spherical type for every object and all lags; the other types without a polynomial factor for 1D lags and ranges between 2^-400 and 2^400, and for 1D, 2D and 3D lags with any angles when no range is more than 2^18 times another; all types, Matern too, finite and in [0,1] up to k^2*2^-40 (k the ratio of the ranges). Missing: very anisotropic rotated variograms, where the distance can be a NaN (C77)."
  },
  {
   "property": "C75",
   "status": "partial",
   "theorems": [
    "C75_lag_zero",
    "C75_tiny_range_refuted"
   ],
   "note": "Proved for ranges between 2^-400 and 2^400 and finite angles; false for range 2^-600, whose square underflows (C75_tiny_range_refuted). Of the C library it asks exp(0) = 1, pow(0, p) = 0, |sin|, |cos| <= 1."
  },
  {
   "property": "C76",
   "status": "partial",
   "theorems": [
    "C76_monotone_partial",
    "C76_general_exponential_partial",
    "C76_nearly_partial",
    "C76_spherical_refuted",
    "C76_matern_refuted"
   ],
   "note": "False for the spherical type (C76_spherical_refuted) and Matern 5/2 (C76_matern_refuted). Proved for constant, exponential, Gaussian and general exponential in 1D, with libm exp and pow that never decrease; for all types, in 1D, 2D and 3D along any ray, up to the accuracy of C77 (C76_nearly_partial)."
  },
  {
   "property": "C77",
   "status": "partial",
   "theorems": [
    "C77_rotated_refuted",
    "C77_rotated_nan_refuted",
    "C77_unrotated_partial",
    "C77_unrotated_all_partial",
    "C77_rotated_partial"
   ],
   "note": "False as stated: two refuted witnesses (rotated, very anisotropic variogram). Proved, given exp, sin, cos and pow that round correctly and ranges and lags between 2^-100 and 2^100: without rotation within 2^-49 (types that do not call pow) or 2^-47 (all types); with any azimuth and dip within k^2*2^-40 when no range is more than k <= 2^18 times another. Missing: larger anisotropy with rotation, where it is false from k = 3.3e8 on."
  },
  {
   "property": "C78",
   "status": "partial",
   "theorems": [
    "C78_fields_refuted",
    "C78_at_most_2_32_fields"
   ],
   "note": "False in one and two dimensions: 41243 and 69349 give the same field for every call (C78_fields_refuted). A 1D or 2D call has at most 2^32 results, whatever the history (C78_at_most_2_32_fields). The uniform streams do differ (C05); nothing is proved about 3D fields."
  },
  {
   "property": "C79",
   "status": "partial",
   "theorems": [
    "C79_repeat_refuted"
   ],
   "note": "False in one and two dimensions: after seed(140136564) the sixth and the seventh field are the same, for every call. Nothing is proved about 3D fields."
  },
  {
   "property": "C80",
   "status": "partial",
   "theorems": [
    "C80_same_second",
    "C80_different_seconds_refuted",
    "C80_time_refuted"
   ],
   "note": "The warning about the same second is proved. Different seconds can give the same results (two seconds of 21 September 2026), and seed() does not report the time but a number drawn from a generator started with it."
  },
  {
   "property": "C81",
   "status": "partial",
   "theorems": [
    "C81_variance_1d_partial",
    "C81_default_padding_refuted"
   ],
   "note": "Proved in 1D for the convex variograms; refuted for a 1D gaussian variogram at azimuth 90, whose perpendicular range the default padding ignores (variance at least 1.047). 2D and 3D: C29 gives the excess. Exact arithmetic."
  },
  {
   "property": "C82",
   "status": "proved",
   "theorems": [
    "C82_calls",
    "C82_errors",
    "C82_fit",
    "C82_line"
   ],
   "note": "The fit is in exact arithmetic; timings are arbitrary numbers. C82_calls assumes that the simulations return."
  },
  {
   "property": "C83",
   "status": "partial",
   "theorems": [
    "C83_all_or_nothing_partial",
    "C83_nothing_left",
    "C83_drawn_in_vain",
    "C83_exception_refuted",
    "C83_retry_refuted"
   ],
   "note": "False as stated: fftw_malloc's result is used without a test, so every call can write through a null pointer (C83_exception_refuted); an allocation that fails after the draws leaves the stream advanced (C83_drawn_in_vain, C83_retry_refuted). Proved: in every other case an exception is raised and the stream is where it was or where the successful call leaves it, nowhere in between. FFTW's own working memory is not modelled."
  },
  {
   "property": "C84",
   "status": "partial",
   "theorems": [
    "C84_isolated",
    "C84_forked_refuted"
   ],
   "note": "Isolation is proved. The second sentence is false: a forked process continues its parent's stream and gets the same fields from the same calls (C84_forked_refuted)."
  },
  {
   "property": "C85",
   "status": "partial",
   "theorems": [
    "C85_tables_partial",
    "C85_noise_1d",
    "C85_noise_2d",
    "C85_noise_3d",
    "C85_simulate_1d_partial",
    "C85_simulate_2d_partial",
    "C85_simulate_3d_partial",
    "C85_fields_2d_partial",
    "C85_fields_3d_partial"
   ],
   "note": "Only the default smoothing (off). Assumed: exp, sin, cos, pow are correctly rounded to within the stated error, the transforms have relative error eps >= 2^-53, good logarithms in the size search and reported sizes of at most 2^25 (2D) or 2^16 (3D) cells a direction (C85_fields; no such bound in 1D), and the generator never gives exactly one half twice in a row (C12). The C85_noise theorems hold for any smoothing and any tables that are near each other."
  },
  {
   "property": "C86",
   "status": "partial",
   "theorems": [
    "C86_packaged_partial",
    "C86_version_refuted",
    "C86_interrupted_refuted"
   ],
   "note": "False as stated: the state file does not record the version, so after a finished build a build of another version returns at once with the old library (C86_version_refuted); a build killed during the installation leaves a library in part, which the next build takes for whole (C86_interrupted_refuted). Proved: one version, and no script or library left in part."
  },
  {
   "property": "C87",
   "status": "partial",
   "theorems": [
    "C87_retry_partial",
    "C87_again",
    "C87_download_refuted"
   ],
   "note": "False as stated: a connection that breaks leaves an empty archive that is never replaced; no later build of that version for that platform returns. Proved when no archive, script or library was left in part."
  },
  {
   "property": "C88",
   "status": "proved",
   "theorems": [
    "C88_ignored",
    "C88_effect"
   ],
   "note": ""
  },
  {
   "property": "C89",
   "status": "partial",
   "theorems": [
    "C89_swap",
    "C89_compass",
    "C89_degrees",
    "C89_size_refuted"
   ],
   "note": "The correlation part is proved in exact arithmetic (angles in radians; the degree constant of the code is within 1e-20 of pi/180). False for simulation_size: azimuth 0 is treated apart, so the mirrored problem gets another size."
  },
  {
   "property": "C90",
   "status": "proved",
   "theorems": [
    "C90_ranges"
   ],
   "note": "Exact arithmetic."
  },
  {
   "property": "C91",
   "status": "proved",
   "theorems": [
    "C91_grows"
   ],
   "note": "Double precision, any libm."
  },
  {
   "property": "C92",
   "status": "proved",
   "theorems": [
    "C92_any_direction",
    "C92_size"
   ],
   "note": ""
  },
  {
   "property": "C93",
   "status": "proved",
   "theorems": [
    "C93_azimuth",
    "C93_dip"
   ],
   "note": "Up to the sign of a zero result."
  },
  {
   "property": "C94",
   "status": "partial",
   "theorems": [
    "C94_up_to_2_18",
    "C94_fits_partial",
    "C94_wrap_refuted"
   ],
   "note": "False as stated: a 3D grid whose number of bytes is a multiple of 2^64 (4 x 2^30 x 2^30 cells) is asked for as 0 bytes and then filled. Proved for padded sizes up to 2^18 in each direction, for all 1D and 2D calls, and in 3D up to 2^60 cells."
  },
  {
   "property": "C95",
   "status": "partial",
   "theorems": [
    "C95_tables_partial",
    "C95_fields_partial",
    "C95_long",
    "C95_short",
    "C95_short_refuted",
    "C95_long_refuted"
   ],
   "note": "False for very short and very long ranges (refuted): the base s^(1/range^2) underflows to 0 for range^2 / -ln s below about 1/760, so the field becomes white noise, and rounds to 1 above 2^56, so there is no smoothing at all. Proved in between (spread from 1/650 to 2^48) for unrotated variograms, with error (1 + spread) * 2^-47 per smoothed axis. Missing: rotated variograms."
  },
  {
   "property": "C96",
   "status": "partial",
   "theorems": [
    "C96_power_of_two_partial",
    "C96_still_made",
    "C96_kilometres_refuted"
   ],
   "note": "False as stated: C96_kilometres_refuted shows a change of unit by 0.001 changing simulation_size from 16 to 15, because the quotient range/spacing is truncated. Proved bit for bit for factors that are powers of two, without smoothing."
  },
  {
   "property": "C97",
   "status": "partial",
   "theorems": [
    "C97_answers_partial",
    "C97_fields_partial",
    "C97_long_range_refuted",
    "C97_other_ranges_refuted",
    "C97_many_cells_refuted",
    "C97_other_cells_refuted"
   ],
   "note": "False as stated: a main range of 2^31 cells or more, or 2^32 or more cells in x with short ranges, converts a double to int out of range, which is undefined; the default padding is computed even when the padding is given. Proved: simulation_size returns for up to 2^30 cells and ranges up to 2^27 cells a direction (C97_answers_partial), and simulations return when no direction can need more than B < 2^29 nodes and the size search has good logarithms up to B (C97_fields_partial). The same is shown for the perpendicular range in 2D and 3D and the depth range in 3D (C97_other_ranges_refuted), and for 2^32 or more cells in y or z (C97_other_cells_refuted)."
  },
  {
   "property": "C98",
   "status": "partial",
   "theorems": [
    "C98_variogram_refuted",
    "C98_range_refuted",
    "C98_other_ranges_refuted",
    "C98_cell_size_refuted",
    "C98_any_cell_size_refuted",
    "C98_lag_refuted",
    "C98_other_lags_refuted"
   ],
   "note": "False: variogram() takes every number; simulation_size and all simulations convert a NaN or infinite quotient to int (undefined) for every NaN or infinite main range, for such a depth range in 3D, for an infinite perpendicular range (or a NaN one with azimuth 0) in 2D and 3D, and for every zero or NaN cell size in a direction the call counts; a spherical correlation of a NaN lag is 0, a constant one 1, an exponential, gaussian or Matern one NaN."
  }
 ]
}