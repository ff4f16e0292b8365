{
 "claims": [
  {
   "property": "C01",
   "status": "proved",
   "theorems": [
    "C01_bl_roundtrip",
    "C01_bl_order_free",
    "C01_bl_injective",
    "C01_bl_2047_refuted"
   ],
   "note": "antenna 2047 does not round trip (finding, refuted theorem)"
  },
  {
   "property": "C02",
   "status": "proved",
   "theorems": [
    "C02_layers_agree"
   ],
   "note": ""
  },
  {
   "property": "C03",
   "status": "proved",
   "theorems": [
    "C03_blp_roundtrip",
    "C03_blp_injective"
   ],
   "note": ""
  },
  {
   "property": "C04",
   "status": "proved",
   "theorems": [
    "C04_disk_bytes",
    "C04_int32_roundtrip",
    "C04_int64_roundtrip",
    "C04_int16_roundtrip",
    "C04_float_bits_roundtrip",
    "C04_double_bits_roundtrip",
    "C04_int16_overflow_refuted"
   ],
   "note": ""
  },
  {
   "property": "C09",
   "status": "proved",
   "theorems": [
    "C09_mask_history",
    "C09_mask_write_read"
   ],
   "note": "item below the bitmap taken as a flat word array (C05)"
  },
  {
   "property": "C10",
   "status": "proved",
   "theorems": [
    "C09_mask_history",
    "C10_runs_canonical",
    "C10_runs_roundtrip"
   ],
   "note": ""
  },
  {
   "property": "C28",
   "status": "proved",
   "theorems": [
    "C28_bl_indices_exact",
    "C28_bl_indices_nodup",
    "C28_bl_indices_decode"
   ],
   "note": ""
  },
  {
   "property": "C05",
   "status": "proved",
   "theorems": [
    "C05_new_item_history",
    "C05_file_item_history",
    "C05_cached_item_history",
    "C05_write_read",
    "C05_mixed_alignment_refuted",
    "C05_2GiB_refuted",
    "C05_sparse_growth_refuted",
    "C05_empty_write_refuted"
   ],
   "note": "the _refuted theorems show the limits in the statement are needed (findings)"
  },
  {
   "property": "C06",
   "status": "proved",
   "theorems": [
    "C06_dataset_history",
    "C06_reopen_invisible",
    "C06_empty_item_refuted"
   ],
   "note": "items with empty contents are outside the statement (refuted theorem); bytes of an open item by C05"
  },
  {
   "property": "C11",
   "status": "proved",
   "theorems": [
    "C11_variable_stream",
    "C12_records_in_order"
   ],
   "note": ""
  },
  {
   "property": "C12",
   "status": "proved",
   "theorems": [
    "C12_records_in_order",
    "C12_many_variables_refuted",
    "C12_initial_time_refuted",
    "C12_preamble_set_refuted",
    "C12_read_past_end_refuted"
   ],
   "note": "the _refuted theorems show why the limits in the statement are needed (findings); the vartable, vislen and flags items are carried over as values (C06, C09)"
  },
  {
   "property": "C13",
   "status": "proved",
   "theorems": [
    "C13_rewind_restarts",
    "C13_rewind_with_decimation"
   ],
   "note": "C13_rewind_restarts: values of the records (stream level); C13_rewind_with_decimation: which records, with selection and decimation"
  },
  {
   "property": "C14",
   "status": "proved",
   "theorems": [
    "C14_decimation"
   ],
   "note": ""
  },
  {
   "property": "C15",
   "status": "proved",
   "theorems": [
    "C15_antenna_selection",
    "C15_one_baseline",
    "C15_reversed_pair_refuted"
   ],
   "note": "records written with i>j are looked up as another baseline (finding, refuted theorem)"
  },
  {
   "property": "C16",
   "status": "proved",
   "theorems": [
    "C16_selected_records",
    "C14_decimation",
    "C16_dazim_ignored_refuted",
    "C16_clear_keeps_limit_refuted",
    "C16_fractional_visibility_refuted"
   ],
   "note": "the _refuted theorems show the limits in the statement are needed (findings)"
  },
  {
   "property": "C19",
   "status": "proved",
   "theorems": [
    "C19_channels_denoted",
    "C19_all_channels",
    "C19_nothing_else",
    "C19_descending_end_refuted"
   ],
   "note": "descending ranges leave out the end point (finding)"
  },
  {
   "property": "C20",
   "status": "proved",
   "theorems": [
    "C20_entries_denoted",
    "C20_entries_select",
    "C20_polarisation_select",
    "C20_string_to_records",
    "C20_lone_group_refuted",
    "C20_pol_not_swapped_refuted",
    "C20_all_with_pol_refuted",
    "C20_exclude_pol_refuted",
    "C20_rejects"
   ],
   "note": "the _refuted theorems are findings about strings outside or at the edge of the grammar"
  },
  {
   "property": "C21",
   "status": "proved",
   "theorems": [
    "C21_round_trip",
    "C21_new_values",
    "C21_single_refuted",
    "C21_empty_refuted"
   ],
   "note": "the _refuted theorems show why lists need two values (findings)"
  },
  {
   "property": "C22",
   "status": "proved",
   "theorems": [
    "C22_fixed_source",
    "C22_special_source",
    "C22_requested_names",
    "C22_catalog",
    "C22_gaussian_beam",
    "C22_gaussian_changed",
    "C22_polynomial_beam",
    "C22_alm_beam",
    "C22_alm_restore",
    "C22_antenna",
    "C22_mfreq_refuted",
    "C22_polynomial_list_refuted",
    "C22_alm_refuted",
    "C22_pol_bandpass_refuted",
    "C22_delay_with_list_refuted",
    "C22_polynomial_accepted",
    "C22_alm_set"
   ],
   "note": "the _refuted theorems are the exceptions named in the statement (findings)"
  },
  {
   "property": "C23",
   "status": "proved",
   "theorems": [
    "C23_independent",
    "C23_default_argument_refuted",
    "C23_copied_parameters_refuted"
   ],
   "note": "the _refuted theorems show the discipline is needed (findings)"
  },
  {
   "property": "C51",
   "status": "proved",
   "theorems": [
    "C51_parameters_in_effect",
    "C51_nothing_set"
   ],
   "note": ""
  },
  {
   "property": "C37",
   "status": "proved",
   "theorems": [
    "C37_conserved_1d_real",
    "C37_conserved_2d_real",
    "C37_conserved_1d_complex",
    "C37_conserved_2d_complex"
   ],
   "note": "exact real arithmetic"
  },
  {
   "property": "C38",
   "status": "proved",
   "theorems": [
    "C38_mask_1d_real",
    "C38_mask_2d_real",
    "C38_mask_1d_complex",
    "C38_mask_2d_complex",
    "C38_component_1d_real",
    "C38_component_2d_real",
    "C38_component_1d_complex",
    "C38_component_2d_complex",
    "C38_pos_def_1d",
    "C38_pos_def_2d",
    "C38_mask_high_word_refuted"
   ],
   "note": "exact real arithmetic; the _refuted theorem is a finding about masks with entries of 2^32"
  },
  {
   "property": "C39",
   "status": "proved",
   "theorems": [
    "C39_stop_1d_real",
    "C39_stop_2d_real",
    "C39_stop_1d_complex",
    "C39_stop_2d_complex",
    "C39_maxiter_1d_real",
    "C39_maxiter_2d_complex",
    "C39_divergence_reported",
    "C39_term_1d_real",
    "C39_term_2d_real",
    "C39_term_1d_complex",
    "C39_term_2d_complex",
    "C39_zero_image_hangs_refuted",
    "C39_tol_exit_refuted"
   ],
   "note": "exact real arithmetic; the _refuted theorems show what happens without stop_if_div (findings)"
  },
  {
   "property": "C31",
   "status": "proved",
   "theorems": [
    "C31_adds_every_datum",
    "C31_addressed_total",
    "C31_invalid_raises",
    "C31_long_index_refuted"
   ],
   "note": "any element type with a commutative addition; the _refuted theorem is a finding (indices are cut to 32 bits)"
  },
  {
   "property": "C32",
   "status": "proved",
   "theorems": [
    "C32_grid1D",
    "C32_grid2D",
    "C32_grid2D_total",
    "C32_degrid2D",
    "C32_degrid_constant",
    "C32_transpose",
    "C32_weights_sum_refuted",
    "C32_not_square_refuted",
    "C32_degrid_initial_refuted"
   ],
   "note": "exact real arithmetic; the _refuted theorems are findings (weights do not sum to one, buffers that are not square, output not zeroed)"
  },
  {
   "property": "C33",
   "status": "proved",
   "theorems": [
    "C33_recenter",
    "C33_empty_axis_refuted"
   ],
   "note": ""
  },
  {
   "property": "C34",
   "status": "proved",
   "theorems": [
    "C34_samples",
    "C34_put_hermitian",
    "C34_real_image",
    "C34_one_weight_refuted",
    "C34_weights"
   ],
   "note": "exact real arithmetic; the _refuted theorem is a finding"
  },
  {
   "property": "C35",
   "status": "proved",
   "theorems": [
    "C35_put",
    "C35_get",
    "C35_zero_wres_refuted",
    "C35_get_single_refuted",
    "C35_get_stale_refuted",
    "C35_get_transposed_refuted",
    "C35_weights"
   ],
   "note": "for every projection of a uv matrix and every rounding; exact real arithmetic; the _refuted theorems are findings"
  },
  {
   "property": "C36",
   "status": "proved",
   "theorems": [
    "C36_word_wrap",
    "C36_words_kept",
    "C36_narrow_refuted"
   ],
   "note": "the _refuted theorem is a finding (no room: words vanish or the call raises)"
  },
  {
   "property": "C41",
   "status": "proved",
   "theorems": [
    "C41_one_add",
    "C41_history",
    "C41_first_add",
    "C41_repeated_pixel_refuted",
    "C41_reset_wgt",
    "C41_reset_other_wgt_refuted",
    "C41_unweighted"
   ],
   "note": "for every pixelization and interpolation; exact real arithmetic; the _refuted theorems are findings (a call naming a pixel twice; reset_wgt to another value than one)"
  },
  {
   "property": "C42",
   "status": "proved",
   "theorems": [
    "C42_assign",
    "C42_read_back",
    "C42_scalar",
    "C42_invalid",
    "C42_wrong_count",
    "C42_scalar_refuted",
    "C42_side_16384_refuted"
   ],
   "note": "the _refuted theorems are findings (one number for several pixels raises; 32-bit pixel numbers)"
  },
  {
   "property": "C43",
   "status": "proved",
   "theorems": [
    "C43_change_scheme",
    "C43_to_coarser",
    "C43_to_finer",
    "C43_same_scheme",
    "C43_set_map",
    "C43_set_map_side",
    "C43_argument_changed_refuted",
    "C43_other_scheme_refuted",
    "C43_brightness_refuted",
    "C43_from_map"
   ],
   "note": "for every pixelization meeting the contract (bijective renumbering, consistent centres), shown inhabited; the _refuted theorems are findings"
  },
  {
   "property": "C44",
   "status": "proved",
   "theorems": [
    "C44_set_get",
    "C44_lm_indices",
    "C44_new",
    "C44_bad_lm_refuted",
    "C44_from_alm_refuted",
    "C44_set_data"
   ],
   "note": "the _refuted theorems are findings"
  },
  {
   "property": "C45",
   "status": "proved",
   "theorems": [
    "C45_order",
    "C45_bit_reverse",
    "C45_shuffle",
    "C45_points",
    "C45_facet_centers",
    "C45_numpy_refuted"
   ],
   "note": "exact real arithmetic, so arange has exactly N elements; the _refuted theorem is a finding (every N above 1 raises with numpy 1.10 and later)"
  },
  {
   "property": "C46",
   "status": "proved",
   "theorems": [
    "C46_window",
    "C46_tukey",
    "C46_tukey_ends",
    "C46_parzen",
    "C46_unknown",
    "C46_keyword",
    "C46_parzen_refuted",
    "C46_none_refuted",
    "C46_tukey_one_refuted"
   ],
   "note": "exact real arithmetic; i0 is any positive nondecreasing function; the _refuted theorems are findings"
  },
  {
   "property": "C49",
   "status": "proved",
   "theorems": [
    "C49_get_srcs",
    "C49_unknown",
    "C49_arguments",
    "C49_keys",
    "C49_get",
    "C49_by_name",
    "C49_all",
    "C49_by_flux",
    "C49_made",
    "C49_get_srcs_all_refuted",
    "C49_add_part_refuted",
    "C49_calls"
   ],
   "note": "reading the catalogue files is not modelled; the _refuted theorems are findings"
  },
  {
   "property": "C47",
   "status": "proved",
   "theorems": [
    "C47_only_adds",
    "C47_curve",
    "C47_first_pass",
    "C47_other_size",
    "C47_flag_by_int",
    "C47_wrong_sample_refuted",
    "C47_passes",
    "C47_pass",
    "C47_no_mask"
   ],
   "note": "exact real arithmetic; the polynomial fit is a parameter; the _refuted theorem is a finding"
  },
  {
   "property": "C24",
   "status": "proved",
   "theorems": [
    "C24_rot_m",
    "C24_right_handed",
    "C24_eq2top",
    "C24_top2eq",
    "C24_convert_m",
    "C24_scaling_refuted",
    "C24_reversed_refuted"
   ],
   "note": "exact real arithmetic; the precession and system change done by ephem is a parameter; the _refuted theorems are findings (docstrings)"
  },
  {
   "property": "C25",
   "status": "proved",
   "theorems": [
    "C25_thphi",
    "C25_thphi_back",
    "C25_radec",
    "C25_radec_back",
    "C25_directions",
    "C25_azalt",
    "C25_azalt_back",
    "C25_length",
    "C25_north"
   ],
   "note": "exact real arithmetic: no signed zeros or rounding"
  },
  {
   "property": "C26",
   "status": "proved",
   "theorems": [
    "C26_opposite",
    "C26_closure",
    "C26_self",
    "C26_length",
    "C26_body_rotation",
    "C26_projection",
    "C26_w",
    "C26_body",
    "C26_strings",
    "C26_uvw",
    "C26_equatorial_refuted"
   ],
   "note": "exact real arithmetic; sidereal time and altitudes computed by ephem are parameters; the _refuted theorem is a finding"
  },
  {
   "property": "C27",
   "status": "proved",
   "theorems": [
    "C27_phase",
    "C27_modulus",
    "C27_conjugate",
    "C27_closure",
    "C27_there_and_back",
    "C27_phasing",
    "C27_mfreq_refuted"
   ],
   "note": "exact real arithmetic; the _refuted theorem is a finding"
  },
  {
   "property": "C48",
   "status": "proved",
   "theorems": [
    "C48_select",
    "C48_no_such_channel",
    "C48_last_counts",
    "C48_restore",
    "C48_whole_band",
    "C48_in_step",
    "C48_antenna_refuted",
    "C48_failed_refuted"
   ],
   "note": "exact real arithmetic; the beam pattern is a parameter of the beam; the _refuted theorems are findings"
  },
  {
   "property": "C29",
   "status": "proved",
   "theorems": [
    "C29_no_time",
    "C29_no_cache",
    "C29_none_up",
    "C29_sources",
    "C29_same_time",
    "C29_sim_keeps",
    "C29_response",
    "C29_response_refuted",
    "C29_ephem_refuted",
    "C29_stale_refuted",
    "C29_flux_width"
   ],
   "note": "exact real arithmetic; sidereal time and Bessel function are parameters; the _refuted theorems are findings"
  },
  {
   "property": "C30",
   "status": "proved",
   "theorems": [
    "C30_kept",
    "C30_up",
    "C30_time",
    "C30_failed",
    "C30_short",
    "C30_surplus_refuted"
   ],
   "note": "exact real arithmetic; the _refuted theorem is a finding"
  },
  {
   "property": "C52",
   "status": "proved",
   "theorems": [
    "C52_sum",
    "C52_superposition",
    "C52_conjugate",
    "C52_auto",
    "C52_phased"
   ],
   "note": "exact real arithmetic; sidereal time and Bessel function are parameters"
  },
  {
   "property": "C53",
   "status": "proved",
   "theorems": [
    "C53_bounded",
    "C53_zenith",
    "C53_gauss",
    "C53_poly",
    "C53_pointing",
    "C53_response",
    "C53_y",
    "C53_width_refuted",
    "C53_y_refuted"
   ],
   "note": "exact real arithmetic; BeamAlm is not modelled; the _refuted theorems are findings"
  },
  {
   "property": "C40",
   "status": "proved",
   "theorems": [
    "C40_lsq",
    "C40_lsq_bounds",
    "C40_lsq_outside",
    "C40_no_iteration",
    "C40_anneal_report",
    "C40_anneal_first",
    "C40_anneal_turn",
    "C40_anneal_never_worse",
    "C40_anneal_best",
    "C40_anneal_bounds",
    "C40_anneal_changed",
    "C40_maxent",
    "C40_maxent_step",
    "C40_findvar",
    "C40_findvar_none",
    "C40_lsq_score_refuted",
    "C40_lsq_bounds_refuted",
    "C40_anneal_bounds_refuted",
    "C40_maxent_finite_refuted",
    "C40_maxent_bounds_refuted",
    "C40_maxent_run"
   ],
   "note": "the _refuted theorems are findings: lsq reports the score of the model one step earlier; with tol above 1 lsq returns the starting model unclipped; anneal and maxent never clip the starting model; a perfect fit makes maxent return nan with success; maxent_findvar without var always raises"
  },
  {
   "property": "C17",
   "status": "proved",
   "theorems": [
    "C17_quantum",
    "C17_zero_component",
    "C17_zeros",
    "C17_one_quantum_refuted",
    "C17_tiny_refuted"
   ],
   "note": "binary32 arithmetic through Flocq's rounding; the _refuted theorems are findings: the largest sample may lose slightly more than one quantum (1045 alone comes back as 1044.968, 1.0028 quanta), and a record whose largest value is tiny cannot be scaled (32767/maxval overflows)"
  },
  {
   "property": "C18",
   "status": "proved",
   "theorems": [
    "C18_pipe",
    "C18_clone",
    "C18_same_time_refuted",
    "C18_late_variable_refuted",
    "C18_integer_array_refuted",
    "C18_decimated_source_refuted"
   ],
   "note": "For any source history and any per-record function meeting good_outs, the output is the function's records in order with the source's variables at each. C18_clone: the default function with any dropped records. Found and proved: a function giving two consecutive records one time where the source times differ is not obeyed; a variable first set after the first record, or an integer array, makes init_from_uv fail; variable updates at integrations skipped by decimation are lost. Header items and the history line are not modelled."
  },
  {
   "property": "C07",
   "status": "proved",
   "theorems": [
    "C07_header_history",
    "C07_set_then_get",
    "C07_back_is_the_value",
    "C07_header_history_ieee",
    "C07_single_complex",
    "C07_stored_again",
    "C07_wide_integer_refuted",
    "C07_one_element_refuted",
    "C07_nul_refuted",
    "C07_non_ascii_refuted",
    "C07_other_type",
    "C07_utf8"
   ],
   "note": "conversions between double and float are parameters in the first three and IEEE 754 (Flocq) in the _ieee theorems; values the statement leaves out are the refuted theorems"
  },
  {
   "property": "C08",
   "status": "proved",
   "theorems": [
    "C08_freqs",
    "C08_empty_refuted"
   ],
   "note": "up to 89478484 rows (2 GiB)"
  },
  {
   "property": "C50",
   "status": "proved",
   "theorems": [
    "C50_interrupted",
    "C50_vartable_roundtrip",
    "C50_blank_name_refuted",
    "C50_blank_name_cut",
    "C50_vartable_last_line",
    "C50_length_item"
   ],
   "note": "Crash points are the gaps between directory changes; the stream may be cut at any byte, a buffer of another item (under 16384 bytes) is written whole or not at all; reordering of writes by a power failure is not modelled. Variable names must be printable without blanks: a name with a blank is lost on close (C50_blank_name_refuted)."
  },
  {
   "property": "C54",
   "status": "proved",
   "theorems": [
    "C54_append_keeps_records",
    "C54_variables_across_openings",
    "C54_corrmode_of_reopening_ignored",
    "C54_append_without_record_refuted",
    "C54_can_reopen"
   ],
   "note": "Any number of openings. A data set to which no record was written cannot be reopened for appending (refuted). The header items vartable, vislen and ncorr are taken to come back as written (C50); the obstype item is not modelled."
  },
  {
   "property": "C55",
   "status": "proved",
   "theorems": [
    "C55_parameters_denoted",
    "C55_counts_checked",
    "C55_accepted_begins_with_assignments",
    "C55_nothing_ignored_refuted",
    "C55_sources_denoted",
    "C55_cut_denoted",
    "C55_named_source_refuted"
   ],
   "note": "float() is a parameter, so the theorems hold for any reading of numbers. Found and proved: text after a well-formed assignment is silently ignored; a source whose name begins with all cannot be named."
  },
  {
   "property": "C56",
   "status": "proved",
   "theorems": [
    "C56_read_files",
    "C56_rows_match_times",
    "C56_errors",
    "C56_missing_record_refuted",
    "C56_files_of_same_times_refuted",
    "C56_single_name_refuted"
   ],
   "note": "Composes parse_ants, uv_selector, selection, decimation and reading (C14, C16, C20) with the gathering loop. Numbers are exact; nants, sdf, sfreq, nchan and inttime are taken constant within a file. Found and proved: a record missing from an integration, or files covering the same times, misalign rows and times; a single file name is taken letter by letter."
  },
  {
   "property": "C57",
   "status": "proved",
   "theorems": [
    "C57_update",
    "C57_active_pol",
    "C57_linear_passband",
    "C57_passband_exchanged",
    "C57_linear_offset",
    "C57_offset_closure",
    "C57_stokes_offset",
    "C57_responses",
    "C57_parallactic_angle",
    "C57_parallactic_meridian",
    "C57_polarization_names",
    "C57_v_offset_refuted",
    "C57_i_offset_refuted",
    "C57_stokes_passband_refuted",
    "C57_unknown_name_refuted"
   ],
   "note": "Over exact reals; the beam is any real function of direction. Found and proved: the phase offset of Stokes V is the same for (i,j) and (j,i) and is not zero on autocorrelations; that of I and U is the sum, not the mean, of xx and yy; passband raises KeyError when a Stokes parameter is active; write_pol ignores unknown names."
  },
  {
   "property": "C58",
   "status": "proved",
   "theorems": [
    "C58_pixel_coordinates",
    "C58_directions",
    "C58_image",
    "C58_fourier_sum",
    "C58_point_source",
    "C58_peak",
    "C58_w_projection",
    "C58_w_planes",
    "C58_w_source",
    "C58_convolution",
    "C58_inverse_transform",
    "C58_gaussian_beam",
    "C58_w_scale_refuted",
    "C58_get_uv_refuted",
    "C58_right_is_west_refuted",
    "C58_center_refuted",
    "C58_gaussian_area_refuted",
    "C58_gaussian_center_refuted",
    "C58_gaussian_shape_refuted",
    "C58_get_uv"
   ],
   "note": "Over exact reals, with numpy.fft taken to be the discrete Fourier transform. The Fourier sum is exact for samples at grid points and for any samples is stated with their footprints; W projection is exact when the w's of the samples lie further apart than wres, and otherwise uses the mean w of each plane. Found and proved: ImgW images are n*n times fainter than Img's; get_uv's axes are not those put uses; east is to the left although documented to the right; recentring moves the origin to minus the centre asked for; gaussian_beam's amp is the height, not the area, and an int shape is ignored."
  },
  {
   "property": "C59",
   "status": "proved",
   "theorems": [
    "C59_addsub",
    "C59_addsub_too_short",
    "C59_addsub_channels",
    "C59_pull_pol",
    "C59_xtalk",
    "C59_xrfi",
    "C59_mdlvis",
    "C59_mdlvis_mode",
    "C59_apply_cal",
    "C59_combine_freqs_same",
    "C59_pull_ants_refuted",
    "C59_combine_freqs_refuted",
    "C59_addsub_unchecked_refuted",
    "C59_addsub_partial_output_refuted",
    "C59_xrfi_repeated_refuted"
   ],
   "note": "Over the byte-level stream of data sets with float visibilities and a fixed number of channels. Complex arithmetic, the simulated spectra, gains, phases and the flags of outliers are parameters: any functions with the stated sizes. Header items, option parsing, noise and the history line are not modelled."
  },
  {
   "property": "C60",
   "status": "proved",
   "theorems": [
    "C60_headers",
    "C60_headers_ieee",
    "C60_copied_item",
    "C60_history",
    "C60_override_absent_refuted",
    "C60_no_history_refuted"
   ],
   "note": "Names in itemtable that are not also variables of the data set. Overrides must be values the item can hold; texts are ASCII without NULs. The copying of variables and records is C18."
  },
  {
   "property": "C61",
   "status": "proved",
   "theorems": [
    "C61_power_law",
    "C61_power_law_unique",
    "C61_reference",
    "C61_helmboldt",
    "C61_helmboldt_straight",
    "C61_update",
    "C61_get_jys",
    "C61_cutoff",
    "C61_helmboldt_jys_refuted",
    "C61_helmboldt_negative_refuted",
    "C61_cutoff_disturbs_refuted",
    "C61_str_refuted",
    "C61_str"
   ],
   "note": "Findings: jys of a Helmboldt source is not its flux at mfreq; a negative one gives no number; a request with a cutoff changes the fluxes of sources handed out before; str() of a source that has not been updated, or of a Helmboldt source, raises."
  },
  {
   "property": "C62",
   "status": "proved",
   "theorems": [
    "C62_tables",
    "C62_named_by_position",
    "C62_parkes",
    "C62_txs",
    "C62_culgoora",
    "C62_paper",
    "C62_mrt",
    "C62_helmboldt",
    "C62_helmboldt_loads",
    "C62_helmboldt_measurements",
    "C62_last_row",
    "C62_loaded_once",
    "C62_several",
    "C62_failed_load_refuted",
    "C62_blank_field_refuted",
    "C62_no_index_refuted",
    "C62_unmeasured_refuted"
   ],
   "note": "float() is any partial function from texts to numbers. Findings: after a failed first request a module quietly gives an empty catalogue; an empty first field makes a file unreadable; Helmboldt sources without an index vanish away from 74 MHz; a Culgoora row without fluxes makes every request with a cutoff raise."
  },
  {
   "property": "C63",
   "status": "proved",
   "theorems": [
    "C63_roundtrip",
    "C63_scale_kept",
    "C63_other_files",
    "C63_accepts",
    "C63_cards",
    "C63_rewrite",
    "C63_history",
    "C63_tolerant",
    "C63_transposed",
    "C63_clobber_refuted",
    "C63_step_sign_refuted",
    "C63_narrow_refuted",
    "C63_galactic_refuted",
    "C63_nan_refuted",
    "C63_default_scale_refuted",
    "C63_history_refuted",
    "C63_find_axis_refuted",
    "C63_copy_refuted",
    "C63_upright",
    "C63_default_axes"
   ],
   "note": "The FITS library is described by the behaviour the code relies on; numbers in cards are abstract (what is read is a rounding of what was written)."
  },
  {
   "property": "C64",
   "status": "proved",
   "theorems": [
    "C64_healpix_roundtrip",
    "C64_healpix_format",
    "C64_roundtrip",
    "C64_sky",
    "C64_nindices",
    "C64_accepts",
    "C64_healpix_accepts",
    "C64_other_files",
    "C64_table",
    "C64_reads",
    "C64_no_weights",
    "C64_new_table_refuted",
    "C64_read_twice_refuted",
    "C64_weights_scheme_refuted",
    "C64_change_scheme_refuted",
    "C64_ordering_refuted",
    "C64_interp_refuted",
    "C64_unequal_refuted"
   ],
   "note": "The table library is described by what the code relies on (columns, IndexError of a missing column, clobber); pixel values are exact reals and the column format is a function on values."
  },
  {
   "property": "C65",
   "status": "proved",
   "theorems": [
    "C65_regular_powers",
    "C65_regular_default",
    "C65_raises",
    "C65_mean",
    "C65_position",
    "C65_extension",
    "C65_constant",
    "C65_default_between",
    "C65_default_constant",
    "C65_symmetric_line",
    "C65_length_refuted",
    "C65_line_refuted",
    "C65_default_taps"
   ],
   "note": "Values are exact reals; the number of taps is computed in double precision with Flocq. numpy.polyfit is a parameter with the contract that samples on a parabola are fitted by it."
  },
  {
   "property": "C66",
   "status": "proved",
   "theorems": [
    "C66_moments",
    "C66_centre",
    "C66_drawn",
    "C66_parameters",
    "C66_peak",
    "C66_fit_of_drawn",
    "C66_height_refuted",
    "C66_width_refuted",
    "C66_first_row_refuted",
    "C66_swapped_refuted",
    "C66_zero_width"
   ],
   "note": "Exact reals; NaN from a width of zero is modelled as no value."
  },
  {
   "property": "C67",
   "status": "proved",
   "theorems": [
    "C67_phs2src",
    "C67_flux_cal",
    "C67_source",
    "C67_named_refuted",
    "C67_below_refuted",
    "C67_beam_alone_refuted",
    "C67_half_offset_refuted"
   ],
   "note": "What the array and source compute is a parameter; --rot_uvw is not modelled."
  },
  {
   "property": "C68",
   "status": "proved",
   "theorems": [
    "C68_measured",
    "C68_order",
    "C68_left_over",
    "C68_reprocess",
    "C68_shape",
    "C68_has_key_refuted",
    "C68_missing_refuted"
   ],
   "note": "Complex numbers are exact. The npz archive is a dictionary. A spectrum with nothing in the channel range (numpy gives the masked constant) is outside the theorems."
  },
  {
   "property": "C69",
   "status": "proved",
   "theorems": [
    "C69_flags",
    "C69_combine",
    "C69_half",
    "C69_scale",
    "C69_unflags_refuted",
    "C69_unselected_refuted",
    "C69_python3_refuted",
    "C69_channel_range"
   ],
   "note": "Complex numbers and medians are exact reals. The npz archive is a dictionary from times to masks. C69_flags, C69_half and C69_scale are about selections of every record of the file; C69_combine is about any selection that is not empty."
  },
  {
   "property": "C70",
   "status": "proved",
   "theorems": [
    "C70_sources",
    "C70_order",
    "C70_import",
    "C70_same_sky",
    "C70_start",
    "C70_written",
    "C70_no_clobber",
    "C70_wrap_refuted",
    "C70_pole_refuted",
    "C70_osys_refuted",
    "C70_epoch_refuted",
    "C70_nindices_refuted"
   ],
   "note": "Numbers are exact; directions, pixels and interpolation weights are parameters; precession and coordinate conversion are functions on directions. The catalog is given by positions, shapes, strengths and indices."
  },
  {
   "property": "C71",
   "status": "proved",
   "theorems": [
    "C71_applied",
    "C71_no_bandpass",
    "C71_linearization",
    "C71_comb",
    "C71_header",
    "C71_other_size_refuted",
    "C71_antenna_number_refuted",
    "C71_one_number_refuted"
   ],
   "note": "Arithmetic on channels and gains is a parameter, as in C59; the polynomials are over exact complex numbers and what np.polyfit gives is a parameter. The header is that of C60."
  },
  {
   "property": "C72",
   "status": "proved",
   "theorems": [
    "C72_delay",
    "C72_unflagged",
    "C72_skypass",
    "C72_skypass_refuted",
    "C72_polarisation_refuted",
    "C72_passband_refuted",
    "C72_source_skypass_refuted",
    "C72_rates",
    "C72_rate_zero_refuted"
   ],
   "note": "Numbers are exact and numpy.fft is the discrete Fourier transform. Cleaning is the model of C37 and C39. With the delay-rate filter (-r) the theorem is about runs without a source on unflagged records."
  },
  {
   "property": "C73",
   "status": "proved",
   "theorems": [
    "C73_listed",
    "C73_sep_alone_refuted",
    "C73_special_refuted",
    "C73_params_refuted",
    "C73_fit_one",
    "C73_fit_refuted",
    "C73_get_aa",
    "C73_calibration_refuted",
    "C73_no_key_refuted"
   ],
   "note": "Positions are exact reals. ephem, its separation and the reading of the text of ranges are parameters, as are the catalogues. What print_params prints is not modelled. Which names exec binds is taken from the rules of Python 2 and 3."
  },
  {
   "property": "C74",
   "status": "proved",
   "theorems": [
    "C74_kept",
    "C74_all",
    "C74_unpacked",
    "C74_slash_refuted",
    "C74_space_refuted"
   ],
   "note": "Plain paths have no characters that the shell or tar takes for something else, and no slash at the end. Of the shell, the splitting at spaces is modelled. tar is a parameter that packs and unpacks; when it fails, and what it then leaves, is arbitrary. A write into a directory is not seen through the path of the directory. Unpacking is proved for one tarball; whether -x goes on after the first path is not claimed."
  }
 ]
}
