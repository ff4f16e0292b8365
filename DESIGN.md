# Formal model of HERA-Team/aipy in Rocq: design

## 1. Approach

* Shallow, executable Gallina models, one file `<Area>Model.v` per area, transcribed function by function from `/repo`;
  each definition cites file and lines. Exceptions, `bug_c` aborts and C status codes are values of result types
  (`res` in `Base.v`: `Ok x` or `Err`).
* `<Area>Spec.v` says what the user expects, in terms that do not use the model's helpers (they may use its syntax:
  operations, records, types).
* `<Area>Proofs*.v` hold the proofs; `<Area>Props.v` hold the property theorems `Cnn_...`, an `Example` beside them showing
  that a concrete, non-trivial case meets the hypotheses, and `Print Assumptions`.
* Where a claim is false of the code, there is a theorem `..._refuted` with a concrete witness, and the positive theorem carries the
  hypothesis that leaves the case out (section 5 lists all of these).
* Integers are `Z` with explicit wrap where C overflow matters. Floating-point numbers are bit patterns where the code only copies
  them, IEEE 754 numbers (Flocq) where rounding is the point (C07, C17), and exact reals where identities of geometry or
  imaging are claimed; the comment at each model says which.
* External calls (numpy FFT and fits, healpy geometry, ephem, scipy, uninitialised memory, the host's floating-point
  comparison) are section variables, so what is proved holds whatever they return; where something is needed of them it is a
  visible hypothesis of the theorem, such as `host_ok`.
* Wrong programs: `/verif/seeded/LOG.jsonl` records every edit of a model tried, and which theorems failed.


## 2. The properties, what models them and how they are proved

Methods: round trips and refinements by induction over operation lists with an invariant (C05-C18, C50, C54); arithmetic over
`Z` (C01-C04, C45); induction over token lists and trees (C19-C23); field identities, trigonometry and sums over the reals (C24-C28,
C32, C46, C52, C53); invariants over call histories (C29, C30, C41, C42, C49, C51); loops with a measure or as relations without
fuel (C37-C40, C47).


**C01 Baseline codes decode to the encoded antenna pair** (proved). Theorems in `BaselineProps.v`: `C01_bl_roundtrip`, `C01_bl_order_free`, `C01_bl_injective`, `C01_bl_2047_refuted`. antenna 2047 does not round trip (finding, refuted theorem)

**C02 The reader and the writer in the C layer agree with Python on antenna numbers** (proved). Theorems in `BaselineProps.v`: `C02_layers_agree`. 

**C03 Baseline+polarisation keys are a faithful encoding** (proved). Theorems in `BaselineProps.v`: `C03_blp_roundtrip`, `C03_blp_injective`. 

**C04 Number codecs of the file format are lossless and big-endian** (proved). Theorems in `PackProps.v`: `C04_disk_bytes`, `C04_int32_roundtrip`, `C04_int64_roundtrip`, `C04_int16_roundtrip`, `C04_float_bits_roundtrip`, `C04_double_bits_roundtrip`, `C04_int16_overflow_refuted`. 

**C09 Flag bitmap I/O is exact for every history** (proved). Theorems in `MaskProps.v`: `C09_mask_history`, `C09_mask_write_read`. item below the bitmap taken as a flat word array (C05)

**C10 Run-length and bit-array flag access agree** (proved). Theorems in `MaskProps.v`: `C09_mask_history`, `C10_runs_canonical`, `C10_runs_roundtrip`. 

**C28 bl_indices lists every baseline of the asked kind exactly once** (proved). Theorems in `BaselineProps.v`: `C28_bl_indices_exact`, `C28_bl_indices_nodup`, `C28_bl_indices_decode`. 

**C05 Item I/O behaves like a flat byte array** (proved). Theorems in `HioProps.v`: `C05_new_item_history`, `C05_file_item_history`, `C05_cached_item_history`, `C05_write_read`, `C05_mixed_alignment_refuted`, `C05_2GiB_refuted`, `C05_sparse_growth_refuted`, `C05_empty_write_refuted`. the _refuted theorems show the limits in the statement are needed (findings)

**C06 Small header items survive close and reopen** (proved). Theorems in `TreeProps.v`: `C06_dataset_history`, `C06_reopen_invisible`, `C06_empty_item_refuted`. items with empty contents are outside the statement (refuted theorem); bytes of an open item by C05

**C11 Variables read with a record are those in force when it was written** (proved). Theorems in `UvProps.v`: `C11_variable_stream`, `C12_records_in_order`. 

**C12 Records come back in the order written, each exactly once** (proved). Theorems in `UvProps.v`: `C12_records_in_order`, `C12_many_variables_refuted`, `C12_initial_time_refuted`, `C12_preamble_set_refuted`, `C12_read_past_end_refuted`. the _refuted theorems show why the limits in the statement are needed (findings); the vartable, vislen and flags items are carried over as values (C06, C09)

**C13 Rewinding and reading again gives the same records** (proved). Theorems in `UvProps.v`, `SelProps.v`: `C13_rewind_restarts`, `C13_rewind_with_decimation`. C13_rewind_restarts: values of the records (stream level); C13_rewind_with_decimation: which records, with selection and decimation

**C14 Decimation keeps exactly the chosen integrations** (proved). Theorems in `SelProps.v`: `C14_decimation`. 

**C15 Antenna selection keeps exactly the chosen baselines** (proved). Theorems in `SelProps.v`: `C15_antenna_selection`, `C15_one_baseline`, `C15_reversed_pair_refuted`. records written with i>j are looked up as another baseline (finding, refuted theorem)

**C16 Selection clauses combine as and/or of their meanings** (proved). Theorems in `SelProps.v`: `C16_selected_records`, `C14_decimation`, `C16_dazim_ignored_refuted`, `C16_clear_keeps_limit_refuted`, `C16_fractional_visibility_refuted`. the _refuted theorems show the limits in the statement are needed (findings)

**C19 parse_chans returns the channels the string denotes** (proved). Theorems in `ScriptProps.v`: `C19_channels_denoted`, `C19_all_channels`, `C19_nothing_else`, `C19_descending_end_refuted`. descending ranges leave out the end point (finding)

**C20 parse_ants yields the selection the antenna string denotes** (proved). Theorems in `ScriptProps.v`: `C20_entries_denoted`, `C20_entries_select`, `C20_polarisation_select`, `C20_string_to_records`, `C20_lone_group_refuted`, `C20_pol_not_swapped_refuted`, `C20_all_with_pol_refuted`, `C20_exclude_pol_refuted`, `C20_rejects`. the _refuted theorems are findings about strings outside or at the edge of the grammar

**C21 flatten_prms and reconstruct_prms are inverse** (proved). Theorems in `FlatProps.v`: `C21_round_trip`, `C21_new_values`, `C21_single_refuted`, `C21_empty_refuted`. the _refuted theorems show why lists need two values (findings)

**C22 get_params after set_params returns what was set** (proved). Theorems in `ParamProps.v`: `C22_fixed_source`, `C22_special_source`, `C22_requested_names`, `C22_catalog`, `C22_gaussian_beam`, `C22_gaussian_changed`, `C22_polynomial_beam`, `C22_alm_beam`, `C22_alm_restore`, `C22_antenna`, `C22_mfreq_refuted`, `C22_polynomial_list_refuted`, `C22_alm_refuted`, `C22_pol_bandpass_refuted`, `C22_delay_with_list_refuted`, `C22_polynomial_accepted`, `C22_alm_set`. the _refuted theorems are the exceptions named in the statement (findings)

**C23 Setting one antenna's parameters leaves every other antenna unchanged** (proved). Theorems in `ParamProps.v`: `C23_independent`, `C23_default_argument_refuted`, `C23_copied_parameters_refuted`. the _refuted theorems show the discipline is needed (findings)

**C51 Parameters shown are the parameters in effect** (proved). Theorems in `ParamProps.v`: `C51_parameters_in_effect`, `C51_nothing_set`. 

**C37 CLEAN conserves residual plus convolved model** (proved). Theorems in `CleanProps.v`: `C37_conserved_1d_real`, `C37_conserved_2d_real`, `C37_conserved_1d_complex`, `C37_conserved_2d_complex`. exact real arithmetic

**C38 CLEAN only places model components inside the mask** (proved). Theorems in `CleanProps.v`: `C38_mask_1d_real`, `C38_mask_2d_real`, `C38_mask_1d_complex`, `C38_mask_2d_complex`, `C38_component_1d_real`, `C38_component_2d_real`, `C38_component_1d_complex`, `C38_component_2d_complex`, `C38_pos_def_1d`, `C38_pos_def_2d`, `C38_mask_high_word_refuted`. exact real arithmetic; the _refuted theorem is a finding about masks with entries of 2^32

**C39 CLEAN that stops on divergence never makes the residual worse** (proved). Theorems in `CleanProps.v`: `C39_stop_1d_real`, `C39_stop_2d_real`, `C39_stop_1d_complex`, `C39_stop_2d_complex`, `C39_maxiter_1d_real`, `C39_maxiter_2d_complex`, `C39_divergence_reported`, `C39_term_1d_real`, `C39_term_2d_real`, `C39_term_1d_complex`, `C39_term_2d_complex`, `C39_zero_image_hangs_refuted`, `C39_tol_exit_refuted`. exact real arithmetic; the _refuted theorems show what happens without stop_if_div (findings)

**C31 add2array adds every datum to its cell** (proved). Theorems in `GridProps.v`: `C31_adds_every_datum`, `C31_addressed_total`, `C31_invalid_raises`, `C31_long_index_refuted`. any element type with a commutative addition; the _refuted theorem is a finding (indices are cut to 32 bits)

**C32 Gridding conserves and degridding is its transpose** (proved). Theorems in `GridProps.v`: `C32_grid1D`, `C32_grid2D`, `C32_grid2D_total`, `C32_degrid2D`, `C32_degrid_constant`, `C32_transpose`, `C32_weights_sum_refuted`, `C32_not_square_refuted`, `C32_degrid_initial_refuted`. exact real arithmetic; the _refuted theorems are findings (weights do not sum to one, buffers that are not square, output not zeroed)

**C33 recenter is an invertible cyclic shift** (proved). Theorems in `ImgProps.v`: `C33_recenter`, `C33_empty_axis_refuted`. 

**C34 append_hermitian adds exactly the conjugate-mirrored visibilities** (proved). Theorems in `ImgProps.v`: `C34_samples`, `C34_put_hermitian`, `C34_real_image`, `C34_one_weight_refuted`, `C34_weights`. exact real arithmetic; the _refuted theorem is a finding

**C35 W-projection gridding handles every sample exactly once** (proved). Theorems in `ImgProps.v`: `C35_put`, `C35_get`, `C35_zero_wres_refuted`, `C35_get_single_refuted`, `C35_get_stale_refuted`, `C35_get_transposed_refuted`, `C35_weights`. for every projection of a uv matrix and every rounding; exact real arithmetic; the _refuted theorems are findings

**C36 word_wrap keeps every word in order within the width** (proved). Theorems in `ImgProps.v`: `C36_word_wrap`, `C36_words_kept`, `C36_narrow_refuted`. the _refuted theorem is a finding (no room: words vanish or the call raises)

**C41 Map.add accumulates weighted sums and Map.get returns the weighted mean** (proved). Theorems in `HpxProps.v`: `C41_one_add`, `C41_history`, `C41_first_add`, `C41_repeated_pixel_refuted`, `C41_reset_wgt`, `C41_reset_other_wgt_refuted`, `C41_unweighted`. for every pixelization and interpolation; exact real arithmetic; the _refuted theorems are findings (a call naming a pixel twice; reset_wgt to another value than one)

**C42 Healpix map assignment sums repeats and touches nothing else** (proved). Theorems in `HpxProps.v`: `C42_assign`, `C42_read_back`, `C42_scalar`, `C42_invalid`, `C42_wrong_count`, `C42_scalar_refuted`, `C42_side_16384_refuted`. the _refuted theorems are findings (one number for several pixels raises; 32-bit pixel numbers)

**C43 Changing healpix scheme or resolution preserves the sky** (proved). Theorems in `HpxProps.v`: `C43_change_scheme`, `C43_to_coarser`, `C43_to_finer`, `C43_same_scheme`, `C43_set_map`, `C43_set_map_side`, `C43_argument_changed_refuted`, `C43_other_scheme_refuted`, `C43_brightness_refuted`, `C43_from_map`. for every pixelization meeting the contract (bijective renumbering, consistent centres), shown inhabited; the _refuted theorems are findings

**C44 Alm coefficients are addressed without collision** (proved). Theorems in `HpxProps.v`: `C44_set_get`, `C44_lm_indices`, `C44_new`, `C44_bad_lm_refuted`, `C44_from_alm_refuted`, `C44_set_data`. the _refuted theorems are findings

**C45 facet_centers visits each facet once** (proved). Theorems in `FacetProps.v`: `C45_order`, `C45_bit_reverse`, `C45_shuffle`, `C45_points`, `C45_facet_centers`, `C45_numpy_refuted`. exact real arithmetic, so arange has exactly N elements; the _refuted theorem is a finding (every N above 1 raises with numpy 1.10 and later)

**C46 Windows are symmetric, bounded and peak in the middle** (proved). Theorems in `WinProps.v`: `C46_window`, `C46_tukey`, `C46_tukey_ends`, `C46_parzen`, `C46_unknown`, `C46_keyword`, `C46_parzen_refuted`, `C46_none_refuted`, `C46_tukey_one_refuted`. exact real arithmetic; i0 is any positive nondecreasing function; the _refuted theorems are findings

**C49 Source catalogues return what was added** (proved). Theorems in `CatProps.v`: `C49_get_srcs`, `C49_unknown`, `C49_arguments`, `C49_keys`, `C49_get`, `C49_by_name`, `C49_all`, `C49_by_flux`, `C49_made`, `C49_get_srcs_all_refuted`, `C49_add_part_refuted`, `C49_calls`. reading the catalogue files is not modelled; the _refuted theorems are findings

**C47 remove_spikes and flag_by_int: which samples end up flagged** (proved). Theorems in `RfiProps.v`: `C47_only_adds`, `C47_curve`, `C47_first_pass`, `C47_other_size`, `C47_flag_by_int`, `C47_wrong_sample_refuted`, `C47_passes`, `C47_pass`, `C47_no_mask`. exact real arithmetic; the polynomial fit is a parameter; the _refuted theorem is a finding

**C24 Rotation matrices are rotations and mutually inverse** (proved). Theorems in `GeoProps.v`: `C24_rot_m`, `C24_right_handed`, `C24_eq2top`, `C24_top2eq`, `C24_convert_m`, `C24_scaling_refuted`, `C24_reversed_refuted`. exact real arithmetic; the precession and system change done by ephem is a parameter; the _refuted theorems are findings (docstrings)

**C25 Coordinate conversions are inverse and stay in range** (proved). Theorems in `GeoProps.v`: `C25_thphi`, `C25_thphi_back`, `C25_radec`, `C25_radec_back`, `C25_directions`, `C25_azalt`, `C25_azalt_back`, `C25_length`, `C25_north`. exact real arithmetic: no signed zeros or rounding

**C26 Baselines are antisymmetric and close** (proved). Theorems in `ArrProps.v`: `C26_opposite`, `C26_closure`, `C26_self`, `C26_length`, `C26_body_rotation`, `C26_projection`, `C26_w`, `C26_body`, `C26_strings`, `C26_uvw`, `C26_equatorial_refuted`. exact real arithmetic; sidereal time and altitudes computed by ephem are parameters; the _refuted theorem is a finding

**C27 Phasing to a source and back is the identity** (proved). Theorems in `ArrProps2.v`: `C27_phase`, `C27_modulus`, `C27_conjugate`, `C27_closure`, `C27_there_and_back`, `C27_phasing`, `C27_mfreq_refuted`. exact real arithmetic; the _refuted theorem is a finding

**C48 set_active/passband/beam frequency selection commutes with evaluation** (proved). Theorems in `ArrProps3.v`: `C48_select`, `C48_no_such_channel`, `C48_last_counts`, `C48_restore`, `C48_whole_band`, `C48_in_step`, `C48_antenna_refuted`, `C48_failed_refuted`. exact real arithmetic; the beam pattern is a parameter of the beam; the _refuted theorems are findings

**C29 Simulation never uses a stale or missing source cache** (proved). Theorems in `ArrProps4.v`, `ArrProps5.v`: `C29_no_time`, `C29_no_cache`, `C29_none_up`, `C29_sources`, `C29_same_time`, `C29_sim_keeps`, `C29_response`, `C29_response_refuted`, `C29_ephem_refuted`, `C29_stale_refuted`, `C29_flux_width`. exact real arithmetic; sidereal time and Bessel function are parameters; the _refuted theorems are findings

**C30 sim_cache keeps exactly the sources above the horizon** (proved). Theorems in `ArrProps4.v`: `C30_kept`, `C30_up`, `C30_time`, `C30_failed`, `C30_short`, `C30_surplus_refuted`. exact real arithmetic; the _refuted theorem is a finding

**C52 Simulated visibilities are sums over sources with fringe, gains, responses and resolution** (proved). Theorems in `ArrProps5.v`: `C52_sum`, `C52_superposition`, `C52_conjugate`, `C52_auto`, `C52_phased`. exact real arithmetic; sidereal time and Bessel function are parameters

**C53 Beam patterns are bounded, peak at the zenith and follow the pointing** (proved). Theorems in `PatProps.v`: `C53_bounded`, `C53_zenith`, `C53_gauss`, `C53_poly`, `C53_pointing`, `C53_response`, `C53_y`, `C53_width_refuted`, `C53_y_refuted`. exact real arithmetic; BeamAlm is not modelled; the _refuted theorems are findings

**C40 lsq, maxent and anneal keep to their bounds, and anneal never gets worse** (proved). Theorems in `FitProps.v`, `FitProps2.v`: `C40_lsq`, `C40_lsq_bounds`, `C40_lsq_outside`, `C40_no_iteration`, `C40_anneal_report`, `C40_anneal_first`, `C40_anneal_turn`, `C40_anneal_never_worse`, `C40_anneal_best`, `C40_anneal_bounds`, `C40_anneal_changed`, `C40_maxent`, `C40_maxent_step`, `C40_findvar`, `C40_findvar_none`, `C40_lsq_score_refuted`, `C40_lsq_bounds_refuted`, `C40_anneal_bounds_refuted`, `C40_maxent_finite_refuted`, `C40_maxent_bounds_refuted`, `C40_maxent_run`. the _refuted theorems are findings: lsq reports the score of the model one step earlier; with tol above 1 lsq returns the starting model unclipped; anneal and maxent never clip the starting model; a perfect fit makes maxent return nan with success; maxent_findvar without var always raises

**C17 int16 storage loses at most one quantum** (proved). Theorems in `QuantProps.v`: `C17_quantum`, `C17_zero_component`, `C17_zeros`, `C17_one_quantum_refuted`, `C17_tiny_refuted`. binary32 arithmetic through Flocq's rounding; the _refuted theorems are findings: the largest sample may lose slightly more than one quantum (1045 alone comes back as 1044.968, 1.0028 quanta), and a record whose largest value is tiny cannot be scaled (32767/maxval overflows)

**C18 pipe() clones a data set** (proved). Theorems in `PipeProps.v`: `C18_pipe`, `C18_clone`, `C18_same_time_refuted`, `C18_late_variable_refuted`, `C18_integer_array_refuted`, `C18_decimated_source_refuted`. For any source history and any per-record function meeting good_outs, the output is the function's records in order with the source's variables at each. C18_clone: the default function with any dropped records. Found and proved: a function giving two consecutive records one time where the source times differ is not obeyed; a variable first set after the first record, or an integer array, makes init_from_uv fail; variable updates at integrations skipped by decimation are lost. Header items and the history line are not modelled.

**C07 Header values read back as written** (proved). Theorems in `HdrProps.v`, `FloatProps.v`: `C07_header_history`, `C07_set_then_get`, `C07_back_is_the_value`, `C07_header_history_ieee`, `C07_single_complex`, `C07_stored_again`, `C07_wide_integer_refuted`, `C07_one_element_refuted`, `C07_nul_refuted`, `C07_non_ascii_refuted`, `C07_other_type`, `C07_utf8`. conversions between double and float are parameters in the first three and IEEE 754 (Flocq) in the _ieee theorems; values the statement leaves out are the refuted theorems

**C08 The freqs header item round-trips** (proved). Theorems in `HdrProps.v`: `C08_freqs`, `C08_empty_refuted`. up to 89478484 rows (2 GiB)

**C50 A data set whose writer died shows only records that were written** (proved). Theorems in `CrashProps.v`: `C50_interrupted`, `C50_vartable_roundtrip`, `C50_blank_name_refuted`, `C50_blank_name_cut`, `C50_vartable_last_line`, `C50_length_item`. Crash points are the gaps between directory changes; the stream may be cut at any byte, a buffer of another item (under 16384 bytes) is written whole or not at all; reordering of writes by a power failure is not modelled. Variable names must be printable without blanks: a name with a blank is lost on close (C50_blank_name_refuted).

**C54 Appending to a data set continues it** (proved). Theorems in `AppProps.v`: `C54_append_keeps_records`, `C54_variables_across_openings`, `C54_corrmode_of_reopening_ignored`, `C54_append_without_record_refuted`, `C54_can_reopen`. Any number of openings. A data set to which no record was written cannot be reopened for appending (refuted). The header items vartable, vislen and ncorr are taken to come back as written (C50); the obstype item is not modelled.

**C55 Parameter and source strings mean what they say** (proved). Theorems in `PrmProps.v`: `C55_parameters_denoted`, `C55_counts_checked`, `C55_accepted_begins_with_assignments`, `C55_nothing_ignored_refuted`, `C55_sources_denoted`, `C55_cut_denoted`, `C55_named_source_refuted`. float() is a parameter, so the theorems hold for any reading of numbers. Found and proved: text after a well-formed assignment is silently ignored; a source whose name begins with all cannot be named.

**C56 read_files returns exactly the records asked for, in order** (proved). Theorems in `RfProps.v`: `C56_read_files`, `C56_rows_match_times`, `C56_errors`, `C56_missing_record_refuted`, `C56_files_of_same_times_refuted`, `C56_single_name_refuted`. Composes parse_ants, uv_selector, selection, decimation and reading (C14, C16, C20) with the gathering loop. Numbers are exact; nants, sdf, sfreq, nchan and inttime are taken constant within a file. Found and proved: a record missing from an integration, or files covering the same times, misalign rows and times; a single file name is taken letter by letter.

**C57 Gains, phases and responses of polarised baselines** (proved). Theorems in `PolProps.v`: `C57_update`, `C57_active_pol`, `C57_linear_passband`, `C57_passband_exchanged`, `C57_linear_offset`, `C57_offset_closure`, `C57_stokes_offset`, `C57_responses`, `C57_parallactic_angle`, `C57_parallactic_meridian`, `C57_polarization_names`, `C57_v_offset_refuted`, `C57_i_offset_refuted`, `C57_stokes_passband_refuted`, `C57_unknown_name_refuted`. Over exact reals; the beam is any real function of direction. Found and proved: the phase offset of Stokes V is the same for (i,j) and (j,i) and is not zero on autocorrelations; that of I and U is the sum, not the mean, of xx and yy; passband raises KeyError when a Stokes parameter is active; write_pol ignores unknown names.

**C58 Where the sky appears in an image** (proved). Theorems in `SkyProps.v`: `C58_pixel_coordinates`, `C58_directions`, `C58_image`, `C58_fourier_sum`, `C58_point_source`, `C58_peak`, `C58_w_projection`, `C58_w_planes`, `C58_w_source`, `C58_convolution`, `C58_inverse_transform`, `C58_gaussian_beam`, `C58_w_scale_refuted`, `C58_get_uv_refuted`, `C58_right_is_west_refuted`, `C58_center_refuted`, `C58_gaussian_area_refuted`, `C58_gaussian_center_refuted`, `C58_gaussian_shape_refuted`, `C58_get_uv`. Over exact reals, with numpy.fft taken to be the discrete Fourier transform. The Fourier sum is exact for samples at grid points and for any samples is stated with their footprints; W projection is exact when the w's of the samples lie further apart than wres, and otherwise uses the mean w of each plane. Found and proved: ImgW images are n*n times fainter than Img's; get_uv's axes are not those put uses; east is to the left although documented to the right; recentring moves the origin to minus the centre asked for; gaussian_beam's amp is the height, not the area, and an int shape is ignored.

**C59 Scripts that rewrite data sets** (proved). Theorems in `CmdProps.v`: `C59_addsub`, `C59_addsub_too_short`, `C59_addsub_channels`, `C59_pull_pol`, `C59_xtalk`, `C59_xrfi`, `C59_mdlvis`, `C59_mdlvis_mode`, `C59_apply_cal`, `C59_combine_freqs_same`, `C59_pull_ants_refuted`, `C59_combine_freqs_refuted`, `C59_addsub_unchecked_refuted`, `C59_addsub_partial_output_refuted`, `C59_xrfi_repeated_refuted`. Over the byte-level stream of data sets with float visibilities and a fixed number of channels. Complex arithmetic, the simulated spectra, gains, phases and the flags of outliers are parameters: any functions with the stated sizes. Header items, option parsing, noise and the history line are not modelled.

**C60 Copying a data set keeps its header items** (proved). Theorems in `HcopyProps.v`: `C60_headers`, `C60_headers_ieee`, `C60_copied_item`, `C60_history`, `C60_override_absent_refuted`, `C60_no_history_refuted`. Names in itemtable that are not also variables. `HcopyModel.v` puts items(), the header loop of init_from_uv and pipe's history line on top of `HdrModel.v`; the invariant of C07, freed of its exception for the library's own items, holds of every data set, and the loop is proved by induction over the items present. That a value read can be written again needs the range of float widening and the idempotence of rounding (Flocq).

**C61 Source fluxes follow the spectrum given** (proved). Theorems in `SrcProps.v`: `C61_power_law`, `C61_power_law_unique`, `C61_reference`, `C61_helmboldt`, `C61_helmboldt_straight`, `C61_update`, `C61_get_jys`, `C61_cutoff`, `C61_helmboldt_jys_refuted`, `C61_helmboldt_negative_refuted`, `C61_cutoff_disturbs_refuted`, `C61_str_refuted`, `C61_str`. Fluxes are exact reals. The specification describes a spectrum by the flux at one frequency and the ratio between any two, and the Helmboldt curve by natural logarithms. Sources are objects on a heap, so that catalogues can share them; update_jys is proved by induction over the references.

**C62 Catalogue files are read row by row into the sources they list** (proved). Theorems in `SrcProps2.v`: `C62_tables`, `C62_named_by_position`, `C62_parkes`, `C62_txs`, `C62_culgoora`, `C62_paper`, `C62_mrt`, `C62_helmboldt`, `C62_helmboldt_loads`, `C62_helmboldt_measurements`, `C62_last_row`, `C62_loaded_once`, `C62_several`, `C62_failed_load_refuted`, `C62_blank_field_refuted`, `C62_no_index_refuted`, `C62_unmeasured_refuted`. A file is the list of its lines. The specification describes lines by their fields joined with tabs, names by stripping blanks, positions by replacing spaces, words by a grammar, and fixed columns by character positions; reading is a relation with one rule for a line passed over and one for a row. The theorems for the tables are equivalences, so that they also say when a file is rejected.

**C63 Images written to FITS files are read back** (proved). Theorems in `FitsProps.v`: `C63_roundtrip`, `C63_scale_kept`, `C63_other_files`, `C63_accepts`, `C63_cards`, `C63_rewrite`, `C63_history`, `C63_tolerant`, `C63_transposed`, `C63_clobber_refuted`, `C63_step_sign_refuted`, `C63_narrow_refuted`, `C63_galactic_refuted`, `C63_nan_refuted`, `C63_default_scale_refuted`, `C63_history_refuted`, `C63_find_axis_refuted`, `C63_copy_refuted`, `C63_upright`, `C63_default_axes`. The FITS library is not modelled byte by byte: a header maps keywords to values, a file is one header with one array. Numbers are an abstract type; `card_numbers` states what is needed (zero and one exact, reading is idempotent and keeps sign and finiteness), and the examples use integers with a value that is not a number. Whether the library removes BSCALE and BZERO when it writes an array is the parameter `drops` and both cases are treated. The history theorem says for each line of the text which cards come from it and that the words are kept in order.

**C64 Sky maps saved to a file come back with fluxes, weights and indices** (proved). Theorems in `MapfProps.v`: `C64_healpix_roundtrip`, `C64_healpix_format`, `C64_roundtrip`, `C64_sky`, `C64_nindices`, `C64_accepts`, `C64_healpix_accepts`, `C64_other_files`, `C64_table`, `C64_reads`, `C64_no_weights`, `C64_new_table_refuted`, `C64_read_twice_refuted`, `C64_weights_scheme_refuted`, `C64_change_scheme_refuted`, `C64_ordering_refuted`, `C64_interp_refuted`, `C64_unequal_refuted`. A file is a table with the header keywords that matter, its columns and the history. Whether the library still has new_table is a parameter: the theorems are about a library that has it, and C64_new_table_refuted is about one that has not.

**C65 Interpolation gives factor outputs per sample, each a filter-weighted mean of the samples** (proved). Theorems in `InterpProps.v`: `C65_regular_powers`, `C65_regular_default`, `C65_raises`, `C65_mean`, `C65_position`, `C65_extension`, `C65_constant`, `C65_default_between`, `C65_default_constant`, `C65_symmetric_line`, `C65_length_refuted`, `C65_line_refuted`, `C65_default_taps`. The tap count is the number of elements of np.arange(-order, order+step, step), computed in binary64. The window and sinc of the default filter are over the reals, so that positivity and symmetry are real-number facts.

**C66 A Gaussian drawn about a pixel is found at that pixel** (proved). Theorems in `GaussProps.v`: `C66_moments`, `C66_centre`, `C66_drawn`, `C66_parameters`, `C66_peak`, `C66_fit_of_drawn`, `C66_height_refuted`, `C66_width_refuted`, `C66_first_row_refuted`, `C66_swapped_refuted`, `C66_zero_width`. The centre is stated through the profiles rather than through the sums the code forms.

**C67 Phasing and flux scripts change cross-correlations only as asked** (proved). Theorems in `ScrProps.v`: `C67_phs2src`, `C67_flux_cal`, `C67_source`, `C67_named_refuted`, `C67_below_refuted`, `C67_beam_alone_refuted`, `C67_half_offset_refuted`. As in C59: over the byte-level stream; phases, gains and complex arithmetic are parameters. The state the scripts keep (the time the array was last set to) is modelled.

**C68 Crosstalk is measured as means and split into a profile and gains** (proved). Theorems in `XtkProps.v`: `C68_measured`, `C68_order`, `C68_left_over`, `C68_reprocess`, `C68_shape`, `C68_has_key_refuted`, `C68_missing_refuted`. Over exact complex numbers; records are lists of antennas, polarisation, channels and flags, as the readers of C03 and C59 return them. The spec's mean is an equation, not a quotient.

**C69 xrfi_simple flags the samples that stand out, and only those** (proved). Theorems in `XrsProps.v`: `C69_flags`, `C69_combine`, `C69_half`, `C69_scale`, `C69_unflags_refuted`, `C69_unselected_refuted`, `C69_python3_refuted`, `C69_channel_range`. Over exact complex numbers; records are lists of time, antennas, polarisation, channels and flags. The medians of the spec are those of C66: the middle of a sorted permutation. The spec's squares take the place of the script's roots and deviations.

**C70 modmap adds sources to maps without loss of flux** (proved). Theorems in `ModProps.v`: `C70_sources`, `C70_order`, `C70_import`, `C70_same_sky`, `C70_start`, `C70_written`, `C70_no_clobber`, `C70_wrap_refuted`, `C70_pole_refuted`, `C70_osys_refuted`, `C70_epoch_refuted`, `C70_nindices_refuted`. On the maps of C41, C43 and C64. The ellipse of the spec is a set of points of parameters u and v in the unit disc.

**C71 apply_bp applies the bandpass of the header to the data and takes it out of the header** (proved). Theorems in `BpProps.v`: `C71_applied`, `C71_no_bandpass`, `C71_linearization`, `C71_comb`, `C71_header`, `C71_other_size_refuted`, `C71_antenna_number_refuted`, `C71_one_number_refuted`. On the streams of C59 and C67 and the headers of C60 (`C71_header` is in `BpProps2.v`).

**C72 filter_src takes from each record the delays near the source, or those of the sky, and nothing else** (proved). Theorems in `FsrProps.v`: `C72_delay`, `C72_unflagged`, `C72_skypass`, `C72_skypass_refuted`, `C72_polarisation_refuted`, `C72_passband_refuted`, `C72_source_skypass_refuted`, `C72_rates`, `C72_rate_zero_refuted`. CLEAN is that of C37; `FsrSpec.v` says what the delays of a spectrum are without it. `C72_skypass` and the findings are in `FsrProps2.v`. `C72_rates` and `C72_rate_zero_refuted` are in `FsrProps3.v`; a baseline without any power at delay zero at some time is cleaned in rate and is not in their statement.

**C73 srclist prints the names of the sources asked for, in order, and calibration modules are asked for the frequencies of the channels** (proved). Theorems in `SrlProps.v`: `C73_listed`, `C73_sep_alone_refuted`, `C73_special_refuted`, `C73_params_refuted`, `C73_fit_one`, `C73_fit_refuted`, `C73_get_aa`, `C73_calibration_refuted`, `C73_no_key_refuted`. `SrlSpec.v` says what lies on an arc without comparing ends. What fitmdl.py reads is the model of C55. The texts for fitmdl.py and the loading of calibration modules are in `SrlProps2.v`.

**C74 compress_uv loses no data and leaves no broken tarball** (proved). Theorems in `TarProps.v`: `C74_kept`, `C74_all`, `C74_unpacked`, `C74_slash_refuted`, `C74_space_refuted`. The disk is a function from paths to what they hold. `TarSpec.v` says which paths are plain and apart.


## 3. Trusted base

* The Coq 8.16.1 kernel (coqc, and coqchk over the compiled files).
* No axioms of ours, no `Admitted`, no switched-off checks, no plugins. The only axioms are those of the standard library's
  Reals and Logic listed below theorem by theorem.
* Libraries used: the standard library; Flocq (definitions and lemmas about IEEE 754, itself without axioms of its own beyond
  the standard library's) in `FloatModel.v`, `QuantModel.v` and their users.
* The transcription from Python, C and C++ to Gallina is by hand. Simplifications are stated at each definition and file head.
* The specification files are part of what a reader must trust: `*Spec.v` and the definitions used in theorem statements.
* Undefined behaviour of C (overflow, use after free, reading uninitialised memory) is modelled only where a comment says so.


### What `Print Assumptions` lists, for every theorem of MANIFEST.json


* **none** (Closed under the global context) (225 theorems): C01_bl_roundtrip, C01_bl_order_free, C01_bl_injective, C01_bl_2047_refuted, C02_layers_agree, C03_blp_roundtrip, C03_blp_injective, C04_disk_bytes, C04_int32_roundtrip, C04_int64_roundtrip, C04_int16_roundtrip, C04_float_bits_roundtrip, C04_double_bits_roundtrip, C04_int16_overflow_refuted, C09_mask_history, C09_mask_write_read, C09_mask_history, C10_runs_canonical, C10_runs_roundtrip, C28_bl_indices_exact, C28_bl_indices_nodup, C28_bl_indices_decode, C05_new_item_history, C05_file_item_history, C05_cached_item_history, C05_write_read, C05_mixed_alignment_refuted, C05_2GiB_refuted, C05_sparse_growth_refuted, C05_empty_write_refuted, C06_dataset_history, C06_reopen_invisible, C06_empty_item_refuted, C11_variable_stream, C12_records_in_order, C12_records_in_order, C12_many_variables_refuted, C12_initial_time_refuted, C12_preamble_set_refuted, C12_read_past_end_refuted, C13_rewind_restarts, C13_rewind_with_decimation, C14_decimation, C15_antenna_selection, C15_one_baseline, C15_reversed_pair_refuted, C16_selected_records, C14_decimation, C16_dazim_ignored_refuted, C16_clear_keeps_limit_refuted, C16_fractional_visibility_refuted, C19_channels_denoted, C19_all_channels, C19_nothing_else, C19_descending_end_refuted, C20_entries_denoted, C20_entries_select, C20_polarisation_select, C20_string_to_records, C20_lone_group_refuted, C20_pol_not_swapped_refuted, C20_all_with_pol_refuted, C20_exclude_pol_refuted, C20_rejects, C21_round_trip, C21_new_values, C21_single_refuted, C21_empty_refuted, C22_fixed_source, C22_special_source, C22_requested_names, C22_catalog, C22_gaussian_beam, C22_gaussian_changed, C22_polynomial_beam, C22_alm_beam, C22_alm_restore, C22_antenna, C22_mfreq_refuted, C22_polynomial_list_refuted, C22_alm_refuted, C22_pol_bandpass_refuted, C22_delay_with_list_refuted, C22_polynomial_accepted, C22_alm_set, C23_independent, C23_default_argument_refuted, C23_copied_parameters_refuted, C51_parameters_in_effect, C51_nothing_set, C38_mask_high_word_refuted, C31_adds_every_datum, C31_addressed_total, C31_invalid_raises, C31_long_index_refuted, C33_recenter, C33_empty_axis_refuted, C36_word_wrap, C36_words_kept, C36_narrow_refuted, C43_set_map, C43_set_map_side, C44_set_get, C44_lm_indices, C44_new, C44_bad_lm_refuted, C44_from_alm_refuted, C44_set_data, C45_order, C45_bit_reverse, C45_shuffle, C49_get_srcs, C49_unknown, C49_arguments, C49_keys, C49_get, C49_get_srcs_all_refuted, C49_add_part_refuted, C49_calls, C40_findvar_none, C18_pipe, C18_clone, C18_same_time_refuted, C18_late_variable_refuted, C18_integer_array_refuted, C18_decimated_source_refuted, C07_header_history, C07_set_then_get, C07_back_is_the_value, C07_wide_integer_refuted, C07_one_element_refuted, C07_nul_refuted, C07_non_ascii_refuted, C07_other_type, C07_utf8, C08_freqs, C08_empty_refuted, C50_interrupted, C50_vartable_roundtrip, C50_blank_name_refuted, C50_blank_name_cut, C50_vartable_last_line, C50_length_item, C54_append_keeps_records, C54_variables_across_openings, C54_corrmode_of_reopening_ignored, C54_append_without_record_refuted, C54_can_reopen, C55_parameters_denoted, C55_counts_checked, C55_accepted_begins_with_assignments, C55_nothing_ignored_refuted, C55_sources_denoted, C55_cut_denoted, C55_named_source_refuted, C56_read_files, C56_rows_match_times, C56_errors, C56_missing_record_refuted, C56_files_of_same_times_refuted, C56_single_name_refuted, C57_active_pol, C57_polarization_names, C57_unknown_name_refuted, C59_addsub, C59_addsub_too_short, C59_addsub_channels, C59_pull_pol, C59_xtalk, C59_xrfi, C59_mdlvis, C59_mdlvis_mode, C59_apply_cal, C59_combine_freqs_same, C59_pull_ants_refuted, C59_combine_freqs_refuted, C59_addsub_unchecked_refuted, C59_addsub_partial_output_refuted, C59_xrfi_repeated_refuted, C60_headers, C62_last_row, C62_loaded_once, C62_several, C62_failed_load_refuted, C63_roundtrip, C63_scale_kept, C63_other_files, C63_accepts, C63_cards, C63_rewrite, C63_history, C63_tolerant, C63_transposed, C63_clobber_refuted, C63_step_sign_refuted, C63_narrow_refuted, C63_galactic_refuted, C63_nan_refuted, C63_default_scale_refuted, C63_history_refuted, C63_find_axis_refuted, C63_copy_refuted, C63_upright, C63_default_axes, C67_phs2src, C67_flux_cal, C67_source, C67_named_refuted, C67_below_refuted, C67_beam_alone_refuted, C71_applied, C71_no_bandpass, C71_other_size_refuted, C71_antenna_number_refuted, C71_one_number_refuted, C73_fit_one, C73_fit_refuted, C73_get_aa, C73_calibration_refuted, C73_no_key_refuted, C74_kept, C74_all, C74_unpacked, C74_slash_refuted, C74_space_refuted.

* `ClassicalDedekindReals.sig_forall_dec` (28 theorems): C34_weights, C35_weights, C42_invalid, C42_wrong_count, C42_scalar_refuted, C43_same_scheme, C43_other_scheme_refuted, C43_from_map, C57_update, C57_stokes_passband_refuted, C64_healpix_roundtrip, C64_healpix_format, C64_roundtrip, C64_sky, C64_nindices, C64_accepts, C64_healpix_accepts, C64_other_files, C64_table, C64_reads, C64_no_weights, C64_new_table_refuted, C64_read_twice_refuted, C64_weights_scheme_refuted, C64_ordering_refuted, C64_interp_refuted, C64_unequal_refuted, C70_start.

* `ClassicalDedekindReals.sig_forall_dec`, `FunctionalExtensionality.functional_extensionality_dep` (53 theorems): C34_samples, C41_one_add, C41_history, C41_first_add, C41_repeated_pixel_refuted, C41_reset_wgt, C41_reset_other_wgt_refuted, C41_unweighted, C42_assign, C42_read_back, C42_scalar, C42_side_16384_refuted, C43_change_scheme, C43_to_coarser, C43_to_finer, C43_argument_changed_refuted, C43_brightness_refuted, C49_by_name, C49_all, C49_by_flux, C49_made, C30_kept, C30_failed, C30_short, C57_linear_passband, C57_passband_exchanged, C57_linear_offset, C57_offset_closure, C57_stokes_offset, C57_v_offset_refuted, C57_i_offset_refuted, C58_get_uv_refuted, C58_right_is_west_refuted, C58_center_refuted, C58_get_uv, C62_tables, C62_named_by_position, C62_parkes, C62_txs, C62_culgoora, C62_paper, C62_mrt, C62_blank_field_refuted, C64_change_scheme_refuted, C65_position, C65_extension, C68_measured, C68_order, C68_left_over, C70_import, C70_same_sky, C71_linearization, C71_comb.

* `ClassicalDedekindReals.sig_forall_dec`, `ClassicalDedekindReals.sig_not_dec`, `FunctionalExtensionality.functional_extensionality_dep` (155 theorems): C37_conserved_1d_real, C37_conserved_2d_real, C37_conserved_1d_complex, C37_conserved_2d_complex, C38_mask_1d_real, C38_mask_2d_real, C38_mask_1d_complex, C38_mask_2d_complex, C38_component_1d_real, C38_component_2d_real, C38_component_1d_complex, C38_component_2d_complex, C38_pos_def_1d, C38_pos_def_2d, C39_stop_1d_real, C39_stop_2d_real, C39_stop_1d_complex, C39_stop_2d_complex, C39_maxiter_1d_real, C39_maxiter_2d_complex, C39_divergence_reported, C39_term_1d_real, C39_term_2d_real, C39_term_1d_complex, C39_term_2d_complex, C39_zero_image_hangs_refuted, C39_tol_exit_refuted, C32_grid1D, C32_grid2D, C32_grid2D_total, C32_degrid2D, C32_degrid_constant, C32_transpose, C32_not_square_refuted, C32_degrid_initial_refuted, C34_put_hermitian, C34_real_image, C34_one_weight_refuted, C35_put, C35_get, C35_zero_wres_refuted, C35_get_single_refuted, C35_get_stale_refuted, C35_get_transposed_refuted, C45_points, C45_facet_centers, C45_numpy_refuted, C46_tukey, C46_tukey_ends, C46_parzen, C46_unknown, C46_keyword, C46_parzen_refuted, C46_none_refuted, C46_tukey_one_refuted, C47_only_adds, C47_curve, C47_first_pass, C47_other_size, C47_flag_by_int, C47_wrong_sample_refuted, C47_passes, C47_pass, C47_no_mask, C24_rot_m, C24_right_handed, C24_eq2top, C24_top2eq, C24_scaling_refuted, C25_directions, C25_north, C26_body_rotation, C48_select, C48_no_such_channel, C48_last_counts, C48_restore, C48_whole_band, C48_in_step, C48_antenna_refuted, C48_failed_refuted, C30_surplus_refuted, C53_pointing, C53_response, C53_y, C53_y_refuted, C40_lsq, C40_lsq_bounds, C40_lsq_outside, C40_anneal_report, C40_anneal_first, C40_anneal_turn, C40_anneal_never_worse, C40_anneal_best, C40_anneal_bounds, C40_anneal_changed, C40_lsq_score_refuted, C40_lsq_bounds_refuted, C40_anneal_bounds_refuted, C57_responses, C58_pixel_coordinates, C58_directions, C58_image, C58_point_source, C58_w_projection, C58_w_planes, C58_w_source, C58_convolution, C58_inverse_transform, C58_gaussian_beam, C58_gaussian_area_refuted, C58_gaussian_shape_refuted, C65_default_taps, C66_moments, C66_centre, C66_drawn, C66_parameters, C66_height_refuted, C66_width_refuted, C66_first_row_refuted, C66_zero_width, C67_half_offset_refuted, C68_reprocess, C68_shape, C68_has_key_refuted, C68_missing_refuted, C69_flags, C69_combine, C69_half, C69_scale, C69_unflags_refuted, C69_unselected_refuted, C69_python3_refuted, C69_channel_range, C70_sources, C70_order, C70_written, C70_no_clobber, C70_wrap_refuted, C70_pole_refuted, C70_osys_refuted, C70_epoch_refuted, C70_nindices_refuted, C72_delay, C72_unflagged, C72_skypass, C72_skypass_refuted, C72_polarisation_refuted, C72_passband_refuted, C72_source_skypass_refuted, C72_rates, C72_rate_zero_refuted, C73_listed, C73_sep_alone_refuted, C73_special_refuted, C73_params_refuted.

* `ClassicalDedekindReals.sig_forall_dec`, `ClassicalDedekindReals.sig_not_dec`, `Classical_Prop.classic`, `FunctionalExtensionality.functional_extensionality_dep` (109 theorems): C32_weights_sum_refuted, C46_window, C24_convert_m, C24_reversed_refuted, C25_thphi, C25_thphi_back, C25_radec, C25_radec_back, C25_azalt, C25_azalt_back, C25_length, C26_opposite, C26_closure, C26_self, C26_length, C26_projection, C26_w, C26_body, C26_strings, C26_uvw, C26_equatorial_refuted, C27_phase, C27_modulus, C27_conjugate, C27_closure, C27_there_and_back, C27_phasing, C27_mfreq_refuted, C29_no_time, C29_no_cache, C29_none_up, C29_sources, C29_same_time, C29_sim_keeps, C29_response, C29_response_refuted, C29_ephem_refuted, C29_stale_refuted, C29_flux_width, C30_up, C30_time, C52_sum, C52_superposition, C52_conjugate, C52_auto, C52_phased, C53_bounded, C53_zenith, C53_gauss, C53_poly, C53_width_refuted, C40_no_iteration, C40_maxent, C40_maxent_step, C40_findvar, C40_maxent_finite_refuted, C40_maxent_bounds_refuted, C40_maxent_run, C17_quantum, C17_zero_component, C17_zeros, C17_one_quantum_refuted, C17_tiny_refuted, C07_header_history_ieee, C07_single_complex, C07_stored_again, C57_parallactic_angle, C57_parallactic_meridian, C58_fourier_sum, C58_peak, C58_w_scale_refuted, C58_gaussian_center_refuted, C60_headers_ieee, C60_copied_item, C60_history, C60_override_absent_refuted, C60_no_history_refuted, C61_power_law, C61_power_law_unique, C61_reference, C61_helmboldt, C61_helmboldt_straight, C61_update, C61_get_jys, C61_cutoff, C61_helmboldt_jys_refuted, C61_helmboldt_negative_refuted, C61_cutoff_disturbs_refuted, C61_str_refuted, C61_str, C62_helmboldt, C62_helmboldt_loads, C62_helmboldt_measurements, C62_no_index_refuted, C62_unmeasured_refuted, C65_regular_powers, C65_regular_default, C65_raises, C65_mean, C65_constant, C65_default_between, C65_default_constant, C65_symmetric_line, C65_length_refuted, C65_line_refuted, C66_peak, C66_fit_of_drawn, C66_swapped_refuted, C71_header.


## 4. Which code is modelled

| file in /repo | modelled | where | not modelled |
|---|---|---|---|
| aipy/miriad.py | `bl2ij`, `ij2bl`, `uv_selector` clauses, `UV.__init__` (append, new, old), `_rdhd`, `_wrhd`, `_rdhd_special`, `_wrhd_special`, `__getitem__`/`__setitem__` of items, `select`, `read`, `all`, `write`, `init_from_uv`, `pipe`, `add_var`, `read_files` | Baseline, Sel, Hdr, Hcopy, Pipe, Uv, App, Rf | `_gen_vartable`'s file parsing beyond C50 |
| aipy/_miriad/miriad_wrap.cpp, .h | MKBL/GETI/GETJ, object creation, read, write, copyvr, rdvr/wrvr, select, rewind, hread/hwrite | Baseline, Uv, Sel, Hdr, Pipe | reference counting, argument parsing, `trackvr` list |
| mir/pack.c | all codecs of the little-endian branch | Pack | the branches for other hosts |
| mir/hio.c | hopen/hclose/hflush/haccess/hdaccess/hdelete/hexists, hio_c and its buffers, header cache read and write | Hio, Tree, Crash | hlist, hseek/hreada text I/O, locks |
| mir/headio.c | wrhd*/rdhd* used by the wrapper and by uvio.c | Hdr, Crash | hisopen/hiswrite text history, rdhdc |
| mir/dio.c | as the file the items live in | Hio, Tree | system calls themselves |
| mir/maskio.c | mkopen/mkread/mkwrite/mkflush/mkfill, runs and flags | Mask | |
| mir/uvio.c | uvopen (new, old, append), uvclose, uvflush, vartable in/out, uvputvr, uvgetvr, uvnext/uv_scan, uvwrite, uvread, flags, uvrewind, uvset preamble/corr, uvcopyvr/uvtrack, uvselect and its tables, uvread_select, int16 scaling | Uv, App, Crash, Sel, Quant, Pipe | line types other than raw channels, planet and velocity code, uvset for data/coord units, wcorr, uvinfo, uv_override |
| mir/uvio.c uvbasant, basant.c | all | Baseline | |
| mir: xyio, xyzio, scrio, key, bug, mir_io, jplread, sma_* | nothing: not reachable from aipy | | |
| aipy/pol.py | all: ijp2blp/blp2ij, set_params/get_params, read_pol/write_pol, ParAng, Antenna update/passband/bm_response, AntennaArray | Baseline, Param, Pol | beam values are any real function; the response cache of amp.AntennaArray is modelled for linear polarisations only (Arr) |
| aipy/scripting.py | parse_chans, parse_ants, uv_selector, parse_prms, parse_srcs | Script, Prm | option parser set-up; the object made for a source position |
| aipy/fit.py | flatten/reconstruct, get_params/set_params of all classes, SimCache of AntennaArray, aliasing of antennas | Flat, Param, Arr | prms printing |
| aipy/coord.py | all conversions and rotations | Geo | precession (ephem) |
| aipy/phs.py | Beam, Antenna, ArrayLocation indexes, AntennaArray geometry, phasing, resolution, SrcCatalog | Arr, Cat | ephem body computations |
| aipy/amp.py | Antenna bandpass and beam response, Beam*, AntennaArray sim and simulation cache, SrcCatalog, update_jys | Arr, Pat, Cat, Src | BeamAlm response (healpix transforms) |
| aipy/src.py, aipy/_src/*.py | get_catalog, catalogue classes' get_srcs, fromfile of every catalogue, Helmboldt spectra | Cat, Src | the contents of the files shipped and the table in misc.py; metadata of the Culgoora catalogue |
| aipy/img.py | word_wrap, recenter, Img.put/get, append_hermitian, ImgW, get_LM, get_uv, image, get_top, get_eq, conv_invker, convolve2d, gaussian_beam, to_fits, from_fits, find_axis, from_fits_to_fits | Img, Sky, Fits | the FITS library, float32 rounding, the FFT algorithm |
| aipy/deconv.py, _deconv/deconv.cpp | clean (all variants), lsq, maxent, anneal, recenter | Clean, Fit | |
| utils/utils.cpp, _dsp/grid/grid.c | add2array, gridding loops | Grid | argument checks of numpy types |
| aipy/healpix.py | HealpixMap set/get/scheme/resolution, Alm indexing, to_fits, from_fits | Hpx, Mapf | the table library, healpy geometry and transforms |
| aipy/map.py | facet_centers, Map.add, put, get, reset_wgt, from_map, to_fits, from_fits | Facet, Hpx, Mapf | the table library |
| aipy/dsp.py | windows | Win | |
| aipy/rfi.py | flag_by_int, remove_spikes, flagging loops | Rfi | the statistics of gen_rfi_thresh |
| aipy/cal.py | get_freqs, get_aa, get_catalog | Rf, Srl | what is in calibration modules |
| aipy/interp.py | all | Interp | polyfit |
| aipy/twodgauss.py | all | Gauss | |
| aipy/const.py | nothing: a list of constants | | |
| scripts/ | the per-record functions of uv_addsub, pull_pol, pull_ants, xtalk3 (all modes), xrfi -m val, mdlvis, apply_cal, combine_freqs, phs2src, flux_cal, xrfi_simple, modmap, apply_bp, filter_src, srclist, compress_uv | Cmd, Scr, Xtk, Xrs, Mod, Bp, Fsr, Srl, Tar | options, history, plotting and imaging scripts, the other modes |



## 5. Findings: where the code does not do what a user would expect


Each is a theorem about the model with a concrete witness (`_refuted`), in addition to the positive theorems, whose hypotheses leave these cases out.

* `C01_bl_2047_refuted` (BaselineProps.v): The range is maximal: antenna 2047 decodes wrongly and collides. MAXIANT is 2048.
* `C04_int16_overflow_refuted` (PackProps.v): Values outside 16 bits are silently changed.
* `C05_mixed_alignment_refuted` (HioProps.v): Elements aligned to their own size are not enough: a 4-byte read that moves the window to an odd multiple of 4 makes a later 8-byte read straddle its end; the value is not delivered.
* `C05_2GiB_refuted` (HioProps.v): Past 2 GiB a one-byte write inside an existing file fails: hwrite_fill_c works in int.
* `C05_sparse_growth_refuted` (HioProps.v): A write that starts more than a window past the end of a reopened small item loses the bytes already stored: reading byte 0 back gives something else.
* `C05_empty_write_refuted` (HioProps.v): A zero-length write past byte 64 empties a small item.
* `C06_empty_item_refuted` (TreeProps.v): Finding: an item set to the empty string cannot be read back, and is lost on close when nothing else changed.
* `C12_many_variables_refuted` (UvProps.v): With more than 128 variables the data set is written without complaint and cannot be read.
* `C12_initial_time_refuted` (UvProps.v): The first record's time is not written when it happens to equal w + 1000: reading then fails. (uvio.c:2013-2019 initialises the comparison buffers from the wrong preamble elements.)
* `C12_preamble_set_refuted` (UvProps.v): Setting a preamble variable between two records that carry the same value makes the second record come back with the user's value.
* `C12_read_past_end_refuted` (UvProps.v): Reading on after the end of the data is an error rather than another end of data, when a variable was set and enlarged after the last record: the second scan of the tail uses the variable's final length.
* `C15_reversed_pair_refuted` (SelProps.v): A record written with i > j is looked up under another baseline: a record of (2,0) is not returned by select('antennae', 0, 2) but is by select('antennae', 1, 1).
* `C16_dazim_ignored_refuted` (SelProps.v): dazim selects nothing away when ra (or any kind numbered 5-19) is also selected on
* `C16_clear_keeps_limit_refuted` (SelProps.v): 'clear' leaves the limit of an earlier 'visibility' selection behind: of five records only three are read after select('visibility',1,2); read; select('clear'); rewind
* `C16_fractional_visibility_refuted` (SelProps.v): a fractional bound in an exclusion makes reading stop before a record it keeps: records 1, 2 and 8 are selected, only 1 and 2 are returned
* `C19_descending_end_refuted` (ScriptProps.v): a descending stepped range leaves out its end point although ranges include end points
* `C20_lone_group_refuted` (ScriptProps.v): a parenthesised list on its own is read as one antenna with a polarisation that does not exist
* `C20_pol_not_swapped_refuted` (ScriptProps.v): "3x_1y" asks for x on antenna 3 and y on antenna 1; the baseline is stored as 1,3 and the entry is the same as that of "1x_3y"
* `C20_all_with_pol_refuted` (ScriptProps.v): ants='all' with an explicit polarisation makes no selection at all
* `C20_exclude_pol_refuted` (ScriptProps.v): excluding one antenna/polarisation keeps only that polarisation on all other baselines
* `C21_single_refuted` (FlatProps.v): a list of one value comes back as a number
* `C21_empty_refuted` (FlatProps.v): an empty list cannot be read back at all, or takes the next parameter's value
* `C22_mfreq_refuted` (ParamProps.v): the frequency is shown by get_params but set_params ignores it
* `C22_polynomial_list_refuted` (ParamProps.v): the flattened-and-reconstructed form (a Python list) of its own parameters is rejected
* `C22_alm_refuted` (ParamProps.v): BeamAlm: set_params(get_params()) reverses the order of the polynomials.
* `C22_pol_bandpass_refuted` (ParamProps.v): pol.Antenna: the imaginary bandpass shown by get_params cannot be set under its name
* `C22_delay_with_list_refuted` (ParamProps.v): a delay given together with another phsoff list is lost
* `C23_default_argument_refuted` (ParamProps.v): findings: all antennas built without a phsoff argument share one list
* `C23_copied_parameters_refuted` (ParamProps.v): parameters read from one antenna and set on another tie the two together
* `C38_mask_high_word_refuted` (CleanProps.v): a mask entry that is a multiple of 2^32 counts as zero
* `C39_zero_image_hangs_refuted` (CleanProps.v): without stop_if_div an all-zero image is never finished, whatever maxiter >= 2
* `C39_tol_exit_refuted` (CleanProps.v): without stop_if_div, ending on 'tol' can return a residual worse than the one it started with
* `C31_long_index_refuted` (GridProps.v): finding: indices are truncated to 32 bits, so 2^32 is accepted and addresses cell 0
* `C32_weights_sum_refuted` (GridProps.v): The weights of one sample do not add up to 1: more than 1 at a cell centre.
* `C32_not_square_refuted` (GridProps.v): grid2D on an image that is not square fails at, or misplaces, samples (the two sides are exchanged in the bounds).
* `C32_degrid_initial_refuted` (GridProps.v): degridding adds to what the output array held before
* `C33_empty_axis_refuted` (ImgProps.v): an array with an empty axis has no centre to move: the call raises
* `C34_one_weight_refuted` (ImgProps.v): one visibility with a bare array of one weight: the call goes through, but the weight's element is a number, not an array, and it raises
* `C35_zero_wres_refuted` (ImgProps.v): when the resolution is not positive the loop does not advance
* `C35_get_single_refuted` (ImgProps.v): a single sample cannot be read back
* `C35_get_stale_refuted` (ImgProps.v): planes, once projected, are kept: whatever is put (or left out) afterwards, the next get returns the values of before
* `C35_get_transposed_refuted` (ImgProps.v): put and get disagree on the axes: a visibility put at (u, v) = (20, 0) is nan when read at (20, 0)
* `C36_narrow_refuted` (ImgProps.v): without room the words vanish, or the call raises
* `C41_repeated_pixel_refuted` (HpxProps.v): a later call that names a pixel twice counts what the pixel held twice
* `C41_reset_other_wgt_refuted` (HpxProps.v): with another weight, the means change
* `C42_scalar_refuted` (HpxProps.v): a scalar is not spread over several pixels
* `C42_side_16384_refuted` (HpxProps.v): add2array keeps indices in an int: on a map of side 16384, a value for pixel 3000000000 lands on pixel 1926258176
* `C43_argument_changed_refuted` (HpxProps.v): but it leaves interpolation switched on in the map it reads from
* `C43_other_scheme_refuted` (HpxProps.v): same side, other scheme: the pixels are put in this map's order but the map takes the other scheme's name, so that it shows a different sky (at any side where the two numberings differ)
* `C43_brightness_refuted` (HpxProps.v): going to a coarser map adds up brightness instead of keeping it: a sky that is 1 everywhere does not stay so
* `C44_bad_lm_refuted` (HpxProps.v): nothing stops an (l, m) with m > l: it reads and overwrites another coefficient
* `C44_from_alm_refuted` (HpxProps.v): from_alm hands the scheme to alm2map as its pixwin flag: the map is not the one to_map gives by default, wherever the pixel window makes a difference
* `C45_numpy_refuted` (FacetProps.v): a finding: with numpy 1.10 or later no list of two facets or more is given at all
* `C46_parzen_refuted` (WinProps.v): findings: parzen is not symmetric for any length; none is one number, not L of them; tukey gives two samples when asked for one
* `C46_none_refuted` (WinProps.v): gen_window with "none" returns the number 1, not an array of length L.
* `C46_tukey_one_refuted` (WinProps.v): gen_window of length 1 with "tukey" returns two samples.
* `C49_get_srcs_all_refuted` (CatProps.v): a finding: without arguments get_srcs gives nothing at all, whatever the catalogue holds
* `C49_add_part_refuted` (CatProps.v): a finding: a call that raises part way has already put the sources before the bad argument
* `C47_wrong_sample_refuted` (RfiProps.v): a finding: once some samples are flagged, the wrong ones are. Here the last of four samples is the outlier, the first was flagged before; the third is flagged, the last is not
* `C24_scaling_refuted` (GeoProps.v): The documentation says an axis of another length scales the rotation: it does not.
* `C24_reversed_refuted` (GeoProps.v): The documentation says the systems must be given in reverse for this: then it is wrong.
* `C26_equatorial_refuted` (ArrProps.v): "Current equatorial" baselines are turned the wrong way: the projection of that vector on a source's equatorial direction is not the w of that source.
* `C27_mfreq_refuted` (ArrProps2.v): gen_phs refracts at its argument's default of 150 MHz, not at the source's own reference frequency: the two phases differ.
* `C48_antenna_refuted` (ArrProps3.v): Selecting on one antenna changes the beam it shares with another, whose own tables stay at the old channels.
* `C48_failed_refuted` (ArrProps3.v): A selection that fails half way leaves the antennas before it selected and those after it not.
* `C29_response_refuted` (ArrProps4.v): With no cached source up, asking for a beam response makes the next sim raise KeyError.
* `C29_ephem_refuted` (ArrProps5.v): After set_ephemtime (instead of set_jultime) the cached source positions stay those of the old time: a source that has set is still simulated.
* `C29_stale_refuted` (ArrProps5.v): Finding: responses once computed for the cached sources are used even after an antenna has been pointed elsewhere, until sim_cache is called again with the same sources.
* `C30_surplus_refuted` (ArrProps4.v): Finding: surplus flux rows go unnoticed.
* `C53_width_refuted` (PatProps.v): Finding: with the default pointing, x of the beam is north and not east: a beam made narrow in "EW" is narrow in north-south direction for polarisation x.
* `C53_y_refuted` (PatProps.v): ... and not the other way round, as the docstring has it ("y is assumed to be +pi/2 azimuth from pol x"), which shows for beams that differ in opposite directions.
* `C40_lsq_score_refuted` (FitProps2.v): the score reported by lsq is not that of the residual it returns
* `C40_lsq_bounds_refuted` (FitProps2.v): with tol above 1 lsq returns the starting model, whatever the bounds
* `C40_anneal_bounds_refuted` (FitProps2.v): anneal can return a model outside the bounds: with no model given it starts from zeros, which the default lower bound (the smallest positive number) excludes
* `C40_maxent_finite_refuted` (FitProps2.v): a perfect fit makes maxent divide by zero: the model returned is then not made of numbers, though success is reported
* `C40_maxent_bounds_refuted` (FitProps2.v): the starting model is not clipped: fitting at once, it is returned as it is
* `C17_one_quantum_refuted` (QuantProps.v): one quantum is not always enough: the single value 1045 comes back as 1044.968..., which is 1.0028 quanta off: rounding makes the largest sample the integer 32766
* `C17_tiny_refuted` (QuantProps.v): a record whose largest value is below 2^-113 cannot be scaled: 32767/maxval is infinite
* `C18_same_time_refuted` (PipeProps.v): A function that gives two records the same time, where the source times differ, is not obeyed: the second record comes out with the source's time. (pipe copies the variable time, and uvwrite compares the record with the last one written, not with the copied variable.)
* `C18_late_variable_refuted` (PipeProps.v): A variable that gets its first value after the first record makes init_from_uv fail.
* `C18_integer_array_refuted` (PipeProps.v): So does an array of integers.
* `C18_decimated_source_refuted` (PipeProps.v): From a decimated source (every second integration), a variable changed at a skipped integration keeps its old value in the copy: each skipped read moves the mark copyvr uses.
* `C07_wide_integer_refuted` (HdrProps.v): An integer of more than 32 bits is stored without complaint and comes back as another number.
* `C07_one_element_refuted` (HdrProps.v): A sequence of one number comes back as the number.
* `C07_nul_refuted` (HdrProps.v): NULs are dropped from text.
* `C07_non_ascii_refuted` (HdrProps.v): Text that is not ASCII is stored in part and cannot be read.
* `C08_empty_refuted` (HdrProps.v): A freqs table must have its count.
* `C50_blank_name_refuted` (CrashProps.v): A name with a blank in it is cut off at the blank, so it is lost.
* `C54_append_without_record_refuted` (AppProps.v): A data set to which no record has been written, only variables, cannot be reopened for appending, whatever the corrmode.
* `C55_nothing_ignored_refuted` (PrmProps.v): text after an assignment is silently dropped: "cyg=jys=3" (a '=' where a '/' was meant) is accepted, and the parameter is given no value
* `C55_named_source_refuted` (PrmProps.v): a source whose name begins with "all" cannot be asked for: every source is meant instead
* `C56_missing_record_refuted` (RfProps.v): a baseline missing from one integration shifts its later rows: row 1 of (0,1) is of time 3, but times[1] is 2
* `C56_files_of_same_times_refuted` (RfProps.v): two files of the same times, as when each polarisation is in a file of its own: the times are listed twice, and no key has as many rows as there are times
* `C56_single_name_refuted` (RfProps.v): one file name instead of a list is taken letter by letter: the test type(filenames) == 'str' is never true, so the file is not found although it is there
* `C57_v_offset_refuted` (PolProps.v): Stokes V has the same phase offset on (i, j) as on (j, i), so exchanging the antennas does not conjugate the phase; on an autocorrelation the offset is 2 (phase y - phase x), not zero as for I, Q and U
* `C57_i_offset_refuted` (PolProps.v): the offset of I and U is the sum of the offsets of xx and yy: when both feeds have the same phases a Stokes visibility turns twice as fast as the linear ones it is made of
* `C57_stokes_passband_refuted` (PolProps.v): a Stokes polarization can be made active, but with gains for the feeds x and y there is none to look up: passband raises KeyError
* `C57_unknown_name_refuted` (PolProps.v): a name that is none of the twelve is printed and otherwise ignored: the previous polarization stays in effect
* `C58_w_scale_refuted` (SkyProps.v): samples of w = 0 put into an ImgW appear n*n times fainter than in an Img: conv_invker divides the kernel by its number of pixels
* `C58_get_uv_refuted` (SkyProps.v): Img.get_uv numbers the rows by u and the columns by v; put writes the sample (u, v) to row -v, column u
* `C58_right_is_west_refuted` (SkyProps.v): images are said to have east to the right: l, the component towards east, falls along a row (but for the wrap)
* `C58_center_refuted` (SkyProps.v): the origin of an image is not moved to `center' but to its opposite
* `C58_gaussian_area_refuted` (SkyProps.v): the area is not amp, as documented: amp is the height
* `C58_gaussian_center_refuted` (SkyProps.v): the peak is not at `center' but opposite to it: with center (3, 1) on an 8 by 8 grid, at (5, 7)
* `C58_gaussian_shape_refuted` (SkyProps.v): an integer `shape' is not looked at: the array is 2 sigma wide; with a float sigma this fails
* `C59_pull_ants_refuted` (CmdProps.v): pull_ants looks up an option it never defines: it raises for every data set.
* `C59_combine_freqs_refuted` (CmdProps.v): combine_freqs divides numbers of channels with /, which gives a float under Python 3: it raises at the first record whenever the number of channels asked for is not the data set's, for every data set.
* `C59_addsub_unchecked_refuted` (CmdProps.v): uv_addsub never compares times, antennas or polarisations: data sets of other times and antennas are added without a word.
* `C59_addsub_partial_output_refuted` (CmdProps.v): When the second data set of uv_addsub is too short the script raises half way. What it has written stays as a data set that reads without error, and the next run skips it (File exists).
* `C59_xrfi_repeated_refuted` (CmdProps.v): xrfi keeps its masks by polarisation, antennas and time: of two such records both get the mask of the later one, so flags of the first are lost.
* `C60_override_absent_refuted` (HcopyProps.v): init_from_uv goes through the items of the source only: an override of an item the source does not have is not written.
* `C60_no_history_refuted` (HcopyProps.v): pipe reads the destination's history before anything else: it raises IOError when the source had none or it was excluded.
* `C61_helmboldt_jys_refuted` (SrcProps.v): a finding: the jys of a Helmboldt source, which get_params shows, is not its flux at its frequency, which is 10^C times that
* `C61_helmboldt_negative_refuted` (SrcProps.v): a finding: a Helmboldt source with a negative flux has no number for its flux, where the other sources have one
* `C61_cutoff_disturbs_refuted` (SrcProps.v): a finding: a request for sources above a cutoff leaves sources handed out before with one flux at that frequency, since they are the same objects
* `C61_str_refuted` (SrcProps.v): a finding: str() of a source raises before its first update, and of a Helmboldt source always (afreqs is not set)
* `C62_failed_load_refuted` (SrcProps2.v): a finding: when its file cannot be read a catalogue module raises once, and quietly gives an empty catalogue from then on
* `C62_blank_field_refuted` (SrcProps2.v): a finding: one line of enough columns whose first field is empty makes the whole file unreadable (IndexError is not caught)
* `C62_no_index_refuted` (SrcProps2.v): a finding: a Helmboldt source without an index gets index -99: at twice the frequency less than 10^-29 of its flux is left
* `C62_unmeasured_refuted` (SrcProps2.v): a finding: a Culgoora row without a flux at either frequency makes every request with a cutoff raise
* `C63_clobber_refuted` (FitsProps.v): a finding: an existing file is overwritten although clobber is False, because the file is always written with overwrite
* `C63_step_sign_refuted` (FitsProps.v): a finding: a positive step in right ascension is negated in the file, so it is read with the other sign
* `C63_narrow_refuted` (FitsProps.v): a finding: an image one pixel high or wide cannot be written with its two axes named, since the data is squeezed first
* `C63_galactic_refuted` (FitsProps.v): a finding: galactic coordinates are written in the header but from_fits returns neither ra nor dec nor the steps
* `C63_nan_refuted` (FitsProps.v): a finding: one pixel that is not a number makes DATAMAX not a number and the image cannot be written
* `C63_default_scale_refuted` (FitsProps.v): a finding: with a library that keeps BSCALE the default bscale=0 makes every pixel zero when read
* `C63_history_refuted` (FitsProps.v): a finding: a history line of one character is left out, and a word of a comment line is torn between two cards (wrapped at 80 where a card holds 72)
* `C63_find_axis_refuted` (FitsProps.v): a finding: find_axis takes the number from the axis name instead of the keyword and raises on the files to_fits writes
* `C63_copy_refuted` (FitsProps.v): a finding: from_fits_to_fits calls iteritems, which Python 3 does not have, and never writes a file
* `C64_new_table_refuted` (MapfProps.v): a finding: with a library without new_table (the astropy that setup.py requires for Python 3) neither class ever writes a file
* `C64_read_twice_refuted` (MapfProps.v): a finding: from_fits appends the index maps of the file to those the map has, so reading a file again doubles them
* `C64_weights_scheme_refuted` (MapfProps.v): a finding: for a NEST file without weights the weights made are labelled RING
* `C64_change_scheme_refuted` (MapfProps.v): a finding: change_scheme on a Map reaches only its fluxes; saved and read, the weights are at other places of the sky
* `C64_ordering_refuted` (MapfProps.v): a finding: `scheme == 'NESTED'` is a comparison, so ORDERING is written as NEST
* `C64_interp_refuted` (MapfProps.v): a finding: Map(interp=True, fromfits=...) interpolates fluxes and weights but not the indices
* `C64_unequal_refuted` (MapfProps.v): a finding: parts of different sides are filled up with zeros and read back with another side
* `C65_length_refuted` (InterpProps.v): a finding: with factor 6 (and 22, 23, 24, 27, ...) rounding gives the filter one tap too many, and 6N-1 values come back instead of 6N
* `C65_line_refuted` (InterpProps.v): a finding: the window of the default filter is not symmetric about the middle tap, so straight lines (of any slope but 0) are changed even at the samples, also with factor 1
* `C66_height_refuted` (GaussProps.v): a finding: the height is taken from the parameters and never added to the Gaussian
* `C66_width_refuted` (GaussProps.v): a finding: the widths are distances from the number of the wrong axis: one bright pixel at row r, column c gets the widths sqrt|r-c|
* `C66_first_row_refuted` (GaussProps.v): a finding: light in the first row alone (away from the corner) makes every column weight zero, and moments raises ValueError
* `C66_swapped_refuted` (GaussProps.v): a finding: the width measured along a row is drawn across the rows: a source longer along the row is drawn longer across it
* `C67_named_refuted` (ScrProps.v): a finding: both scripts subscript values() of a catalogue: under Python 3 no named source can be used
* `C67_below_refuted` (ScrProps.v): a finding: a source below the horizon is written as zeros whose flags stay good
* `C67_beam_alone_refuted` (ScrProps.v): a finding: flux_cal -b without -f never fills the cache the beam response needs: it raises at the first record of every data set
* `C67_half_offset_refuted` (ScrProps.v): a finding: without a source phs2src is to remove the phase offset, but its factor is the square root of what the array applies: it is right only for offsets that are even numbers of turns
* `C68_has_key_refuted` (XtkProps.v): a finding: both modes call has_key of a dictionary: under Python 3 -o raises on every file that has cross-correlations and -r whenever there is a measurement
* `C68_missing_refuted` (XtkProps.v): a finding: when the measurement of a file is missing ("Skipping...") its time is kept but no gain is, so later files are written with the gain of the file after them and the run raises before the last one
* `C69_unflags_refuted` (XrsProps.v): a finding: with --combine and thresh above the number of selected records of a time, flags that were in the file are removed: the counts include them, and the combined mask takes the place of the mask of the file
* `C69_unselected_refuted` (XrsProps.v): a finding: the output pass reads every record of the file but masks are made for the selected ones: without --combine a record that is not selected (an autocorrelation, as -a is "cross" by default) stops the run with KeyError
* `C69_python3_refuted` (XrsProps.v): a finding: under Python 3 keys().sort() and values()[0] raise: a run stops when there is a selected record, and a run with --combine always does
* `C70_wrap_refuted` (ModProps.v): a finding: azimuths are subtracted without regard to 2 pi: of a source close to right ascension zero the part on the other side is cut off and its flux put on this side
* `C70_pole_refuted` (ModProps.v): a finding: differences in right ascension are not scaled by the cosine of the declination: near a pole pixels closer to a round source than its radius are left out
* `C70_osys_refuted` (ModProps.v): a finding: the ellipse is laid about the equatorial position in the coordinates of the map: with --osys ga or ec a source with a shape lands elsewhere on the sky
* `C70_epoch_refuted` (ModProps.v): a finding: the position of a point source is precessed to --oepoch by ephem and once more by the matrix
* `C70_nindices_refuted` (ModProps.v): a finding: --nindices is not heeded with -i alone: if the map has no indices the first source stops the run
* `C71_other_size_refuted` (BpProps.v): a finding: every exception in reading the bandpass is caught: one of another size is not applied, and is not in the new header either
* `C71_antenna_number_refuted` (BpProps.v): a finding: rows of the bandpass are taken by antenna number: a data set in which a number is not below nants stops the run and leaves a partial file, which the next run skips as done
* `C71_one_number_refuted` (BpProps.v): a finding: of one antenna and one channel the bandpass is never applied
* `C72_skypass_refuted` (FsrProps2.v): a finding: where the array delay of a baseline is longer than 1.5 of its length, the slice that is to be nulled is empty and the sky-pass filter takes every delay
* `C72_polarisation_refuted` (FsrProps2.v): a finding: a record of a polarisation that is not selected with -p ends the run with a KeyError while the new file is being written
* `C72_passband_refuted` (FsrProps2.v): a finding: -P multiplies float weights in place by the complex passband, which raises TypeError
* `C72_source_skypass_refuted` (FsrProps2.v): a finding: -d -1 together with a source is a NameError, as filters is only there without one
* `C72_rate_zero_refuted` (FsrProps3.v): a finding: -r 0 takes every rate but zero (the slice 0:1 is nulled), while -d 0 takes no delay
* `C73_sep_alone_refuted` (SrlProps.v): a finding: --sep without --centers lists nothing, whatever the catalogue
* `C73_special_refuted` (SrlProps.v): a finding: in Python 3, without a date, a catalogue with a source that is not a fixed body ends the run, as an entry is deleted during the iteration over the keys
* `C73_params_refuted` (SrlProps.v): a finding: in Python 3, printing the parameters of any source raises, as has_key is gone
* `C73_fit_refuted` (SrlProps2.v): a finding: with two or more sources, --fitprms leaves out the comma before the last one, and fitmdl.py reads the text without it: its parameters are not fitted
* `C73_calibration_refuted` (SrlProps2.v): a finding: in Python 3, get_aa raises NameError for every calibration module, and get_catalog raises UnboundLocalError for every one that has a catalogue, as exec binds no variables of the function
* `C73_no_key_refuted` (SrlProps2.v): a finding: in Python 3, get_catalog without a key raises SyntaxError, which is not caught, though None is the default
* `C74_slash_refuted` (TarProps.v): a finding: of a directory given with a slash at the end, as shells complete it, the tarball is made inside the directory, and -d deletes both: all the data are lost
* `C74_space_refuted` (TarProps.v): a finding: of a path with a space in it, the part before the space is deleted, with or without -d: names are not quoted for the shell

Further findings made while reading, not stated as theorems:

* Selection: `decimate` 0 divides by zero; the check of `shadow` contradicts its documentation; a failed `select` leaves an empty clause.
* Header: `PyString_AsString` result used after its owner is released; `hreadj` into a short overflows; `obstype` and
  `vartable` items are overwritten on close; `_miread` is a misspelt name.
* uv_locvar's hash is negative for names with bytes of 128 and above; the variable index is a signed char.
* Reading `uv[name]` back from a file being written can return a stale preamble value.
* Appending: the `obstype` "mixed" is not recognised when reopening, so it is recomputed from the new records only.
* rfi: a negative `iter` never ends.
* miriad.read_files: `type(filenames) == 'str'` is never true, so a single name is iterated character by character.
* scripts/pull_pol: without -p the default 8 has no `split`; scripts/stokes_rotate uses `a.pol.xy2stokes`, which does not exist.
* scripts/xtalk3 -o and -r use `has_key` and index a `map`: both fail under Python 3. xrfi -m int/both sorts `dict.keys()`: the same.

