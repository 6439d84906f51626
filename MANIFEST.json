{
 "claims": [
  {
   "property": "C01",
   "status": "proved",
   "theorems": [
    "C01_intersect_is_set_intersection"
   ],
   "note": ""
  },
  {
   "property": "C02",
   "status": "proved",
   "theorems": [
    "C02_union_is_set_union"
   ],
   "note": ""
  },
  {
   "property": "C03",
   "status": "proved",
   "theorems": [
    "C03_join_keeps_coverage",
    "C03_join_empty_rejected"
   ],
   "note": ""
  },
  {
   "property": "C04",
   "status": "proved",
   "theorems": [
    "C04_closed_interval_exact",
    "C04_closed_interval_duplicates_refuted"
   ],
   "note": "Exact on strictly increasing grids; refuted for grids with repeated samples (C04_closed_interval_duplicates_refuted)."
  },
  {
   "property": "C05",
   "status": "proved",
   "theorems": [
    "C05_enclosing_interval_brackets",
    "C05_enclosing_value_overload_agrees",
    "C05_enclosing_value_outside_throws",
    "C05_enclosing_reversed_range_refuted"
   ],
   "note": "Well-formed ranges; a reversed range beyond the grid is UB (refuted theorem)."
  },
  {
   "property": "C06",
   "status": "proved",
   "theorems": [
    "C06_spread_over_uniform",
    "C06_spread_over_backward_uniform",
    "C06_spread_over_epsilon_forward",
    "C06_spread_over_epsilon_backward",
    "C06_negative_step_refuted"
   ],
   "note": "Positive steps, Int32 count representable; negative step reaches front() of an empty vector (refuted theorem)."
  },
  {
   "property": "C07",
   "status": "proved",
   "theorems": [
    "C07_spread_over_log",
    "C07_spread_over_log_backward",
    "C07_geometric_grids_increase",
    "C07_bounds_of_opposite_sign_rejected"
   ],
   "note": "Over the reals (no rounding)."
  },
  {
   "property": "C08",
   "status": "proved",
   "theorems": [
    "C08_centered_window_log",
    "C08_centered_window_linear"
   ],
   "note": "Linear sampling over Q, log sampling over R (no rounding)."
  },
  {
   "property": "C09",
   "status": "proved",
   "theorems": [
    "C09_getIndex_exact",
    "C09_closest_lower_index",
    "C09_closest_upper_index",
    "C09_closer_index_is_nearest",
    "C09_empty_vector_refuted",
    "C09_lower_bound_is_binary_search"
   ],
   "note": "Non-empty vectors; the empty vector is UB (refuted theorem)."
  },
  {
   "property": "C10",
   "status": "proved",
   "theorems": [
    "C10_median_value",
    "C10_median_splits_sample_in_halves",
    "C10_median_order_independent",
    "C10_even_midpoint_refuted",
    "C10_empty_sample_refuted",
    "C10_mean_between_extremes"
   ],
   "note": ""
  },
  {
   "property": "C11",
   "status": "proved",
   "theorems": [
    "C11_intersection_is_samplewise_and",
    "C11_overlap_fraction",
    "C11_counts",
    "C11_plain_overlap_in_unit_refuted"
   ],
   "note": ""
  },
  {
   "property": "C12",
   "status": "proved",
   "theorems": [
    "C12_flags_are_warnings_since_reset",
    "C12_flag_word_fits"
   ],
   "note": ""
  },
  {
   "property": "C13",
   "status": "proved",
   "theorems": [
    "C13_history_well_nested",
    "C13_reference_history_never_fails",
    "C13_push_accepted_iff_allowed"
   ],
   "note": ""
  },
  {
   "property": "C14",
   "status": "proved",
   "theorems": [
    "C14_guards_balanced"
   ],
   "note": ""
  },
  {
   "property": "C15",
   "status": "proved",
   "theorems": [
    "C15_scoped_names_distinct",
    "C15_scoped_names_with_dots_refuted",
    "C15_lookup_returns_first_store",
    "C15_global_store_rejected_iff_taken",
    "C15_template_store_rejected_iff_taken",
    "C15_map_over_templates",
    "C15_stored_in_scope_retrieved_by_names"
   ],
   "note": ""
  },
  {
   "property": "C16",
   "status": "proved",
   "theorems": [
    "C16_scoped_name_is_dotted_path",
    "C16_scoped_name_at_depth",
    "C16_scoped_read",
    "C16_scoped_list_falls_back",
    "C16_set_then_get",
    "C16_set_list_then_get",
    "C16_ism_query",
    "C16_igm_query",
    "C16_igm_query_total_refuted",
    "C16_fft_query",
    "C16_log_rebin_query",
    "C16_min_fft_step",
    "C16_orthogonalisation_query"
   ],
   "note": ""
  },
  {
   "property": "C17",
   "status": "partial",
   "theorems": [
    "C17_sorted_verdict_partial",
    "C17_log_verdict_partial",
    "C17_log_check_meaning",
    "C17_sorted_verdict_never_stale_refuted",
    "C17_log_verdict_never_stale_refuted",
    "C17_nan_step_is_declared_regular_refuted"
   ],
   "note": "Verdicts proved right for every history of the operations listed in keeps_sorted_verdict / keeps_log_verdict; the unrestricted property is false of the code (refuted theorems: ApplyOffset, MaskAxis, extract, SetSize, *= on one sample, raw vector access)."
  },
  {
   "property": "C18",
   "status": "proved",
   "theorems": [
    "C18_every_kth_sample_of_the_range",
    "C18_rejected_requests",
    "C18_ratio_one_ignores_the_range_refuted",
    "C18_nonpositive_ratio_refuted"
   ],
   "note": ""
  },
  {
   "property": "C19",
   "status": "proved",
   "theorems": [
    "C19_mask_keeps_selected_samples_in_order",
    "C19_selection_is_unique",
    "C19_masking_keeps_sorted"
   ],
   "note": ""
  },
  {
   "property": "C20",
   "status": "proved",
   "theorems": [
    "C20_index_is_first_sample_not_below",
    "C20_mask_marks_exactly_the_range",
    "C20_overlap_fraction_counts",
    "C20_clamp_is_intersection",
    "C20_clamp_errors",
    "C20_mean_resolution",
    "C20_local_resolution",
    "C20_shift_round_trip",
    "C20_shift_edge_cases",
    "C20_integer_step_ratio",
    "C20_index_on_empty_axis_refuted"
   ],
   "note": ""
  },
  {
   "property": "C21",
   "status": "proved",
   "theorems": [
    "C21_median_smoothing",
    "C21_mean_smoothing",
    "C21_negative_width_refuted"
   ],
   "note": ""
  },
  {
   "property": "C22",
   "status": "proved",
   "theorems": [
    "C22_correction_repairs_only_invalid_samples",
    "C22_everything_valid_afterwards",
    "C22_null_coefficient_refuted",
    "C22_size_mismatch_refuted",
    "C22_subtraction_is_samplewise",
    "C22_largest_magnitude",
    "C22_set_error"
   ],
   "note": ""
  },
  {
   "property": "C23",
   "status": "proved",
   "theorems": [
    "C23_linear_rebinning",
    "C23_every_sample_of_the_range_is_reached",
    "C23_interpolation_never_overshoots",
    "C23_interpolation_exact_on_source_samples",
    "C23_uncovered_range_rejected",
    "C23_zero_outside_range_refuted",
    "C23_single_sample_source_refuted",
    "C23_single_target_variance_refuted"
   ],
   "note": "Sorted axes, range inside the source; refuted for targets between the end of the range and the next source sample, one-sample sources and one-sample targets (variance option)."
  },
  {
   "property": "C24",
   "status": "proved",
   "theorems": [
    "C24_nearest_sample_rebinning",
    "C24_single_sample_source_refuted",
    "C24_spline_rebinning",
    "C24_spline_noise_not_implemented",
    "C24_fine_grid_rebinning",
    "C24_fine_grid_edge_refuted",
    "C24_operator_names"
   ],
   "note": "NGP, spline (GSL as an arbitrary function) and fine grid; refuted: one-sample source, zero flux at the red edge of the fine grid."
  },
  {
   "property": "C25",
   "status": "proved",
   "theorems": [
    "C25_peaks_are_exactly_the_maxima",
    "C25_safe_for_every_input",
    "C25_nan_borders_trimmed",
    "C25_descending_plateau_refuted",
    "C25_peak_reported_once_refuted",
    "C25_right_border_plateau_refuted"
   ],
   "note": "Exact on inputs without stair plateaus; three refuted theorems show the wrong peaks reported on stair plateaus."
  },
  {
   "property": "C26",
   "status": "proved",
   "theorems": [
    "C26_selected_peaks",
    "C26_zero_peaks_requested_refuted"
   ],
   "note": "Abscissas > -1, separation < 2, no merit cut; N=0 refuted."
  },
  {
   "property": "C27",
   "status": "proved",
   "theorems": [
    "C27_merit_cut_refuted",
    "C27_top_peaks",
    "C27_truncation",
    "C27_merit_cut_filter"
   ],
   "note": "No merit cut for the whole search (refuted with it); the cut filter itself is proved exact."
  },
  {
   "property": "C28",
   "status": "proved",
   "theorems": [
    "C28_possible_peaks",
    "C28_peaks_are_inside",
    "C28_narrow_window_refuted",
    "C28_detection",
    "C28_smoothing_first",
    "C28_second_sample_refuted"
   ],
   "note": "Exact rationals, no NaN. Refuted: one-sample axis or window narrower than twice the last step computes the median of nothing; a peak at the second sample is dropped."
  },
  {
   "property": "C29",
   "status": "proved",
   "theorems": [
    "C29_integration_ranges",
    "C29_two_candidates",
    "C29_kept_ranges_disjoint_refuted",
    "C29_removed_overlaps_a_kept_refuted",
    "C29_no_candidate_refuted"
   ],
   "note": "Exact rationals, any sorting function for std::sort. Refuted: kept ranges always disjoint, removed candidates always overlap a kept one, empty candidate set."
  },
  {
   "property": "C30",
   "status": "proved",
   "theorems": [
    "C30_rank_order",
    "C30_duplicates_last"
   ],
   "note": "Exact rationals; NaN integrals (failed Gaussian fit) not modelled."
  },
  {
   "property": "C31",
   "status": "proved",
   "theorems": [
    "C31_error_from_the_curvature",
    "C31_error_is_positive",
    "C31_redshift_not_in_the_grid",
    "C31_empty_grid",
    "C31_gaussian_density"
   ],
   "note": "Real numbers; the optional GSL quadratic fit (gslfit=1) is not modelled."
  },
  {
   "property": "C32",
   "status": "proved",
   "theorems": [
    "C32_pdf_is_the_normalised_posterior",
    "C32_pdf_shift_invariant",
    "C32_empty_grid_throws",
    "C32_prior_size_checked",
    "C32_chi2_size_checked_refuted",
    "C32_single_redshift_refuted"
   ],
   "note": "Real numbers. Refuted: one-redshift grid returns log density 1; number of chi2 not checked."
  },
  {
   "property": "C33",
   "status": "proved",
   "theorems": [
    "C33_log_sum_exp_exact",
    "C33_log_sum_exp_shift",
    "C33_no_overflow",
    "C33_short_grid_throws",
    "C33_value_size_checked_refuted"
   ],
   "note": "Real numbers (no rounding). Refuted: number of values not checked."
  },
  {
   "property": "C34",
   "status": "proved",
   "theorems": [
    "C34_marginalised_density",
    "C34_sizes_checked",
    "C34_model_priors_checked"
   ],
   "note": "Real numbers; -DBL_MAX is a parameter, its contribution is exact in the statement."
  },
  {
   "property": "C35",
   "status": "proved",
   "theorems": [
    "C35_best_chi2_is_the_pointwise_minimum",
    "C35_order_of_models"
   ],
   "note": "Real numbers."
  },
  {
   "property": "C36",
   "status": "proved",
   "theorems": [
    "C36_subgrid_replaces_its_zone",
    "C36_companion_stays_paired",
    "C36_all_candidates",
    "C36_coarse_subgrid_refuted",
    "C36_subgrid_beyond_the_grid_refuted"
   ],
   "note": "Sub-grid at least as dense as what it replaces, end samples only beyond the grid; both conditions shown necessary by refuted theorems."
  },
  {
   "property": "C37",
   "status": "proved",
   "theorems": [
    "C37_unchanged_within_range",
    "C37_first_line_too_high",
    "C37_second_line_too_high",
    "C37_null_errors_refuted",
    "C37_nominal_amplitude_refuted"
   ],
   "note": "Unit nominal amplitudes, at least one non-null error; refuted otherwise."
  },
  {
   "property": "C38",
   "status": "proved",
   "theorems": [
    "C38_two_lines",
    "C38_two_lines_only_lowers",
    "C38_strong_weak",
    "C38_balmer_series",
    "C38_amplitudes_stay_nonnegative",
    "C38_option_selects",
    "C38_option_all",
    "C38_option_without_rule_names",
    "C38_no_rules",
    "C38_mixed_element_refuted",
    "C38_absorption_balmer_never_applied",
    "C38_absorption_balmer_refuted",
    "C38_tag_substring_refuted"
   ],
   "note": "Proportional elements with positive nominal amplitudes; refuted: mixed strong/weak elements, absorption Balmer rules set up with the emission type, substring matching of line tags."
  },
  {
   "property": "C39",
   "status": "proved",
   "theorems": [
    "C39_limit",
    "C39_undefined_amplitude_kept",
    "C39_never_raises",
    "C39_outside_line_revived_refuted",
    "C39_negative_amplitude_raised_refuted",
    "C39_absorption_limit_broken_refuted"
   ],
   "note": "Refuted: lines outside the range revived, negative amplitudes raised to 0, absorption limit broken."
  },
  {
   "property": "C40",
   "status": "partial",
   "theorems": [
    "C40_median_smoothing",
    "C40_mean_smoothing",
    "C40_even_mirror",
    "C40_odd_mirror",
    "C40_effective_spectrum",
    "C40_removal",
    "C40_reflection",
    "C40_flat",
    "C40_units",
    "C40_refusals",
    "C40_narrow_kernel_refuted",
    "C40_border_fit_refuted"
   ],
   "note": "Exact rationals, no overflow; the amplitudes are given in samples (round(width / resolution) not modelled) and the linear regression of the odd reflection is abstract. Refuted: a kernel narrower than four samples makes every sample of the effective spectrum NaN; the border values of the odd reflection are fitted on the whole spectrum, never near the border (max and min are exchanged)."
  },
  {
   "property": "C41",
   "status": "proved",
   "theorems": [
    "C41_delivery",
    "C41_all_live_handlers_served",
    "C41_delivery_order_stable",
    "C41_ninth_handler_refuted"
   ],
   "note": "At most eight live handlers; the ninth is refuted."
  },
  {
   "property": "C42",
   "status": "partial",
   "theorems": [
    "C42_history",
    "C42_count",
    "C42_add_outside_grid",
    "C42_lookup",
    "C42_lookup_outside_refuted",
    "C42_lookup_negative",
    "C42_lookup_index_outside",
    "C42_lookup_off_grid",
    "C42_lookup_off_grid_refuted",
    "C42_max_amplitude_sigma",
    "C42_max_amplitude_sigma_refuted"
   ],
   "note": "Exact rationals, no NaN merit. Ranking, stability, counts and lookups proved for every history. Refuted: a rank that only another redshift has reads outside, a redshift between the points of a grid of fewer than ten reads outside, the largest significance reads a redshift without fit."
  },
  {
   "property": "C43",
   "status": "partial",
   "theorems": [
    "C43_add",
    "C43_add_empty_category",
    "C43_clear_list",
    "C43_clear_one",
    "C43_clear_width",
    "C43_clear_width_refuted",
    "C43_clear_outside",
    "C43_clear_outside_derived_refuted",
    "C43_clear_orphan_refuted",
    "C43_set",
    "C43_set_derived",
    "C43_set_moved_refuted",
    "C43_set_empty_refuted",
    "C43_set_outside",
    "C43_get",
    "C43_list",
    "C43_by_name",
    "C43_by_name_refuted"
   ],
   "note": "Every operation on every catalog. Refuted: the width is forgotten for the other categories, an index outside a derived list only is refused after the change, orthogonal log-sampled templates without log-sampled ones are kept, the replaced last template is moved to the first place, any index is accepted by an empty list, lookup by name dereferences cleared templates. Not modelled: the setting of the corrections and of the continuum removal."
  },
  {
   "property": "C44",
   "status": "partial",
   "theorems": [
    "C44_names",
    "C44_index",
    "C44_refused",
    "C44_vac_to_air",
    "C44_air_to_vac",
    "C44_round_trip",
    "C44_precision_refuted",
    "C44_round_trip_refused_refuted"
   ],
   "note": "Exact rationals, the five converters with their constants, wavelength lists of any length. Proved: names, published index, refusals, order, inversion to 1.1e-7 relative and round trip to 1.2e-7. Refuted: the precision 1e-9 (the iteration compares a signed difference and always stops after one step, without a warning, more than 5e-5 Angstrom off); conversion back of the shortest wavelengths."
  },
  {
   "property": "C45",
   "status": "proved",
   "theorems": [
    "C45_add",
    "C45_add_from_parameters",
    "C45_profile_names",
    "C45_type_strings",
    "C45_force_strings",
    "C45_type_round_trip_refuted",
    "C45_type_round_trip",
    "C45_filter",
    "C45_filter_by_strings",
    "C45_groups",
    "C45_group_names",
    "C45_ungrouped_line_is_alone",
    "C45_ungrouped_line_is_alone_refuted",
    "C45_set_amplitude",
    "C45_igm_profiles",
    "C45_asymmetric_profiles",
    "C45_ratio_catalog",
    "C45_velocities",
    "C45_detected_add",
    "C45_detected_sort"
   ],
   "note": "Exact rationals; iteration order of the group map not modelled. Refuted: the type string of 'All' is read back as Absorption; two ungrouped lines with equal string ids share a group."
  },
  {
   "property": "C46",
   "status": "proved",
   "theorems": [
    "C46_set_then_get",
    "C46_value_after_set",
    "C46_get_describes_value",
    "C46_normalised_variable",
    "C46_gradient_plain",
    "C46_gradient_normalised",
    "C46_from_list"
   ],
   "note": ""
  },
  {
   "property": "C47",
   "status": "proved",
   "theorems": [
    "C47_messages_never_interleave",
    "C47_no_deadlock",
    "C47_destruction_during_a_message_refuted"
   ],
   "note": "Interleaving semantics of the mutex-protected section; handler destruction during a message refuted."
  },
  {
   "property": "C48",
   "status": "proved",
   "theorems": [
    "C48_clamp"
   ],
   "note": "Exact rationals."
  },
  {
   "property": "C49",
   "status": "proved",
   "theorems": [
    "C49_constant_prior",
    "C49_strong_line_presence_prior",
    "C49_number_of_lines_prior",
    "C49_combined_prior_is_the_product",
    "C49_combined_sizes_checked",
    "C49_halpha_prior",
    "C49_halpha_coefficient_checked"
   ],
   "note": "Real numbers; the number-of-Halpha prior without normalisation."
  },
  {
   "property": "C50",
   "status": "proved",
   "theorems": [
    "C50_best_probability"
   ],
   "note": "Real numbers."
  },
  {
   "property": "C51",
   "status": "proved",
   "theorems": [
    "C51_validity_of_a_density",
    "C51_integral_of_a_candidate"
   ],
   "note": "Real numbers, no NaN."
  },
  {
   "property": "C52",
   "status": "partial",
   "theorems": [
    "C52_least_squares",
    "C52_no_fit",
    "C52_chi2_is_nonnegative",
    "C52_nothing_found",
    "C52_best_catalog_partial",
    "C52_corrected_amplitudes_refuted",
    "C52_exact_match_wins_refuted"
   ],
   "note": "Least squares and selection proved for every input. Refuted: with a usable line the function writes out of bounds of the vector it just cleared; a catalog matching exactly (value 0) is never chosen."
  },
  {
   "property": "C53",
   "status": "partial",
   "theorems": [
    "C53_gaussian_shape",
    "C53_gaussian_derivative_centre",
    "C53_gaussian_derivative_width",
    "C53_gaussian_flux",
    "C53_lorentzian_shape",
    "C53_lorentzian_flux",
    "C53_lorentzian_has_no_derivative",
    "C53_support",
    "C53_asymmetric_value",
    "C53_asymmetric_range",
    "C53_asymmetric_without_asymmetry",
    "C53_asymmetric_mirror",
    "C53_asymmetric_mirror_mode_refuted",
    "C53_asymmetric_flux",
    "C53_asymmetric_mean",
    "C53_asymmetric_derivative_width",
    "C53_asymmetric_derivative_centre_partial",
    "C53_asymmetric_derivative_centre_refuted",
    "C53_asymmetric_invalid",
    "C53_asymmetric_nan_shift_refuted",
    "C53_conversions"
   ],
   "note": "Reals, no rounding. Refuted: the derivative of the asymmetric profile with respect to the centre misses a factor 2 in the asymmetry term, wrong at every wavelength as soon as there is an asymmetry; centering on the mode is not mirrored for negative asymmetries; a NaN shift is not refused. Everything else proved."
  },
  {
   "property": "C54",
   "status": "partial",
   "theorems": [
    "C54_first",
    "C54_other_lsf",
    "C54_other_lsf_forgotten_refuted",
    "C54_nothing_to_do",
    "C54_log_sampled_changed",
    "C54_log_sampled_first_changed",
    "C54_log_sampled_hole_refuted",
    "C54_other_category_refuted",
    "C54_stale_log_sampled_refuted"
   ],
   "note": "The orthogonalization of one template is abstract. Proved: first time, another LSF, log-sampled list cleared, first templates missing, nothing to do. Refuted: a missing template after a present one is never recomputed; the width is shared by the categories so another category is kept with the old LSF; after a change of LSF the width is forgotten, so everything is computed again; log-sampled ones kept when the others are missing."
  },
  {
   "property": "C55",
   "status": "partial",
   "theorems": [
    "C55_first",
    "C55_again",
    "C55_added_since_refuted",
    "C55_cleared_refuted"
   ],
   "note": "Abstract rebinning and test. Refuted: templates added after the first rebinning are never rebinned; a cleared template is dereferenced."
  },
  {
   "property": "C56",
   "status": "partial",
   "theorems": [
    "C56_decomposition",
    "C56_up_to_date_partial",
    "C56_new_wavelengths_refuted",
    "C56_new_errors_refuted",
    "C56_unknown_method",
    "C56_refused_remover",
    "C56_odd_reflection_refuted",
    "C56_sizes",
    "C56_own_component_refuted",
    "C56_own_manual_refuted",
    "C56_manual",
    "C56_manual_rejected_refuted",
    "C56_manual_after_new_flux_refuted",
    "C56_amplitude",
    "C56_amplitude_manual_refuted",
    "C56_correction_partial",
    "C56_correction_refuted",
    "C56_rebin_present",
    "C56_fine_grid_partial",
    "C56_fine_grid_kept",
    "C56_fine_grid_used",
    "C56_fine_grid_invert_refuted",
    "C56_fine_grid_wavelengths_refuted",
    "C56_fine_grid_convert_refuted",
    "C56_copy",
    "C56_copy_valid",
    "C56_masked_copy",
    "C56_masked_manual_refuted",
    "C56_assignment_identity_refuted",
    "C56_component_errors",
    "C56_extract"
   ],
   "note": "Decomposition and sizes hold for every history (sizes: without references to the spectrum's own data). Exact rationals. Refuted: SetSpectralAxis and SetErrorAxis keep the old continuum; with odd reflections and a type other than raw the estimation recurses for ever; SetFluxAxis with the spectrum's own component empties its flux; a rejected manual continuum replaces the method; a manual continuum is lost by a new flux, a masked copy, and not scaled by an amplitude before it is read; correctSpectrum on a component announces a correction and drops it; the fine grid is stale after InvertFlux, SetSpectralAxis and a change of interpolation; assignments forget the observation identifier and the photometry."
  },
  {
   "property": "C57",
   "status": "partial",
   "theorems": [
    "C57_coefficient",
    "C57_outside",
    "C57_attenuation",
    "C57_index_too_large",
    "C57_index_negative_refuted",
    "C57_ebmv_roundtrip",
    "C57_ebmv_nearest",
    "C57_regular",
    "C57_one_sample_refuted",
    "C57_decreasing_refuted",
    "C57_sizes_refuted"
   ],
   "note": "Exact rationals. Refuted: a negative index reads before the beginning of the table; a table of one sample or none is undefined behaviour; a table of decreasing wavelengths is accepted and always gives 1; fewer corrections than wavelengths are accepted, then read beyond the end."
  },
  {
   "property": "C58",
   "status": "partial",
   "theorems": [
    "C58_constant_width",
    "C58_constant_resolution",
    "C58_variable_width",
    "C58_width_positive",
    "C58_clip",
    "C58_interpolated",
    "C58_outside",
    "C58_available",
    "C58_unsorted_refuted",
    "C58_resolution",
    "C58_kernel",
    "C58_factory",
    "C58_factory_arguments_refuted",
    "C58_nisp",
    "C58_profile_value"
   ],
   "note": "Exact rationals; square root and profile abstract. Refuted: a table of unsorted wavelengths is accepted although no width can then be read; the factory dereferences null when the arguments are those of another class."
  },
  {
   "property": "C59",
   "status": "partial",
   "theorems": [
    "C59_redshift_index",
    "C59_single_boundary_refuted",
    "C59_wave_index",
    "C59_above_lyman_alpha",
    "C59_below_first_bin",
    "C59_undefined_index",
    "C59_convolution",
    "C59_library_lsf",
    "C59_value",
    "C59_constant_curve",
    "C59_transmission",
    "C59_second_convolution_ignored",
    "C59_last_lsf_refuted",
    "C59_boundaries_refuted",
    "C59_wave_and_correction",
    "C59_derivative"
   ],
   "note": "Exact rationals; the LSF is any pair of a width and a normalised kernel (the library's are, C59_library_lsf). Refuted: a second convolution (another observation with its own LSF) leaves the first curves in use; a single redshift boundary silently disables the extinction; one boundary too few reads beyond the end; the derivative on a grid of one node is 0/0."
  },
  {
   "property": "C60",
   "status": "partial",
   "theorems": [
    "C60_flux",
    "C60_disable",
    "C60_dust_returns",
    "C60_igm_returns",
    "C60_init_range",
    "C60_reversed_indices_refuted",
    "C60_bad_dust_index_refuted",
    "C60_bad_igm_index_refuted",
    "C60_not_convolved_refuted",
    "C60_missing_curve_refuted",
    "C60_new_wavelengths_refuted",
    "C60_refused_flux_refuted",
    "C60_new_flux",
    "C60_base_amplitude_refuted",
    "C60_masked_dust",
    "C60_masked_igm_refuted",
    "C60_masked_gap_refuted",
    "C60_index_lists"
   ],
   "note": "Exact rationals; tables as in C57 and C59. Refuted: a first index beyond the last is not refused (undefined behaviour with igm); a dust index outside the table is refused once and then reported as applied; an igm index outside the table, or a table not convolved, is undefined behaviour; a redshift without curve throws after the indices were reset, so that asking for no dust leaves the extincted flux; new wavelengths (accepted or refused) or a refused flux leave the extincted flux for ever; an amplitude applied through the base class is lost on disabling; the igm is never applied to a masked copy; a mask with a hole over the range throws."
  },
  {
   "property": "C61",
   "status": "partial",
   "theorems": [
    "C61_integral",
    "C61_ranges",
    "C61_integral_additive",
    "C61_integral_linear",
    "C61_integral_straight_line",
    "C61_integral_bounds",
    "C61_integral_weights",
    "C61_error_bound",
    "C61_error_refuted",
    "C61_refused",
    "C61_outside_refuted",
    "C61_mean",
    "C61_mean_between",
    "C61_equal_errors",
    "C61_mask_size",
    "C61_unselected_sample_refuted",
    "C61_mean_in_range",
    "C61_mean_outside",
    "C61_empty_range_refuted",
    "C61_difference"
   ],
   "note": "Exact rationals; square roots taken as squares. Refuted: the returned error leaves out the correlation of the two halves of each inner sample, so that the variance is too small; indices outside the axis are undefined behaviour; an unselected sample with a null error makes the mean NaN; an empty range reports success with NaN."
  },
  {
   "property": "C62",
   "status": "partial",
   "theorems": [
    "C62_accepted",
    "C62_error_codes",
    "C62_corrected",
    "C62_correction_fails",
    "C62_refused",
    "C62_last_sample_refuted",
    "C62_short_noise_refuted"
   ],
   "note": "Raw flux type and sorted-axis cache as in C17. Refuted: the sample at the upper bound of the range is never looked at (a NaN flux or null noise there is accepted); a noise axis of another size is read out of bounds."
  },
  {
   "property": "C63",
   "status": "partial",
   "theorems": [
    "C63_value",
    "C63_bounds",
    "C63_deriv_sigma",
    "C63_deriv_x0",
    "C63_flux_above_lya",
    "C63_flux_refuted",
    "C63_flux_constant_refuted",
    "C63_no_igm",
    "C63_count_refuted",
    "C63_parameters"
   ],
   "note": "Over the reals, transmission abstract. Refuted: the flux of a line below Lyman alpha integrates in the rest frame (no factor 1+z) and counts the transmission twice; the number of igm indices dereferences a null correction."
  },
  {
   "property": "C64",
   "status": "partial",
   "theorems": [
    "C64_tables",
    "C64_best_of_grid",
    "C64_exact_data",
    "C64_reused_template",
    "C64_snr",
    "C64_blue_only_refuted",
    "C64_igm_not_in_range_refuted",
    "C64_prior_without_dust_refuted",
    "C64_no_dust_values_refuted"
   ],
   "note": "Exact rationals, square root abstract, from the rebinned templates on. Proved when the last fitted sample is above Lyman alpha. Refuted: when all samples are at or below it the sums are counted twice from the second igm index on; igm fitting without dust fails at every redshift where no range begins below Lyman alpha; priors without dust fitting, or an empty list of dust indices, are undefined behaviour."
  },
  {
   "property": "C65",
   "status": "proved",
   "theorems": [
    "C65_index_range",
    "C65_prepare_total",
    "C65_line_support",
    "C65_window_outside",
    "C65_window_inside",
    "C65_all_outside",
    "C65_supports_disjoint",
    "C65_groups",
    "C65_activity_symmetric",
    "C65_same_samples",
    "C65_supports_in_axis",
    "C65_shared_sample_refuted",
    "C65_coarse_sampling_refuted",
    "C65_range_wider_than_axis_refuted",
    "C65_absorbed_rows_refuted"
   ],
   "note": "Line width, LSF availability abstract. Refuted beside it: supports sharing a single sample stay unmerged; on a sampling coarser than the window, or with a range wider than the spectrum, a line outside the range is used; the activity between two lines merged into others may be missing."
  },
  {
   "property": "C66",
   "status": "proved",
   "theorems": [
    "C66_lines_added",
    "C66_init",
    "C66_refresh",
    "C66_model_unique",
    "C66_refresh_under",
    "C66_refresh_local",
    "C66_model_at_lambda",
    "C66_model_throws",
    "C66_deriv_amplitude",
    "C66_deriv_continuum",
    "C66_mean_position",
    "C66_element_amplitude",
    "C66_center_continuum",
    "C66_lsf_border_refuted",
    "C66_deriv_other_groups_refuted",
    "C66_deriv_negative_refuted",
    "C66_refresh_other_element_refuted",
    "C66_center_out_refuted"
   ],
   "note": "Profile, width and LSF availability are abstract functions. Refuted beside it: a line accepted at the shifted centre makes the model throw; the amplitude derivative counts lines of other groups; a negative absorption line is in the continuum derivative though not in the model; refreshing under an element erases the lines of overlapping elements; a line out of the spectrum reads the continuum of the last sample."
  },
  {
   "property": "C67",
   "status": "proved",
   "theorems": [
    "C67_views",
    "C67_fit",
    "C67_merit",
    "C67_unshared",
    "C67_forgets",
    "C67_outside",
    "C67_set_offsets",
    "C67_joint",
    "C67_first_best",
    "C67_no_offset",
    "C67_shared_refuted",
    "C67_last_offset_refuted",
    "C67_offset_left_refuted"
   ],
   "note": "Null errors are outside of the model. Supposes that no sample is shared by two unmerged supports (C65 shows when). Refuted beside it: with a shared sample the amplitude is not the best; the offset +400 is never tried; an impossible fit leaves the offset at 375 km/s."
  },
  {
   "property": "C68",
   "status": "proved",
   "theorems": [
    "C68_valid",
    "C68_disable",
    "C68_overlap",
    "C68_hybrid",
    "C68_velocity_groups",
    "C68_fitting_groups",
    "C68_support",
    "C68_amplitude_offset",
    "C68_nonzero",
    "C68_strong_line",
    "C68_ha_strongest",
    "C68_marginalisation",
    "C68_amplitude",
    "C68_find",
    "C68_dof",
    "C68_load",
    "C68_velocity_duplicates_refuted",
    "C68_disabled_fitted_refuted",
    "C68_chain_refuted",
    "C68_asymmetric_refuted",
    "C68_no_element_refuted",
    "C68_ha_tie_refuted"
   ],
   "note": "The fits inside the groups are C67. Refuted beside it: duplicates in a velocity group; a disabled element is fitted with an overlapping one; overlapping elements may be fitted separately; the overlap is not symmetric; an empty list of elements means all in the amplitude offset; a tie for H alpha is decided by the order."
  },
  {
   "property": "C69",
   "status": "proved",
   "theorems": [
    "C69_solver_exists",
    "C69_throws",
    "C69_joint",
    "C69_few_samples",
    "C69_positive",
    "C69_no_memory",
    "C69_offsets",
    "C69_no_offset",
    "C69_merit",
    "C69_balmer",
    "C69_not_best_refuted",
    "C69_counted_twice_refuted",
    "C69_few_samples_refuted",
    "C69_perfect_refuted",
    "C69_continuum_refuted",
    "C69_balmer_negative_refuted",
    "C69_balmer_restore_refuted"
   ],
   "note": "One observation. The fit of one element alone is C67. Refuted beside it: the positive fit is not the best non negative one; overlapping lines are counted twice after two negative solutions; with few samples nothing is fitted; a perfect fit is never the chosen offset; the continuum is subtracted twice in the residual of the offsets; Balmer lines may keep a negative amplitude; a rejected Balmer fit does not put back elements with several lines."
  },
  {
   "property": "C70",
   "status": "proved",
   "theorems": [
    "C70_refresh",
    "C70_refresh_under",
    "C70_get_model",
    "C70_get_model_all_samples",
    "C70_component",
    "C70_init",
    "C70_template",
    "C70_template_ignores",
    "C70_nothing_under_lines",
    "C70_weight",
    "C70_removed",
    "C70_removed_perfect",
    "C70_removed_all_refuted",
    "C70_removed_model_refuted",
    "C70_residual",
    "C70_weighted_sum",
    "C70_mean",
    "C70_deviation",
    "C70_continuum_under",
    "C70_direct",
    "C70_direct_plain",
    "C70_direct_error",
    "C70_direct_throws",
    "C70_absorption_refuted",
    "C70_flux_snr",
    "C70_snr",
    "C70_get_model_sum_refuted",
    "C70_refresh_under_same_refuted",
    "C70_refresh_under_others_refuted",
    "C70_direct_window_refuted",
    "C70_doublet_refuted"
   ],
   "note": "One spectrum for each model. The profile of an element is C65/C66, the ranges of the direct integration are given. Refuted beside it: with all lines removed the blend is with the full model, so up to nine tenths of a line remain and the uncertainty of the continuum counts the line; removal leaves a model with one type of lines; overlapping elements erase each other in the model of some elements; the absorption is never subtracted for emission elements, and samples outside the windows lose no continuum; refreshing under elements loses the offsets; a doublet is reported for its first line alone."
  },
  {
   "property": "C71",
   "status": "proved",
   "theorems": [
    "C71_compute",
    "C71_sound",
    "C71_groups",
    "C71_complete",
    "C71_unique",
    "C71_over_number",
    "C71_best",
    "C71_best_number",
    "C71_rounded",
    "C71_extended",
    "C71_by_index",
    "C71_filter",
    "C71_pairwise_refuted",
    "C71_rest_once_refuted",
    "C71_nearest_refuted",
    "C71_one_rest_refuted",
    "C71_negative_number_refuted",
    "C71_by_index_refuted",
    "C71_extended_refuted"
   ],
   "note": "Positions in Q, the catalog lines by position, name, type and strength. Refuted beside it: two redshifts of a solution may differ by more than the tolerance; a line of the catalog can be used twice; the partner is the first, not the nearest; with one line in the catalog nothing is grouped; a negative number selects nothing; the mean by index of an empty list reads outside; the extended candidates miss the upper end and may be empty."
  },
  {
   "property": "C72",
   "status": "proved",
   "theorems": [
    "C72_fluxes",
    "C72_fluxes_error",
    "C72_height",
    "C72_lines",
    "C72_status",
    "C72_retested",
    "C72_excluded",
    "C72_reduced_index",
    "C72_normal_end",
    "C72_swapped_refuted",
    "C72_once_refuted",
    "C72_exclusion_width_refuted",
    "C72_own_sample_refuted",
    "C72_first_sample_refuted",
    "C72_infinite_refuted",
    "C72_flat_refuted"
   ],
   "note": "The Gaussian fit is a parameter (any answer); rationals without rounding, with the IEEE values of a division by zero. Not modelled: the unused LimitGaussianFitStartAndStop, logs. Refuted beside it: a retested line has its amplitude and width exchanged; a peak near two strong lines is added twice; the part excluded depends on the ratio, not on the width; the last sample of a retested peak can be excluded; an excluded first sample shifts the indices and throws; an infinite ratio is converted to an integer; a flat peak without noise is detected whatever the cut."
  },
  {
   "property": "C73",
   "status": "proved",
   "theorems": [
    "C73_code",
    "C73_zero",
    "C73_filter",
    "C73_mean",
    "C73_inside_refuted",
    "C73_never_refuted",
    "C73_outside_refuted"
   ],
   "note": "Codes and filter proved for the test of the range as compiled. The last sentence is refuted: [begin + winsize ? m_winsize : 0] is parsed as a conditional on the sum, so a line is inside iff its position equals the window size, and with a window shorter than the rest positions the filter never removes a solution. Also refuted: rule 1 compares with strong lines outside of the range."
  },
  {
   "property": "C74",
   "status": "proved",
   "theorems": [
    "C74_single",
    "C74_first",
    "C74_exhausts",
    "C74_best",
    "C74_failure",
    "C74_ranges",
    "C74_limit_refuted",
    "C74_end_refuted",
    "C74_cut_refuted"
   ],
   "note": "All but the last sentence, for the loop with exact decimal constants; the detection and the matching are arbitrary functions (C71-C73 model them). Refuted: every path of the loop ends with continue, so the limit of 100 turns and its warning are never reached, and the dynamic search runs forever when nothing matches; the cut goes below its minimum, even below 0."
  },
  {
   "property": "C75",
   "status": "proved",
   "theorems": [
    "C75_tables",
    "C75_loads",
    "C75_densities",
    "C75_available",
    "C75_errors",
    "C75_checked",
    "C75_one",
    "C75_last_refuted",
    "C75_low_refuted",
    "C75_short_refuted",
    "C75_null_refuted",
    "C75_failed_refuted",
    "C75_name_refuted"
   ],
   "note": "The first four sentences, on files given as tokens, rational values and real logarithms. The last one is refuted: from redshift 6 the index is one past the table (undefined behaviour); with the check, redshifts between -0.25 and 0 are accepted; a table with missing lines is read out of bounds; the minimal value is 0, which makes every request in that bin an error; after a failed loading the request of one value reads an empty list; the templates are registered under the full names of their files, so a template is unknown under its own name."
  },
  {
   "property": "C76",
   "status": "proved",
   "theorems": [
    "C76_band",
    "C76_empty_band_refuted",
    "C76_integral",
    "C76_flat",
    "C76_linear",
    "C76_bounds",
    "C76_catalog",
    "C76_data",
    "C76_sorted_names",
    "C76_operator",
    "C76_operator_errors",
    "C76_sums",
    "C76_sums_returns",
    "C76_joint_fit",
    "C76_null_error",
    "C76_igm_bands",
    "C76_unreached",
    "C76_fast_first",
    "C76_fast_next",
    "C76_all_bands_reached_refuted",
    "C76_model_photometry",
    "C76_constant",
    "C76_constant_returns",
    "C76_phot_constant_refuted"
   ],
   "note": "All but two clauses, for the rebinned templates given (the rebinning is not modelled) and exact arithmetic. Refuted: when every band begins below Lyman alpha the shortcut counts each point twice from the second igm index on; the constant of the likelihood with photometry is too large by twice the sum of the logarithms of the errors of the points. An empty band is undefined behaviour."
  },
  {
   "property": "C77",
   "status": "partial",
   "theorems": [
    "C77_construct",
    "C77_linear_grid",
    "C77_constructed",
    "C77_parameters_given_back",
    "C77_resampling",
    "C77_nan_neighbours",
    "C77_through_the_samples",
    "C77_no_overshoot",
    "C77_not_interpolable",
    "C77_regular_unchanged",
    "C77_coarse_conversion",
    "C77_fine_conversion_refuted",
    "C77_fine_conversion_partial",
    "C77_different_steps_rejected",
    "C77_no_nan",
    "C77_extension_keeps_the_pdf",
    "C77_no_extension",
    "C77_handler_partial",
    "C77_nan_at_the_border_refuted"
   ],
   "note": "Resampling, coarse conversion, rejection and extension (linear sampling) proved. Refuted: the default (fine) conversion of an irregular PDF reads the second step after the vector was cut to one element (undefined behaviour); what is meant is proved for an implementation that returns the old value. Refuted: a coarse grid that stops short of the end of its range gives NaN at the right border after the fine conversion."
  },
  {
   "property": "C78",
   "status": "partial",
   "theorems": [
    "C78_init",
    "C78_init_priors",
    "C78_store",
    "C78_ratio_sizes",
    "C78_grid_update",
    "C78_first_pass",
    "C78_two_passes",
    "C78_no_candidate",
    "C78_getters",
    "C78_getters_past_the_end",
    "C78_continuum_merits_kept_refuted",
    "C78_continuum_merits_lost",
    "C78_overlapping_windows_refuted",
    "C78_reinit_refuted"
   ],
   "note": "Init, store, insertion, first pass, both passes, getters and size errors proved. Refuted: windows that overlap make the second pass fail; the merits of the continuum templates are not kept from the first pass as the comment says but are DBL_MAX in the windows (proved); Init again without template ratios leaves the previous H-alpha flags, whose reading is then past the end of a vector."
  },
  {
   "property": "C79",
   "status": "proved",
   "theorems": [
    "C79_lines_above_cut",
    "C79_strong_lines",
    "C79_halpha_strongest",
    "C79_extreme_merits",
    "C79_redshift_prior",
    "C79_array",
    "C79_positions",
    "C79_prior_total",
    "C79_best_chi2",
    "C79_bad_combination",
    "C79_flat_merits",
    "C79_second_pass_flat"
   ],
   "note": "Merits are rationals or NaN (no infinite merit). zstep, zgridParams and parentCandidates are copied and not modelled; the prior on the number of lines is disabled in the code (factor -1). Proved consequence: with the continuum merits lost by the second pass (C78), every continuum counts as the best one inside the windows."
  },
  {
   "property": "C80",
   "status": "proved",
   "theorems": [
    "C80_fft_correlation_exact",
    "C80_fft_calls_exact",
    "C80_fft_slot_keeps_first",
    "C80_fft_slot_reuse_refuted",
    "C80_running_sum_refuted",
    "C80_running_sum_value"
   ],
   "note": "Real arithmetic. FFTW is modelled by its documented r2c/c2r transforms, not its code. Refuted parts: a slot reused with another vector without re-initialisation answers for the first one; EstimateMtMFast (unused in the library) is off by one sample."
  },
  {
   "property": "C81",
   "status": "proved",
   "theorems": [
    "C81_range_fit",
    "C81_template_indices",
    "C81_template_indices_nearest",
    "C81_full_grid",
    "C81_full_grid_total",
    "C81_least_squares_optimal",
    "C81_merit_below_null",
    "C81_prior_amplitude_optimal",
    "C81_prior_after_choice_refuted",
    "C81_same_as_direct_refuted"
   ],
   "note": "Real arithmetic, one spectrum; the corrected template is a function argument (C57, C59, C60). Ranges: C82. Refuted parts: choice of the indices before the prior; priors not used as in the direct method."
  },
  {
   "property": "C82",
   "status": "proved",
   "theorems": [
    "C82_every_redshift_once",
    "C82_without_igm",
    "C82_ranges_not_empty",
    "C82_no_change_inside",
    "C82_split_only_at_changes",
    "C82_one_side",
    "C82_same_table",
    "C82_boundary_redshift_refuted",
    "C82_empty_range_refuted",
    "C82_fit_of_empty_range_refuted"
   ],
   "note": "Exact rationals. Refuted parts: redshift on a bin boundary; empty range when two boundaries fall in one grid cell, undefined behaviour of the fit on it."
  },
  {
   "property": "C83",
   "status": "proved",
   "theorems": [
    "C83_probabilities",
    "C83_evidences",
    "C83_no_evidence",
    "C83_order_free",
    "C83_shift_free",
    "C83_NaN_refuted"
   ],
   "note": "Real arithmetic with special values; underflow of exp not modelled. Refuted part: NaN evidence."
  },
  {
   "property": "C84",
   "status": "proved",
   "theorems": [
    "C84_solver_exists",
    "C84_fit",
    "C84_amplitudes",
    "C84_amplitudes_refuted",
    "C84_covariance_refuted",
    "C84_common_wavelengths_refuted",
    "C84_succeeds",
    "C84_needs",
    "C84_one_template_refuted",
    "C84_model",
    "C84_model_wavelengths_refuted",
    "C84_redshifts",
    "C84_clamped_range",
    "C84_component",
    "C84_components_refuted",
    "C84_templates"
   ],
   "note": "Exact rationals; GSL's fit by its contract (a minimum, its sum of squares, inverse normal matrix), shown inhabited. Refuted parts: amplitudes and covariance of the last fit, covariance scale, disjoint templates, single template, wavelengths of the model, dust of the continuum component."
  },
  {
   "property": "C85",
   "status": "proved",
   "theorems": [
    "C85_method",
    "C85_succeeds",
    "C85_components",
    "C85_components_refuted",
    "C85_failure_refuted",
    "C85_off_grid_refuted",
    "C85_no_merit_refuted",
    "C85_constants",
    "C85_constants_refuted"
   ],
   "note": "The operators, the pdf and the model spectrum are parameters (C64, C76, C81, C35, C49). Refuted parts: noContinuum refused, state after a failure, candidate off the grid or without merit, constant -1."
  },
  {
   "property": "C86",
   "status": "proved",
   "theorems": [
    "C86_least_merit",
    "C86_pairs",
    "C86_no_finite_merit",
    "C86_table",
    "C86_best_restored",
    "C86_rules_last",
    "C86_chi_square",
    "C86_last_sample_refuted",
    "C86_prior_ignored_refuted",
    "C86_prior_mixed_refuted",
    "C86_rules_mixed_refuted",
    "C86_svdlc_mixed_refuted",
    "C86_limit_refuted",
    "C86_stale_refuted"
   ],
   "note": "tplCorr is not modelled. The fitters, rules and model spectra are parameters (C66-C70). The refuted parts have their own theorems."
  },
  {
   "property": "C87",
   "status": "proved",
   "theorems": [
    "C87_set",
    "C87_set_off_grid",
    "C87_set_forgets",
    "C87_combine",
    "C87_combine_fails",
    "C87_combine_covers",
    "C87_combine_twice",
    "C87_close_candidates_refuted",
    "C87_other_continuum_refuted",
    "C87_report",
    "C87_report_agrees",
    "C87_report_velocity_refuted",
    "C87_window_linear",
    "C87_windows",
    "C87_window_log"
   ],
   "note": "linear windows over exact rationals, logarithmic ones over the reals; the rebuilt grid is proved for linear sampling only. The refuted parts have their own theorems."
  },
  {
   "property": "C88",
   "status": "partial",
   "theorems": [
    "C88_velocities",
    "C88_largest_tested_refuted",
    "C88_nothing_tested",
    "C88_no_step_refuted",
    "C88_redshifts",
    "C88_pairs",
    "C88_two_scans",
    "C88_second_scan_improves",
    "C88_all_candidates",
    "C88_on_grid",
    "C88_without_fit",
    "C88_candidate_off_grid",
    "C88_window_off_grid",
    "C88_windows",
    "C88_no_candidate",
    "C88_window_point_off_grid",
    "C88_best_pair_refuted",
    "C88_independent_candidates_refuted",
    "C88_chi_square_of_the_candidate_refuted",
    "C88_velocities_restored_refuted"
   ],
   "note": "the theorems on several candidates assume that the fitter of the user leaves the velocities alone (all but lbfgsb); velocity groups are a constant-false branch and are left out. The refuted parts have their own theorems."
  },
  {
   "property": "C89",
   "status": "partial",
   "theorems": [
    "C89_fft",
    "C89_operator_history",
    "C89_first_pass",
    "C89_first_pass_without_templates",
    "C89_fit_and_decision",
    "C89_too_few_templates",
    "C89_snr",
    "C89_refit",
    "C89_refit_out_of_range",
    "C89_refit_below_grid",
    "C89_second_pass",
    "C89_second_pass_unknown",
    "C89_negative_continuum_second_pass_refuted",
    "C89_empty_redshifts_refuted",
    "C89_no_template_refuted"
   ],
   "note": "the significances are numbers (a NaN amplitude, given by an operator without data, is not covered). The refuted parts have their own theorems."
  },
  {
   "property": "C90",
   "status": "partial",
   "theorems": [
    "C90_registered",
    "C90_set",
    "C90_catalogue_missing",
    "C90_catalogue_lookup",
    "C90_no_line",
    "C90_set_keeps",
    "C90_first_pass",
    "C90_second_pass",
    "C90_third_pass",
    "C90_conversion",
    "C90_support",
    "C90_reset",
    "C90_grid",
    "C90_null_step",
    "C90_fit",
    "C90_fit_no_line",
    "C90_history",
    "C90_visit_state",
    "C90_visits",
    "C90_only_first_asymmetric_line_refuted",
    "C90_symmetric_catalogue_sticks_refuted",
    "C90_grid_inside_limits_refuted",
    "C90_fitted_inside_limits_refuted"
   ],
   "note": "the amplitudes and residuals are functions of the profiles only (they do not depend on the amplitudes left by previous fits). The refuted parts have their own theorems."
  },
  {
   "property": "C91",
   "status": "partial",
   "theorems": [
    "C91_elements",
    "C91_find",
    "C91_groups",
    "C91_two_elements",
    "C91_one_line",
    "C91_solution",
    "C91_solution_throws",
    "C91_solution_no_element",
    "C91_flux_signs",
    "C91_direct_error",
    "C91_round_trip",
    "C91_load_profiles",
    "C91_reread",
    "C91_quotient",
    "C91_complex_names",
    "C91_group_of_one_type_refuted",
    "C91_ungrouped_line_alone_refuted",
    "C91_velocities_reread_refuted",
    "C91_polynomial_restored_refuted",
    "C91_null_flux_error_refuted",
    "C91_complex_of_all_lines_refuted"
   ],
   "note": "rounding is not modelled; the supports recomputed at the end of a load are not. The refuted parts have their own theorems."
  },
  {
   "property": "C92",
   "status": "partial",
   "theorems": [
    "C92_mask",
    "C92_std",
    "C92_std_argument",
    "C92_continuum_merit",
    "C92_dtd",
    "C92_mtm",
    "C92_samples",
    "C92_fast_merit_partial",
    "C92_fast_merit_other",
    "C92_likelihood",
    "C92_likelihood_throws",
    "C92_one_sample_more",
    "C92_cache_fresh",
    "C92_cache_forced",
    "C92_cache_component",
    "C92_merge",
    "C92_merge_sorted",
    "C92_merge_apart",
    "C92_lines_counted",
    "C92_range_snr",
    "C92_snr",
    "C92_ratio",
    "C92_snr_no_line",
    "C92_snr_no_strong_line",
    "C92_fast_merit_refuted",
    "C92_samples_in_range_refuted",
    "C92_samples_reversed_refuted",
    "C92_cache_refuted",
    "C92_merge_chain_refuted",
    "C92_merge_touching_refuted",
    "C92_snr_one_sample_refuted"
   ],
   "note": "rounding is not modelled; the quick merit needs sums over the same samples, which the template fit does not use. The refuted parts have their own theorems."
  },
  {
   "property": "C93",
   "status": "partial",
   "theorems": [
    "C93_linear_grid",
    "C93_linear_line_model",
    "C93_linear_measurement",
    "C93_sampling_rebinned",
    "C93_sampling_plain",
    "C93_fft",
    "C93_null_model",
    "C93_not_null",
    "C93_second_pass_enabled",
    "C93_second_pass_disabled",
    "C93_second_pass_useless",
    "C93_log_grid",
    "C93_log_line_model",
    "C93_log_measurement",
    "C93_second_pass_refuted",
    "C93_null_model_refuted",
    "C93_coarse_refuted",
    "C93_measurement_negative_refuted"
   ],
   "note": "rounding of the steps is not modelled. The refuted parts have their own theorems."
  },
  {
   "property": "C94",
   "status": "partial",
   "theorems": [
    "C94_parameters",
    "C94_unpacked",
    "C94_result",
    "C94_no_undefined_behaviour",
    "C94_too_few_samples",
    "C94_velocities",
    "C94_offsets",
    "C94_amplitudes",
    "C94_errors",
    "C94_polynomial",
    "C94_low_snr",
    "C94_library_failure",
    "C94_objective",
    "C94_history_free",
    "C94_guess_defined",
    "C94_irregular",
    "C94_absorption_scale",
    "C94_polynomial_units",
    "C94_polynomial_centred",
    "C94_irregular_refuted",
    "C94_order_refuted",
    "C94_errors_refuted",
    "C94_history_refuted",
    "C94_offset_flag_refuted",
    "C94_velocity_ill_refuted",
    "C94_absorption_bound_refuted"
   ],
   "note": "rounding is not modelled; LBFGSpp is any strategy of evaluations (the finite differences of the gradient are evaluations; ComputeLeastSquareAndGrad is never called and is not modelled). The refuted parts have their own theorems."
  },
  {
   "property": "C95",
   "status": "partial",
   "theorems": [
    "C95_scope_restored",
    "C95_session_scope",
    "C95_interruption",
    "C95_calls",
    "C95_errors_of_calls",
    "C95_errors_without_call",
    "C95_root_errors",
    "C95_init_errors",
    "C95_classification_refuted",
    "C95_silent_skip_refuted",
    "C95_load_stage_init_refuted",
    "C95_load_stage_refuted",
    "C95_reserved_name_refuted"
   ],
   "note": "calibration, reader, solvers, store and pandas are arbitrary outcomes; the message, line and file of an error are not modelled. The refuted parts have their own theorems."
  },
  {
   "property": "C96",
   "status": "partial",
   "theorems": [
    "C96_coherent",
    "C96_mono",
    "C96_full",
    "C96_merge",
    "C96_merge_accepts",
    "C96_filter",
    "C96_keys",
    "C96_conversion",
    "C96_range_warning",
    "C96_accepted",
    "C96_empty_spectrum_refuted",
    "C96_range_warning_refuted",
    "C96_checked_keys_refuted",
    "C96_refused_keys_refuted",
    "C96_instructions_refuted",
    "C96_flag_absent_refuted",
    "C96_method_version_2_refuted",
    "C96_method_version_2",
    "C96_method_version_1",
    "C96_ascii_names",
    "C96_ascii_replaced",
    "C96_ascii_observations_refuted",
    "C96_range_min",
    "C96_range_max",
    "C96_column_name_refuted"
   ],
   "note": "wavelengths and fluxes are exact rationals, so the shift of 1e-10 is not lost to rounding as it can be in the code; the line spread function, the photometry and the quality of the samples are outside this model. The refuted parts have their own theorems."
  },
  {
   "property": "C97",
   "status": "partial",
   "theorems": [
    "C97_table",
    "C97_no_merge",
    "C97_tree",
    "C97_v1",
    "C97_v1_sections",
    "C97_v1_sections_distinct",
    "C97_v1_names",
    "C97_v1_all_names",
    "C97_v2",
    "C97_v2_section",
    "C97_v2_from",
    "C97_v1_strings_refuted",
    "C97_v2_linemeas_refuted",
    "C97_v2_linemeas_never",
    "C97_v2_lsf_refuted",
    "C97_v2_all_names_refuted",
    "C97_v2_priors_refuted",
    "C97_v2_asym_refuted",
    "C97_v2_collision_refuted"
   ],
   "note": "the textual replacement is modelled on the strings of the tree (strings with quotation marks are outside); of the schemas only the lists of accepted names of the sections concerned are modelled. The refuted parts have their own theorems."
  },
  {
   "property": "C98",
   "status": "partial",
   "theorems": [
    "C98_written",
    "C98_untouched",
    "C98_reestimation_kept",
    "C98_loglambda_kept",
    "C98_removal_kept",
    "C98_catalog_removal_kept",
    "C98_accepts",
    "C98_client_values_refuted",
    "C98_no_reestimation_refuted"
   ],
   "note": "the shared Python object of the default section is modelled as a copy; names of spectrum models must be strings other than continuumRemoval and templateCatalog. The refuted parts have their own theorems."
  },
  {
   "property": "C99",
   "status": "partial",
   "theorems": [
    "C99_network_used",
    "C99_shape_rejected",
    "C99_classes",
    "C99_reliability",
    "C99_reliability_total",
    "C99_same_grid_refuted",
    "C99_file",
    "C99_version_digits",
    "C99_version_refuted",
    "C99_grid_parameters",
    "C99_grid_parameters_total",
    "C99_short_column_refuted",
    "C99_sub_types",
    "C99_sub_types_total"
   ],
   "note": "real numbers instead of floating point ones; the conversion of the PDF before is C77. The refuted parts have their own theorems."
  }
 ]
}