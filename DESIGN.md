# Formal model of Subaru-PFS/drp_1d (RedshiftLibrary) in Rocq/Coq 8.16

## Layout

For every topic `X` the directory `rocq/theories` holds

* `XModel.v`  – executable Gallina model, one definition per C++ function, each with a comment
  citing file and lines in /repo and naming any simplification;
* `XSpec.v`   – the small independent vocabulary used to state the properties (no model helper);
* `XProofs.v` – the proofs;
* `XProps.v`  – only the property theorems (closed by `exact`), `Print Assumptions` under each, and
  a concrete non-trivial `Example` showing that the hypotheses are satisfiable.

`Base.v` has the outcome type, error codes and the floating point abstraction.

## Modelling conventions

* **Outcome.** `res A := Ok a | Throw code | UB`. `Throw` is a C++ exception of the project
  (`GlobalException` with its `ErrorCode`) or of the standard library (`StdException`).
  `UB` is undefined behaviour: out of range `operator[]`, dereferencing `end()`, `front()` on an
  empty vector, unsigned wrap-around used as an index, non-terminating loops. It is never
  assumed away: theorems either exclude it by a stated precondition or prove it reachable
  (`..._refuted`).
* **Numbers.** `double` is modelled (a) by exact rationals `Q` where the code only adds,
  multiplies, divides and compares; (b) by `f64 = NaN | NInf | Fin q | PInf` where NaN or
  infinities decide a branch; (c) by the real numbers `R` where the code uses `log`/`exp`/`sqrt`.
  Rounding, overflow to infinity of finite arithmetic and signed zero are **not** modelled; a
  theorem about comparison-only code (index lookups, sorting, medians, masks, peak finding, range
  intersection) is exact for IEEE doubles because no rounding happens there; theorems about
  arithmetic code are statements about the ideal arithmetic.
* **Integers.** Indices and sizes are `nat` or `Z`. Where `Int32`/`size_t` wrap-around matters it
  is written in the model explicitly.
* **Objects.** A mutable object is a record; a method is a function returning the new record. A
  history is a list of operations folded over the initial state.
* **Oracles.** GSL, Boost, the file system and Python callers are not modelled; where a modelled
  function calls them the call is a Section variable and its assumption appears as an explicit
  hypothesis in the theorem.

## Trusted base

* Coq 8.16.1 kernel (and `vm_compute`, part of the kernel).
* The reading of the C++ source: no code is executed or extracted; each definition cites its source.
* `Print Assumptions` of each theorem is printed by the build, right after the theorem in its `*Props.v` file. It says "Closed under the
  global context", except for the theorems whose statement or proof uses the real numbers `R` (only files that depend on `Reals`: some of the
  theorems of C07, C08, C17, C31 to C35, C49 to C51, C53, C63, C75, C76, C79 to C83, C85, C87, C91, C93, C99), which rest on standard library axioms only, always among:
  `ClassicalDedekindReals.sig_forall_dec`, `ClassicalDedekindReals.sig_not_dec`,
  `FunctionalExtensionality.functional_extensionality_dep` and `Classical_Prop.classic`.
* FFTW, GSL, Boost and LBFGSpp are not modelled: their calls have the documented result or an arbitrary one (a parameter of the theorem). In
  the Python part (C95 to C99) the results and exceptions of the C++ side, of pandas, h5py and keras are explicit outcomes or arbitrary
  functions; the neural network is an arbitrary function.
* No axiom, parameter, functor or module type is declared in this development.


## Properties: what is modelled and how it is proved

### C01 Intersecting two ranges is set intersection

*Modelled:* RedshiftLibrary/RedshiftLibrary/common/range.h: CRange::Intersect, CRange::HasIntersection

*Proof:* ranges over Q; exact set semantics by case analysis on the bounds (lra).

*Status:* proved — theorems: `C01_intersect_is_set_intersection`. 

### C02 Union of two overlapping ranges is exact

*Modelled:* RedshiftLibrary/RedshiftLibrary/common/range.h: CRange::getUnion

*Proof:* same as C01.

*Status:* proved — theorems: `C02_union_is_set_union`. 

### C03 Joining a list of ranges keeps the coverage and yields disjoint increasing ranges

*Modelled:* RedshiftLibrary/RedshiftLibrary/common/range.h: CRange::joinIntersections

*Proof:* induction on the sorted list with the accumulator invariant 'disjoint, increasing, last range is open for merging'.

*Status:* proved — theorems: `C03_join_keeps_coverage`, `C03_join_empty_rejected`. 

### C04 Closed-interval index lookup is exact

*Modelled:* RedshiftLibrary/RedshiftLibrary/common/range.h: CRange::getClosedIntervalIndices

*Proof:* std::lower_bound / upper_bound modelled as the first index satisfying a predicate; induction on the grid.

*Status:* proved — theorems: `C04_closed_interval_exact`, `C04_closed_interval_duplicates_refuted`. Exact on strictly increasing grids; refuted for grids with repeated samples (C04_closed_interval_duplicates_refuted).

### C05 Enclosing-interval index lookup brackets the range

*Modelled:* RedshiftLibrary/RedshiftLibrary/common/range.h: CRange::getEnclosingIntervalIndices

*Proof:* as C04.

*Status:* proved — theorems: `C05_enclosing_interval_brackets`, `C05_enclosing_value_overload_agrees`, `C05_enclosing_value_outside_throws`, `C05_enclosing_reversed_range_refuted`. Well-formed ranges; a reversed range beyond the grid is UB (refuted theorem).

### C06 Uniform grids spread over a range stay inside it with constant step

*Modelled:* RedshiftLibrary/RedshiftLibrary/common/range.h: CRange::SpreadOver, SpreadOver_backward, SpreadOverEpsilon

*Proof:* trunc(len/delta) via Qfloor; explicit i-th element formula.

*Status:* proved — theorems: `C06_spread_over_uniform`, `C06_spread_over_backward_uniform`, `C06_spread_over_epsilon_forward`, `C06_spread_over_epsilon_backward`, `C06_negative_step_refuted`. Positive steps, Int32 count representable; negative step reaches front() of an empty vector (refuted theorem).

### C07 Logarithmic grids have a constant ratio in (1+z) or wavelength

*Modelled:* RedshiftLibrary/RedshiftLibrary/common/range.h: CRange::SpreadOverLog, SpreadOverLogZplusOne

*Proof:* over R with ln/exp.

*Status:* proved — theorems: `C07_spread_over_log`, `C07_spread_over_log_backward`, `C07_geometric_grids_increase`, `C07_bounds_of_opposite_sign_rejected`. Over the reals (no rounding).

### C08 A centred window grid contains the centre and stays in the window

*Modelled:* RedshiftLibrary/RedshiftLibrary/common/range.h: spanCenteredWindow

*Proof:* composition of C06 lemmas.

*Status:* proved — theorems: `C08_centered_window_log`, `C08_centered_window_linear`. Linear sampling over Q, log sampling over R (no rounding).

### C09 Index lookups return the intended neighbour

*Modelled:* RedshiftLibrary/RedshiftLibrary/common/indexing.h: CIndexing

*Proof:* characterisation of lower_bound on sorted lists.

*Status:* proved — theorems: `C09_getIndex_exact`, `C09_closest_lower_index`, `C09_closest_upper_index`, `C09_closer_index_is_nearest`, `C09_empty_vector_refuted`, `C09_lower_bound_is_binary_search`. Non-empty vectors; the empty vector is UB (refuted theorem).

### C10 The median routine returns an order statistic

*Modelled:* RedshiftLibrary/RedshiftLibrary/common/median.hpp: CMedian::Find, Opt3Find, Opt5Find, Opt7Find, Opt9Find, BeersFind, FastFind

*Proof:* sorting networks: transcribed as straight-line swaps over Q; order statistic proved by case analysis / 0-1 principle; quickselect by loop invariants with termination; Beers by permutation of sort.

*Status:* proved — theorems: `C10_median_value`, `C10_median_splits_sample_in_halves`, `C10_median_order_independent`, `C10_even_midpoint_refuted`, `C10_empty_sample_refuted`, `C10_mean_between_extremes`. 

### C11 Mask intersection and overlap fractions

*Modelled:* RedshiftLibrary/src/lib/common/mask.cpp: CMask

*Proof:* pointwise on lists of bytes.

*Status:* proved — theorems: `C11_intersection_is_samplewise_and`, `C11_overlap_fraction`, `C11_counts`, `C11_plain_overlap_in_unit_refuted`. 

### C12 The warning flag word is exactly the set of warnings raised since the last reset

*Modelled:* RedshiftLibrary/src/lib/common/flag.cpp: CFlagWarning

*Proof:* invariant over histories with testbit/lor lemmas.

*Status:* proved — theorems: `C12_flags_are_warnings_since_reset`, `C12_flag_word_fits`. 

### C13 The scope stack stays well formed under any history

*Modelled:* RedshiftLibrary/src/lib/processflow/scopestack.cpp: CScopeStack

*Proof:* invariant by induction over the operation list; UB outcome for pop on empty.

*Status:* proved — theorems: `C13_history_well_nested`, `C13_reference_history_never_fails`, `C13_push_accepted_iff_allowed`. 

### C14 Scoped (RAII) pushes are balanced

*Modelled:* RedshiftLibrary/RedshiftLibrary/processflow/autoscope.h: CAutoScope; RedshiftLibrary/src/lib/processflow/autoscope.cpp

*Proof:* structural induction over a tree of scopes with a throw outcome.

*Status:* proved — theorems: `C14_guards_balanced`. 

### C15 Results are write-once and isolated per scope and name

*Modelled:* RedshiftLibrary/src/lib/processflow/resultstore.cpp: COperatorResultStore

*Proof:* refinement to a finite map keyed by (scope,name), induction over histories.

*Status:* proved — theorems: `C15_scoped_names_distinct`, `C15_scoped_names_with_dots_refuted`, `C15_lookup_returns_first_store`, `C15_global_store_rejected_iff_taken`, `C15_template_store_rejected_iff_taken`, `C15_map_over_templates`, `C15_stored_in_scope_retrieved_by_names`. 

### C16 Scoped parameter lookup resolves to the current scope

*Modelled:* RedshiftLibrary/src/lib/processflow/parameterstore.cpp: CParameterStore; RedshiftLibrary/RedshiftLibrary/processflow/parameterstore.h; RedshiftLibrary/src/lib/processflow/scopestore.cpp

*Proof:* parameter tree as nested association lists; lookup lemmas.

*Status:* proved — theorems: `C16_scoped_name_is_dotted_path`, `C16_scoped_name_at_depth`, `C16_scoped_read`, `C16_scoped_list_falls_back`, `C16_set_then_get`, `C16_set_list_then_get`, `C16_ism_query`, `C16_igm_query`, `C16_igm_query_total_refuted`, `C16_fft_query`, `C16_log_rebin_query`, `C16_min_fft_step`, `C16_orthogonalisation_query`. 

### C17 Cached 'sorted' / 'log-sampled' verdicts of a spectral axis are never stale

*Modelled:* RedshiftLibrary/src/lib/spectrum/spectralaxis.cpp: CSpectralAxis

*Proof:* state machine with tribool caches; refutation witnesses for stale caches plus the invariant for the histories that avoid them.

*Status:* partial — theorems: `C17_sorted_verdict_partial`, `C17_log_verdict_partial`, `C17_log_check_meaning`, `C17_sorted_verdict_never_stale_refuted`, `C17_log_verdict_never_stale_refuted`, `C17_nan_step_is_declared_regular_refuted`. Verdicts proved right for every history of the operations listed in keeps_sorted_verdict / keeps_log_verdict; the unrestricted property is false of the code (refuted theorems: ApplyOffset, MaskAxis, extract, SetSize, *= on one sample, raw vector access).

### C18 Sub-sampling masks select every k-th sample of the range

*Modelled:* RedshiftLibrary/src/lib/spectrum/spectralaxis.cpp: CSpectralAxis::GetSubSamplingMask

*Proof:* loop invariant; refutation for ratio 1 ignoring the range.

*Status:* proved — theorems: `C18_every_kth_sample_of_the_range`, `C18_rejected_requests`, `C18_ratio_one_ignores_the_range_refuted`, `C18_nonpositive_ratio_refuted`. 

### C19 Masking an axis keeps exactly the masked-in samples in order

*Modelled:* RedshiftLibrary/src/lib/spectrum/axis.cpp: CSpectrumAxis::maskVector, MaskAxis

*Proof:* induction on the lists.

*Status:* proved — theorems: `C19_mask_keeps_selected_samples_in_order`, `C19_selection_is_unique`, `C19_masking_keeps_sorted`. 

### C20 Wavelength lookups on a spectral axis are consistent

*Modelled:* RedshiftLibrary/src/lib/spectrum/spectralaxis.cpp

*Proof:* lower_bound lemmas; telescoping sum.

*Status:* proved — theorems: `C20_index_is_first_sample_not_below`, `C20_mask_marks_exactly_the_range`, `C20_overlap_fraction_counts`, `C20_clamp_is_intersection`, `C20_clamp_errors`, `C20_mean_resolution`, `C20_local_resolution`, `C20_shift_round_trip`, `C20_shift_edge_cases`, `C20_integer_step_ratio`, `C20_index_on_empty_axis_refuted`. 

### C21 Running median/mean smoothing uses the truncated centred window

*Modelled:* RedshiftLibrary/src/lib/spectrum/fluxaxis.cpp: CSpectrumFluxAxis::ApplyMedianSmooth, ApplyMeanSmooth

*Proof:* window lemma on firstn/skipn, averages bounded by min/max.

*Status:* proved — theorems: `C21_median_smoothing`, `C21_mean_smoothing`, `C21_negative_width_refuted`. 

### C22 Flux/noise correction repairs only invalid samples

*Modelled:* RedshiftLibrary/src/lib/spectrum/fluxaxis.cpp: CSpectrumFluxAxis::correctFluxAndNoiseAxis, checkFlux; RedshiftLibrary/src/lib/spectrum/noiseaxis.cpp

*Proof:* f64 with NaN/inf; fold invariants.

*Status:* proved — theorems: `C22_correction_repairs_only_invalid_samples`, `C22_everything_valid_afterwards`, `C22_null_coefficient_refuted`, `C22_size_mismatch_refuted`, `C22_subtraction_is_samplewise`, `C22_largest_magnitude`, `C22_set_error`. 

### C23 Linear rebinning interpolates and never extrapolates

*Modelled:* RedshiftLibrary/src/lib/spectrum/rebin/rebin.cpp; RedshiftLibrary/src/lib/spectrum/rebin/rebinLinear.cpp

*Proof:* cursor loop invariant over the two grids.

*Status:* proved — theorems: `C23_linear_rebinning`, `C23_every_sample_of_the_range_is_reached`, `C23_interpolation_never_overshoots`, `C23_interpolation_exact_on_source_samples`, `C23_uncovered_range_rejected`, `C23_zero_outside_range_refuted`, `C23_single_sample_source_refuted`, `C23_single_target_variance_refuted`. Sorted axes, range inside the source; refuted for targets between the end of the range and the next source sample, one-sample sources and one-sample targets (variance option).

### C24 Nearest-grid-point rebinning copies the nearest source sample

*Modelled:* RedshiftLibrary/src/lib/spectrum/rebin/rebinNgp.cpp

*Proof:* same with nearest-index lemma.

*Status:* proved — theorems: `C24_nearest_sample_rebinning`, `C24_single_sample_source_refuted`, `C24_spline_rebinning`, `C24_spline_noise_not_implemented`, `C24_fine_grid_rebinning`, `C24_fine_grid_edge_refuted`, `C24_operator_names`. NGP, spline (GSL as an arbitrary function) and fine grid; refuted: one-sample source, zero flux at the red edge of the fine grid.

### C25 PDF peak finding reports only genuine maxima

*Modelled:* RedshiftLibrary/src/lib/extremum/extremum.cpp: CExtremum::FindAllPeaks

*Proof:* state machine over the array; refutation witnesses for plateau bugs; index validity and ordering for all inputs; correctness on plateau-free inputs.

*Status:* proved — theorems: `C25_peaks_are_exactly_the_maxima`, `C25_safe_for_every_input`, `C25_nan_borders_trimmed`, `C25_descending_plateau_refuted`, `C25_peak_reported_once_refuted`, `C25_right_border_plateau_refuted`. Exact on inputs without stair plateaus; three refuted theorems show the wrong peaks reported on stair plateaus.

### C26 Selected redshift candidates are mutually separated

*Modelled:* RedshiftLibrary/src/lib/extremum/extremum.cpp: FilterOutNeighboringPeaks, assertPeakSeparation

*Proof:* greedy filter invariant.

*Status:* proved — theorems: `C26_selected_peaks`, `C26_zero_peaks_requested_refuted`. Abscissas > -1, separation < 2, no merit cut; N=0 refuted.

### C27 Candidate truncation keeps the top-N by probability

*Modelled:* RedshiftLibrary/src/lib/extremum/extremum.cpp: Truncate

*Proof:* top-n of a sorted permutation.

*Status:* proved — theorems: `C27_merit_cut_refuted`, `C27_top_peaks`, `C27_truncation`, `C27_merit_cut_filter`. No merit cut for the whole search (refuted with it); the cut filter itself is proved exact.

### C28 Spectral peak detection returns maximal above-threshold runs

*Modelled:* RedshiftLibrary/src/lib/operator/peakdetection.cpp: CPeakDetection

*Proof:* run decomposition by induction.

*Status:* proved — theorems: `C28_possible_peaks`, `C28_peaks_are_inside`, `C28_narrow_window_refuted`, `C28_detection`, `C28_smoothing_first`, `C28_second_sample_refuted`. Exact rationals, no NaN. Refuted: one-sample axis or window narrower than twice the last step computes the median of nothing; a peak at the second sample is dropped.

### C29 Candidate integration ranges

*Modelled:* RedshiftLibrary/src/lib/statistics/pdfcandidatesz.cpp: CPdfCandidatesZ::SetIntegrationRanges

*Proof:* fold invariant on adjacent candidates.

*Status:* proved — theorems: `C29_integration_ranges`, `C29_two_candidates`, `C29_kept_ranges_disjoint_refuted`, `C29_removed_overlaps_a_kept_refuted`, `C29_no_candidate_refuted`. Exact rationals, any sorting function for std::sort. Refuted: kept ranges always disjoint, removed candidates always overlap a kept one, empty candidate set.

### C30 Candidates are ranked by integrated probability

*Modelled:* RedshiftLibrary/src/lib/statistics/pdfcandidatesz.cpp: SortByValSumProbaInt

*Proof:* stable sort lemma.

*Status:* proved — theorems: `C30_rank_order`, `C30_duplicates_last`. Exact rationals; NaN integrals (failed Gaussian fit) not modelled.

### C31 Redshift error estimate

*Modelled:* RedshiftLibrary/src/lib/statistics/deltaz.cpp: CDeltaz; RedshiftLibrary/src/lib/statistics/pdfcandidatesz.cpp

*Proof:* window arithmetic, positivity over R.

*Status:* proved — theorems: `C31_error_from_the_curvature`, `C31_error_is_positive`, `C31_redshift_not_in_the_grid`, `C31_empty_grid`, `C31_gaussian_density`. Real numbers; the optional GSL quadratic fit (gslfit=1) is not modelled.

### C32 The redshift PDF integrates to one

*Modelled:* RedshiftLibrary/src/lib/operator/pdfz.cpp: CPdfz::ComputePdf, logSumExpTrick

*Proof:* over R: exp/ln identities and linearity of trapezoid sums.

*Status:* proved — theorems: `C32_pdf_is_the_normalised_posterior`, `C32_pdf_shift_invariant`, `C32_empty_grid_throws`, `C32_prior_size_checked`, `C32_chi2_size_checked_refuted`, `C32_single_redshift_refuted`. Real numbers. Refuted: one-redshift grid returns log density 1; number of chi2 not checked.

### C33 The log-sum-exp evaluation is exact and shift-invariant

*Modelled:* RedshiftLibrary/src/lib/operator/pdfz.cpp: CPdfz::logSumExpTrick

*Proof:* over R.

*Status:* proved — theorems: `C33_log_sum_exp_exact`, `C33_log_sum_exp_shift`, `C33_no_overflow`, `C33_short_grid_throws`, `C33_value_size_checked_refuted`. Real numbers (no rounding). Refuted: number of values not checked.

### C34 Marginalised PDF is the evidence-weighted mixture

*Modelled:* RedshiftLibrary/src/lib/operator/pdfz.cpp: CPdfz::Marginalize, ComputeAllPdfs

*Proof:* over R, linearity.

*Status:* proved — theorems: `C34_marginalised_density`, `C34_sizes_checked`, `C34_model_priors_checked`. Real numbers; -DBL_MAX is a parameter, its contribution is exact in the statement.

### C35 Best-chi2 combination takes the pointwise minimum

*Modelled:* RedshiftLibrary/src/lib/operator/pdfz.cpp: CPdfz::BestChi2

*Proof:* pointwise min fold.

*Status:* proved — theorems: `C35_best_chi2_is_the_pointwise_minimum`, `C35_order_of_models`. Real numbers.

### C36 Inserting a sub-grid keeps the redshift grid sorted and complete

*Modelled:* RedshiftLibrary/src/lib/common/zgridparam.cpp: CZGridListParams::insertSubgrid; RedshiftLibrary/RedshiftLibrary/common/vectorOperations.h: insertWithDuplicates

*Proof:* list surgery lemmas.

*Status:* proved — theorems: `C36_subgrid_replaces_its_zone`, `C36_companion_stays_paired`, `C36_all_candidates`, `C36_coarse_subgrid_refuted`, `C36_subgrid_beyond_the_grid_refuted`. Sub-grid at least as dense as what it replaces, end samples only beyond the grid; both conditions shown necessary by refuted theorems.

### C37 OII doublet ratio rule

*Modelled:* RedshiftLibrary/src/lib/line/ruleOIIRatioRange.cpp: CRuleRatioRange::Correct

*Proof:* algebra over Q.

*Status:* proved — theorems: `C37_unchanged_within_range`, `C37_first_line_too_high`, `C37_second_line_too_high`, `C37_null_errors_refuted`, `C37_nominal_amplitude_refuted`. Unit nominal amplitudes, at least one non-null error; refuted otherwise.

### C38 Balmer/2-line and strong-weak amplitude rules only lower amplitudes

*Modelled:* RedshiftLibrary/src/lib/line/rule2singlelinesamplitude.cpp; RedshiftLibrary/src/lib/line/ruleStrongHigherThanWeak.cpp; RedshiftLibrary/src/lib/linemodel/elementparam.cpp

*Proof:* case analysis over Q.

*Status:* proved — theorems: `C38_two_lines`, `C38_two_lines_only_lowers`, `C38_strong_weak`, `C38_balmer_series`, `C38_amplitudes_stay_nonnegative`, `C38_option_selects`, `C38_option_all`, `C38_option_without_rule_names`, `C38_no_rules`, `C38_mixed_element_refuted`, `C38_absorption_balmer_never_applied`, `C38_absorption_balmer_refuted`, `C38_tag_substring_refuted`. Proportional elements with positive nominal amplitudes; refuted: mixed strong/weak elements, absorption Balmer rules set up with the emission type, substring matching of line tags.

### C39 Limiting an element's amplitude preserves the line ratios

*Modelled:* RedshiftLibrary/src/lib/linemodel/elementparam.cpp

*Proof:* map over lines.

*Status:* proved — theorems: `C39_limit`, `C39_undefined_amplitude_kept`, `C39_never_raises`, `C39_outside_line_revived_refuted`, `C39_negative_amplitude_raised_refuted`, `C39_absorption_limit_broken_refuted`. Refuted: lines outside the range revived, negative amplitudes raised to 0, absorption limit broken.

### C40 Continuum mirror extension and smoothing windows

*Modelled:* RedshiftLibrary/src/lib/continuum/irregularsamplingmedian.cpp

*Proof:* the whole ProcessRemoveContinuum with exact rationals, NaN as an absent value, on top of the median model of C10; locality of each smoothing composed over the cycles; scaling by order statistics.

*Status:* partial — theorems: `C40_median_smoothing`, `C40_mean_smoothing`, `C40_even_mirror`, `C40_odd_mirror`, `C40_effective_spectrum`, `C40_removal`, `C40_reflection`, `C40_flat`, `C40_units`, `C40_refusals`, `C40_narrow_kernel_refuted`, `C40_border_fit_refuted`. Exact rationals, no overflow; the amplitudes are given in samples (round(width / resolution) not modelled) and the linear regression of the odd reflection is abstract. Refuted: a kernel narrower than four samples makes every sample of the effective spectrum NaN; the border values of the odd reflection are fitted on the whole spectrum, never near the border (max and min are exchanged).

### C41 Log messages reach exactly the registered handlers at or above their level

*Modelled:* RedshiftLibrary/src/lib/log/log.cpp: CLog

*Proof:* refinement of the slot table to a list of registrations.

*Status:* proved — theorems: `C41_delivery`, `C41_all_live_handlers_served`, `C41_delivery_order_stable`, `C41_ninth_handler_refuted`. At most eight live handlers; the ninth is refuted.

### C42 Template-fit store keeps candidates ranked at every redshift

*Modelled:* RedshiftLibrary/src/lib/linemodel/templatesfitstore.cpp: CTemplatesFitStore

*Proof:* sorted insertion invariant over histories; UB lookups refuted.

*Status:* partial — theorems: `C42_history`, `C42_count`, `C42_add_outside_grid`, `C42_lookup`, `C42_lookup_outside_refuted`, `C42_lookup_negative`, `C42_lookup_index_outside`, `C42_lookup_off_grid`, `C42_lookup_off_grid_refuted`, `C42_max_amplitude_sigma`, `C42_max_amplitude_sigma_refuted`. Exact rationals, no NaN merit. Ranking, stability, counts and lookups proved for every history. Refuted: a rank that only another redshift has reads outside, a redshift between the points of a grid of fewer than ten reads outside, the largest significance reads a redshift without fit.

### C43 Template catalog lists stay consistent

*Modelled:* RedshiftLibrary/src/lib/spectrum/template/catalog.cpp: CTemplateCatalog

*Proof:* refinement to four finite maps.

*Status:* partial — theorems: `C43_add`, `C43_add_empty_category`, `C43_clear_list`, `C43_clear_one`, `C43_clear_width`, `C43_clear_width_refuted`, `C43_clear_outside`, `C43_clear_outside_derived_refuted`, `C43_clear_orphan_refuted`, `C43_set`, `C43_set_derived`, `C43_set_moved_refuted`, `C43_set_empty_refuted`, `C43_set_outside`, `C43_get`, `C43_list`, `C43_by_name`, `C43_by_name_refuted`. Every operation on every catalog. Refuted: the width is forgotten for the other categories, an index outside a derived list only is refused after the change, orthogonal log-sampled templates without log-sampled ones are kept, the replaced last template is moved to the first place, any index is accepted by an empty list, lookup by name dereferences cleared templates. Not modelled: the setting of the corrections and of the continuum removal.

### C44 Air/vacuum conversions invert each other to the requested precision

*Modelled:* RedshiftLibrary/src/lib/line/airvacuum.cpp

*Proof:* refutation of the iteration claim; monotone analysis.

*Status:* partial — theorems: `C44_names`, `C44_index`, `C44_refused`, `C44_vac_to_air`, `C44_air_to_vac`, `C44_round_trip`, `C44_precision_refuted`, `C44_round_trip_refused_refuted`. Exact rationals, the five converters with their constants, wavelength lists of any length. Proved: names, published index, refusals, order, inversion to 1.1e-7 relative and round trip to 1.2e-7. Refuted: the precision 1e-9 (the iteration compares a signed difference and always stops after one step, without a warning, more than 5e-5 Angstrom off); conversion back of the shortest wavelengths.

### C45 Line catalog filtering and grouping

*Modelled:* RedshiftLibrary/src/lib/line/catalog.cpp: CLineCatalogBase

*Proof:* filter/partition lemmas.

*Status:* proved — theorems: `C45_add`, `C45_add_from_parameters`, `C45_profile_names`, `C45_type_strings`, `C45_force_strings`, `C45_type_round_trip_refuted`, `C45_type_round_trip`, `C45_filter`, `C45_filter_by_strings`, `C45_groups`, `C45_group_names`, `C45_ungrouped_line_is_alone`, `C45_ungrouped_line_is_alone_refuted`, `C45_set_amplitude`, `C45_igm_profiles`, `C45_asymmetric_profiles`, `C45_ratio_catalog`, `C45_velocities`, `C45_detected_add`, `C45_detected_sort`. Exact rationals; iteration order of the group map not modelled. Refuted: the type string of 'All' is read back as Absorption; two ungrouped lines with equal string ids share a group.

### C46 Polynomial coefficients normalisation round-trips

*Modelled:* RedshiftLibrary/src/lib/common/polynom.cpp

*Proof:* field identity.

*Status:* proved — theorems: `C46_set_then_get`, `C46_value_after_set`, `C46_get_describes_value`, `C46_normalised_variable`, `C46_gradient_plain`, `C46_gradient_normalised`, `C46_from_list`. 

### C47 Concurrent log messages are never interleaved

*Modelled:* RedshiftLibrary/src/lib/log/log.cpp: CLog::logEntry; RedshiftLibrary/src/lib/log/handler.cpp; RedshiftLibrary/RedshiftLibrary/common/mutex.h

*Proof:* interleaving semantics with a lock; invariant over all schedules.

*Status:* proved — theorems: `C47_messages_never_interleave`, `C47_no_deadlock`, `C47_destruction_during_a_message_refuted`. Interleaving semantics of the mutex-protected section; handler destruction during a message refuted.

### C48 Clamping a value into a range

*Modelled:* RedshiftLibrary/RedshiftLibrary/common/range.h: CRange::Clamp

*Proof:* case analysis on the exact-rational model (RangeModel).

*Status:* proved — theorems: `C48_clamp`. Exact rationals.

### C49 Redshift priors are normalised and combine by product

*Modelled:* RedshiftLibrary/src/lib/statistics/zprior.cpp: CZPrior

*Proof:* over R: same log-sum-exp lemma as C33.

*Status:* proved — theorems: `C49_constant_prior`, `C49_strong_line_presence_prior`, `C49_number_of_lines_prior`, `C49_combined_prior_is_the_product`, `C49_combined_sizes_checked`, `C49_halpha_prior`, `C49_halpha_coefficient_checked`. Real numbers; the number-of-Halpha prior without normalisation.

### C50 Best-probability combination

*Modelled:* RedshiftLibrary/src/lib/operator/pdfz.cpp: COperatorPdfz::BestProba

*Proof:* over R.

*Status:* proved — theorems: `C50_best_probability`. Real numbers.

### C51 Validity test of a density and integral of a candidate

*Modelled:* RedshiftLibrary/src/lib/operator/logZPdfResult.cpp: CLogZPdfResult::isPdfValid, checkPdfSum, getSumTrapez; RedshiftLibrary/src/lib/statistics/pdfcandidatesz.cpp: CPdfCandidatesZ::getCandidateSumTrapez

*Proof:* over R for the values, rational grid for the index search (reuses C05).

*Status:* proved — theorems: `C51_validity_of_a_density`, `C51_integral_of_a_candidate`. Real numbers, no NaN.

### C52 Line-ratio catalog fit

*Modelled:* RedshiftLibrary/src/lib/line/catalogsTplRatio.cpp: CLineCatalogsTplRatio::GetBestFit, getFitForOneCatalog, computeFitValue

*Proof:* catalogsTplRatio.cpp:147-282 over Q; quadratic decomposition of the chi-square, induction over the catalogs.

*Status:* partial — theorems: `C52_least_squares`, `C52_no_fit`, `C52_chi2_is_nonnegative`, `C52_nothing_found`, `C52_best_catalog_partial`, `C52_corrected_amplitudes_refuted`, `C52_exact_match_wins_refuted`. Least squares and selection proved for every input. Refuted: with a usable line the function writes out of bounds of the vector it just cleared; a catalog matching exactly (value 0) is never chosen.

### C53 Line profiles

*Modelled:* RedshiftLibrary/src/lib/line/lineprofileSYM.cpp; RedshiftLibrary/src/lib/line/lineprofileLOR.cpp; RedshiftLibrary/src/lib/line/lineprofileASYM.cpp; RedshiftLibrary/src/lib/line/lineprofileASYMFIT.cpp

*Proof:* real-analysis model (Coquelicot), Gaussian integral proved in GaussInt.v, antiderivatives and limits for the fluxes.

*Status:* partial — theorems: `C53_gaussian_shape`, `C53_gaussian_derivative_centre`, `C53_gaussian_derivative_width`, `C53_gaussian_flux`, `C53_lorentzian_shape`, `C53_lorentzian_flux`, `C53_lorentzian_has_no_derivative`, `C53_support`, `C53_asymmetric_value`, `C53_asymmetric_range`, `C53_asymmetric_without_asymmetry`, `C53_asymmetric_mirror`, `C53_asymmetric_mirror_mode_refuted`, `C53_asymmetric_flux`, `C53_asymmetric_mean`, `C53_asymmetric_derivative_width`, `C53_asymmetric_derivative_centre_partial`, `C53_asymmetric_derivative_centre_refuted`, `C53_asymmetric_invalid`, `C53_asymmetric_nan_shift_refuted`, `C53_conversions`. Reals, no rounding. Refuted: the derivative of the asymmetric profile with respect to the centre misses a factor 2 in the asymmetry term, wrong at every wavelength as soon as there is an asymmetry; centering on the mode is not mirrored for negative asymmetries; a NaN shift is not refused. Everything else proved.

### C54 Orthogonalized templates follow the templates and the LSF

*Modelled:* RedshiftLibrary/src/lib/linemodel/templatesortho.cpp: CTemplatesOrthogonalization

*Proof:* model on top of the catalog model, the orthogonalization of one template abstract; invariants on the four lists.

*Status:* partial — theorems: `C54_first`, `C54_other_lsf`, `C54_other_lsf_forgotten_refuted`, `C54_nothing_to_do`, `C54_log_sampled_changed`, `C54_log_sampled_first_changed`, `C54_log_sampled_hole_refuted`, `C54_other_category_refuted`, `C54_stale_log_sampled_refuted`. The orthogonalization of one template is abstract. Proved: first time, another LSF, log-sampled list cleared, first templates missing, nothing to do. Refuted: a missing template after a present one is never recomputed; the width is shared by the categories so another category is kept with the old LSF; after a change of LSF the width is forgotten, so everything is computed again; log-sampled ones kept when the others are missing.

### C55 Log-sampled templates follow the templates and the grid

*Modelled:* RedshiftLibrary/src/lib/spectrum/logrebinning.cpp: CSpectrumLogRebinning::logRebinTemplateCatalog

*Proof:* model on top of the catalog model, rebinning of one template and the test of the need abstract; loop invariant.

*Status:* partial — theorems: `C55_first`, `C55_again`, `C55_added_since_refuted`, `C55_cleared_refuted`. Abstract rebinning and test. Refuted: templates added after the first rebinning are never rebinned; a cleared template is dereferenced.

### C56 The raw flux, the continuum and the continuum-free flux of a spectrum stay consistent under any history of calls

*Modelled:* RedshiftLibrary/src/lib/spectrum/spectrum.cpp: CSpectrum; RedshiftLibrary/RedshiftLibrary/spectrum/spectrum.h: CSpectrum; RedshiftLibrary/src/lib/spectrum/rebin/rebin.cpp: CRebin::convert; RedshiftLibrary/src/lib/spectrum/rebin/rebinFineGrid.cpp: CRebinFineGrid

*Proof:* a record with the data members of CSpectrum, one function per method returning the state (also after an exception) and the outcome, histories as lists of calls; invariants over the histories; the remover, the corrector and the smoother are universally quantified functions; references to the spectrum's own axes are a case of the arguments.

*Status:* partial — theorems: `C56_decomposition`, `C56_up_to_date_partial`, `C56_new_wavelengths_refuted`, `C56_new_errors_refuted`, `C56_unknown_method`, `C56_refused_remover`, `C56_odd_reflection_refuted`, `C56_sizes`, `C56_own_component_refuted`, `C56_own_manual_refuted`, `C56_manual`, `C56_manual_rejected_refuted`, `C56_manual_after_new_flux_refuted`, `C56_amplitude`, `C56_amplitude_manual_refuted`, `C56_correction_partial`, `C56_correction_refuted`, `C56_rebin_present`, `C56_fine_grid_partial`, `C56_fine_grid_kept`, `C56_fine_grid_used`, `C56_fine_grid_invert_refuted`, `C56_fine_grid_wavelengths_refuted`, `C56_fine_grid_convert_refuted`, `C56_copy`, `C56_copy_valid`, `C56_masked_copy`, `C56_masked_manual_refuted`, `C56_assignment_identity_refuted`, `C56_component_errors`, `C56_extract`. Decomposition and sizes hold for every history (sizes: without references to the spectrum's own data). Exact rationals. Refuted: SetSpectralAxis and SetErrorAxis keep the old continuum; with odd reflections and a type other than raw the estimation recurses for ever; SetFluxAxis with the spectrum's own component empties its flux; a rejected manual continuum replaces the method; a manual continuum is lost by a new flux, a masked copy, and not scaled by an amplitude before it is read; correctSpectrum on a component announces a correction and drops it; the fine grid is stale after InvertFlux, SetSpectralAxis and a change of interpolation; assignments forget the observation identifier and the photometry.

### C57 The dust attenuation is the tabulated Calzetti law

*Modelled:* RedshiftLibrary/src/lib/spectrum/fluxcorrectioncalzetti.cpp: CSpectrumFluxCorrectionCalzetti; RedshiftLibrary/RedshiftLibrary/spectrum/fluxcorrectioncalzetti.h

*Proof:* the table, its coefficients and the index arithmetic in exact rationals, 10^x as a function with its algebraic properties; out-of-range reads as undefined behaviour.

*Status:* partial — theorems: `C57_coefficient`, `C57_outside`, `C57_attenuation`, `C57_index_too_large`, `C57_index_negative_refuted`, `C57_ebmv_roundtrip`, `C57_ebmv_nearest`, `C57_regular`, `C57_one_sample_refuted`, `C57_decreasing_refuted`, `C57_sizes_refuted`. Exact rationals. Refuted: a negative index reads before the beginning of the table; a table of one sample or none is undefined behaviour; a table of decreasing wavelengths is accepted and always gives 1; fewer corrections than wavelengths are accepted, then read beyond the end.

### C58 A line spread function has a positive width wherever it is used, and its kernel is normalised

*Modelled:* RedshiftLibrary/src/lib/spectrum/LSF.cpp: CLSF; RedshiftLibrary/src/lib/spectrum/LSFConstantResolution.cpp; RedshiftLibrary/src/lib/spectrum/LSFVariableWidth.cpp; RedshiftLibrary/src/lib/spectrum/LSF_NISPSIM_2016.cpp; RedshiftLibrary/src/lib/spectrum/LSF_NISPVSSPSF_201707.cpp; RedshiftLibrary/RedshiftLibrary/spectrum/LSFFactory.h: CLSFFactory

*Proof:* the five classes as a data type, the interpolation and the kernel in exact rationals, square root and profile as positive functions; the factory as a function of the name and of the class of the arguments.

*Status:* partial — theorems: `C58_constant_width`, `C58_constant_resolution`, `C58_variable_width`, `C58_width_positive`, `C58_clip`, `C58_interpolated`, `C58_outside`, `C58_available`, `C58_unsorted_refuted`, `C58_resolution`, `C58_kernel`, `C58_factory`, `C58_factory_arguments_refuted`, `C58_nisp`, `C58_profile_value`. Exact rationals; square root and profile abstract. Refuted: a table of unsorted wavelengths is accepted although no width can then be read; the factory dereferences null when the arguments are those of another class.

### C59 The intergalactic extinction is a transmission, taken from the bin of the redshift and convolved with the current line spread function

*Modelled:* RedshiftLibrary/src/lib/spectrum/fluxcorrectionmeiksin.cpp: CSpectrumFluxCorrectionMeiksin; RedshiftLibrary/RedshiftLibrary/spectrum/fluxcorrectionmeiksin.h; RedshiftLibrary/src/lib/processflow/inputcontext.cpp: CInputContext::Init

*Proof:* the tables as lists, indices in Z with the outcomes of at() and of unchecked reads; the LSF as functions which meet C58; histories as an inductive predicate; weighted means for the bounds.

*Status:* partial — theorems: `C59_redshift_index`, `C59_single_boundary_refuted`, `C59_wave_index`, `C59_above_lyman_alpha`, `C59_below_first_bin`, `C59_undefined_index`, `C59_convolution`, `C59_library_lsf`, `C59_value`, `C59_constant_curve`, `C59_transmission`, `C59_second_convolution_ignored`, `C59_last_lsf_refuted`, `C59_boundaries_refuted`, `C59_wave_and_correction`, `C59_derivative`. Exact rationals; the LSF is any pair of a width and a normalised kernel (the library's are, C59_library_lsf). Refuted: a second convolution (another observation with its own LSF) leaves the first curves in use; a single redshift boundary silently disables the extinction; one boundary too few reads beyond the end; the derivative on a grid of one node is 0/0.

### C60 A template's flux always is its original flux times the extinctions last asked for

*Modelled:* RedshiftLibrary/src/lib/spectrum/template/template.cpp: CTemplate; RedshiftLibrary/RedshiftLibrary/spectrum/template/template.h

*Proof:* the template as a record (axis, flux, flux without extinction, cached extinctions, indices); a program is a list of calls; what the caller has seen is a separate fold of the calls, and the flux is proved equal to the product it prescribes by induction on the program.

*Status:* partial — theorems: `C60_flux`, `C60_disable`, `C60_dust_returns`, `C60_igm_returns`, `C60_init_range`, `C60_reversed_indices_refuted`, `C60_bad_dust_index_refuted`, `C60_bad_igm_index_refuted`, `C60_not_convolved_refuted`, `C60_missing_curve_refuted`, `C60_new_wavelengths_refuted`, `C60_refused_flux_refuted`, `C60_new_flux`, `C60_base_amplitude_refuted`, `C60_masked_dust`, `C60_masked_igm_refuted`, `C60_masked_gap_refuted`, `C60_index_lists`. Exact rationals; tables as in C57 and C59. Refuted: a first index beyond the last is not refused (undefined behaviour with igm); a dust index outside the table is refused once and then reported as applied; an igm index outside the table, or a table not convolved, is undefined behaviour; a redshift without curve throws after the indices were reset, so that asking for no dust leaves the extincted flux; new wavelengths (accepted or refused) or a refused flux leave the extincted flux for ever; an amplitude applied through the base class is lost on disabling; the igm is never applied to a masked copy; a mask with a hole over the range throws.

### C61 Integrals and statistics of a flux are those of the samples asked for

*Modelled:* RedshiftLibrary/src/lib/spectrum/spectrum.cpp: CSpectrum::integrateFluxes_usingTrapez, GetMeanAndStdFluxInRange; RedshiftLibrary/src/lib/spectrum/fluxaxis.cpp: ComputeMeanAndSDev, ComputeRMSDiff

*Proof:* the loops over Q, with IEEE special values for the mean (division by a null error); the specification is the sum of segment integrals and the weighted mean characterised by its normal equation; induction on the ranges and on the samples.

*Status:* partial — theorems: `C61_integral`, `C61_ranges`, `C61_integral_additive`, `C61_integral_linear`, `C61_integral_straight_line`, `C61_integral_bounds`, `C61_integral_weights`, `C61_error_bound`, `C61_error_refuted`, `C61_refused`, `C61_outside_refuted`, `C61_mean`, `C61_mean_between`, `C61_equal_errors`, `C61_mask_size`, `C61_unselected_sample_refuted`, `C61_mean_in_range`, `C61_mean_outside`, `C61_empty_range_refuted`, `C61_difference`. Exact rationals; square roots taken as squares. Refuted: the returned error leaves out the correlation of the two halves of each inner sample, so that the variance is too small; indices outside the axis are undefined behaviour; an unselected sample with a null error makes the mean NaN; an empty range reports success with NaN.

### C62 Validation of an input spectrum accepts exactly the spectra that can be processed

*Modelled:* RedshiftLibrary/src/lib/spectrum/spectrum.cpp: ValidateSpectrum, ValidateFlux, ValidateNoise, correctSpectrum; RedshiftLibrary/src/lib/processflow/inputcontext.cpp: CInputContext::Init

*Proof:* the validation as one function over spectra with F64 samples, reusing the flux model (C19); acceptance proved equivalent to a quantified statement on the samples of the common range.

*Status:* partial — theorems: `C62_accepted`, `C62_error_codes`, `C62_corrected`, `C62_correction_fails`, `C62_refused`, `C62_last_sample_refuted`, `C62_short_noise_refuted`. Raw flux type and sorted-axis cache as in C17. Refuted: the sample at the upper bound of the range is never looked at (a NaN flux or null noise there is accepted); a noise axis of another size is read out of bounds.

### C63 The Gaussian line profile with intergalactic extinction is the Gaussian times the transmission

*Modelled:* RedshiftLibrary/src/lib/line/lineprofileSYMIGM.cpp: CLineProfileSYMIGM; RedshiftLibrary/RedshiftLibrary/line/lineprofileSYMIGM.h

*Proof:* profile over R with an abstract transmission (the Meiksin object of C59); derivatives stated with Coquelicot's is_derive.

*Status:* partial — theorems: `C63_value`, `C63_bounds`, `C63_deriv_sigma`, `C63_deriv_x0`, `C63_flux_above_lya`, `C63_flux_refuted`, `C63_flux_constant_refuted`, `C63_no_igm`, `C63_count_refuted`, `C63_parameters`. Over the reals, transmission abstract. Refuted: the flux of a line below Lyman alpha integrates in the rest frame (no factor 1+z) and counts the transmission twice; the number of igm indices dereferences a null correction.

### C64 The fit of a template at a redshift finds the best extinguished template of the grid

*Modelled:* RedshiftLibrary/src/lib/operator/templatefitting.cpp: COperatorTemplateFitting::BasicFit, ComputeCrossProducts, ComputeAmplitudeAndChi2; RedshiftLibrary/src/lib/operator/templatefittingBase.cpp: applyPositiveAndNonNullConstraint; RedshiftLibrary/src/lib/operator/templatefittingresult.cpp: SNRCalculation; RedshiftLibrary/RedshiftLibrary/operator/templatefitting.h

*Proof:* the loops over the igm and dust indices with the templates' state machine (C60), the sums outside the igm kept between columns; invariant relating each observation to the template seen through the current indices; least squares by completing the square; the best fit by an invariant on the running minimum.

*Status:* partial — theorems: `C64_tables`, `C64_best_of_grid`, `C64_exact_data`, `C64_reused_template`, `C64_snr`, `C64_blue_only_refuted`, `C64_igm_not_in_range_refuted`, `C64_prior_without_dust_refuted`, `C64_no_dust_values_refuted`. Exact rationals, square root abstract, from the rebinned templates on. Proved when the last fitted sample is above Lyman alpha. Refuted: when all samples are at or below it the sums are counted twice from the second igm index on; igm fitting without dust fails at every redshift where no range begins below Lyman alpha; priors without dust fitting, or an empty list of dust indices, are undefined behaviour.

### C65 The lines of an element are fitted on disjoint merged supports which cover exactly their windows

*Modelled:* RedshiftLibrary/src/lib/linemodel/element.cpp: CLineModelElement::EstimateIndexRange, EstimateTheoreticalSupport, prepareSupport, getSupport, getTheoreticalSupport, getSupportSubElt, GetObservedPosition; RedshiftLibrary/RedshiftLibrary/linemodel/element.h

*Proof:* supports as ranges of sample indices, the merging passes as folds over the lines, the activity matrix; ghost groups of lines; an invariant (the activity of a live support is its group, its range the union of the ranges of the group) kept by every merge; each pass doubles the size of the groups still in conflict, hence the bound on the number of passes.

*Status:* proved — theorems: `C65_index_range`, `C65_prepare_total`, `C65_line_support`, `C65_window_outside`, `C65_window_inside`, `C65_all_outside`, `C65_supports_disjoint`, `C65_groups`, `C65_activity_symmetric`, `C65_same_samples`, `C65_supports_in_axis`, `C65_shared_sample_refuted`, `C65_coarse_sampling_refuted`, `C65_range_wider_than_axis_refuted`, `C65_absorbed_rows_refuted`. Line width, LSF availability abstract. Refuted beside it: supports sharing a single sample stay unmerged; on a sampling coarser than the window, or with a range wider than the spectrum, a line outside the range is used; the activity between two lines merged into others may be missing.

### C66 The model spectrum is the continuum plus, on the supports, each used line exactly once

*Modelled:* RedshiftLibrary/src/lib/linemodel/element.cpp: CLineModelElement::addToSpectrumModel, initSpectrumModel, getModelAtLambda, GetModelDerivAmplitudeAtLambda, GetModelDerivContinuumAmpAtLambda, GetObservedPosition, GetElementAmplitude, GetContinuumAtCenterProfile; RedshiftLibrary/src/lib/linemodel/spectrummodel.cpp: CSpectrumModel::refreshModel, refreshModelUnderElements, reinitModelUnderElements; RedshiftLibrary/RedshiftLibrary/linemodel/elementparam.h

*Proof:* the element functions over the supports of C65; additive folds over lines and samples characterised sample by sample; the C65 facts (supports of two groups, activity = links) give that each line is added exactly once.

*Status:* proved — theorems: `C66_lines_added`, `C66_init`, `C66_refresh`, `C66_model_unique`, `C66_refresh_under`, `C66_refresh_local`, `C66_model_at_lambda`, `C66_model_throws`, `C66_deriv_amplitude`, `C66_deriv_continuum`, `C66_mean_position`, `C66_element_amplitude`, `C66_center_continuum`, `C66_lsf_border_refuted`, `C66_deriv_other_groups_refuted`, `C66_deriv_negative_refuted`, `C66_refresh_other_element_refuted`, `C66_center_out_refuted`. Profile, width and LSF availability are abstract functions. Refuted beside it: a line accepted at the shifted centre makes the model throw; the amplitude derivative counts lines of other groups; a negative absorption line is in the continuum derivative though not in the model; refreshing under an element erases the lines of overlapping elements; a line out of the spectrum reads the continuum of the last sample.

### C67 The amplitude and the wavelength offset of an element are those of the least squares

*Modelled:* RedshiftLibrary/src/lib/linemodel/abstractfitter.cpp: CAbstractFitter::fitAmplitude, setLambdaOffset, HasLambdaOffsetFitting, GetLambdaOffsetSteps, fitAmplitudeAndLambdaOffset, getLeastSquareMeritFast; RedshiftLibrary/src/lib/linemodel/element.cpp: CLineModelElement::computeCrossProducts; RedshiftLibrary/RedshiftLibrary/linemodel/elementparam.h: setAmplitudes, setFittedAmplitude; RedshiftLibrary/src/lib/linemodel/lmeltlistvector.cpp: computeOutsideLambdaRange, computeOutsideLambdaRangeLine

*Proof:* the cross products accumulated over groups and samples are shown equal to sums over the samples of the model of amplitude one (each covered sample belongs to one group); the quadratic form is completed; the offset loop by induction with the frame: a fit forgets the amplitudes, setting an offset forgets the previous one.

*Status:* proved — theorems: `C67_views`, `C67_fit`, `C67_merit`, `C67_unshared`, `C67_forgets`, `C67_outside`, `C67_set_offsets`, `C67_joint`, `C67_first_best`, `C67_no_offset`, `C67_shared_refuted`, `C67_last_offset_refuted`, `C67_offset_left_refuted`. Null errors are outside of the model. Supposes that no sample is shared by two unmerged supports (C65 shows when). Refuted beside it: with a shared sample the amplitude is not the best; the offset +400 is never tried; an impossible fit leaves the offset at 375 km/s.

### C68 The elements fitted, fitted together, and summarised are exactly those in the range

*Modelled:* RedshiftLibrary/src/lib/linemodel/elementlist.cpp: CLineModelElementList::GetModelValidElementsIndexes, SetElementIndexesDisabledAuto, GetModelVelfitGroups, getOverlappingElements, getSupportIndexes, addToSpectrumAmplitudeOffset, getScaleMargCorrection, GetModelStrongEmissionLinePresent, GetModelHaStrongest, getFittingGroups; RedshiftLibrary/src/lib/linemodel/hybridfitter.cpp: CHybridFitter::fitAmplitudesHybrid; RedshiftLibrary/src/lib/linemodel/lmeltlistvector.cpp: GetModelNonZeroElementsNDdl, LoadCatalogOneMultiline, LoadCatalogTwoMultilinesAE

*Proof:* the loops are shown equal to set descriptions by induction; sort+unique is proved to give the strictly increasing list of the same elements; the map of tags is shown to group the pushed pairs; the amplitude offset by induction on the groups with the mask as invariant.

*Status:* proved — theorems: `C68_valid`, `C68_disable`, `C68_overlap`, `C68_hybrid`, `C68_velocity_groups`, `C68_fitting_groups`, `C68_support`, `C68_amplitude_offset`, `C68_nonzero`, `C68_strong_line`, `C68_ha_strongest`, `C68_marginalisation`, `C68_amplitude`, `C68_find`, `C68_dof`, `C68_load`, `C68_velocity_duplicates_refuted`, `C68_disabled_fitted_refuted`, `C68_chain_refuted`, `C68_asymmetric_refuted`, `C68_no_element_refuted`, `C68_ha_tie_refuted`. The fits inside the groups are C67. Refuted beside it: duplicates in a velocity group; a disabled element is fitted with an overlapping one; overlapping elements may be fitted separately; the overlap is not symmetric; an empty list of elements means all in the amplitude offset; a tie for H alpha is decided by the order.

### C69 The joint fit of overlapping elements minimises the chi square and never sets a negative amplitude

*Modelled:* RedshiftLibrary/src/lib/linemodel/svdfitter.cpp: CSvdFitter::fitAmplitudesLinSolve, fitAmplitudesLinSolvePositive, fitAmplitudesLinSolveAndLambdaOffset; RedshiftLibrary/src/lib/linemodel/hybridfitter.cpp: CHybridFitter::improveBalmerFit; RedshiftLibrary/src/lib/linemodel/spectrummodel.cpp: getModelSquaredResidualUnderElements; RedshiftLibrary/RedshiftLibrary/linemodel/spectrummodel.h: getModelResidualRmsUnderElements

*Proof:* GSL's solver is an abstract function assumed to minimise the weighted sum of squares, and an orthogonalisation proved to do so shows the assumption can be met; the normalisation is removed by scaling; the positive fit by cases on the two solutions; the offset loop with the invariant of the first minimum, after a proof that the fit forgets the amplitudes before.

*Status:* proved — theorems: `C69_solver_exists`, `C69_throws`, `C69_joint`, `C69_few_samples`, `C69_positive`, `C69_no_memory`, `C69_offsets`, `C69_no_offset`, `C69_merit`, `C69_balmer`, `C69_not_best_refuted`, `C69_counted_twice_refuted`, `C69_few_samples_refuted`, `C69_perfect_refuted`, `C69_continuum_refuted`, `C69_balmer_negative_refuted`, `C69_balmer_restore_refuted`. One observation. The fit of one element alone is C67. Refuted beside it: the positive fit is not the best non negative one; overlapping lines are counted twice after two negative solutions; with few samples nothing is fitted; a perfect fit is never the chosen offset; the continuum is subtracted twice in the residual of the offsets; Balmer lines may keep a negative amplitude; a rejected Balmer fit does not put back elements with several lines.

### C70 The model spectrum is the continuum plus each line once, and the fluxes measured with it are integrals above the right continuum

*Modelled:* RedshiftLibrary/src/lib/linemodel/spectrummodel.cpp: CSpectrumModel::refreshModel, refreshModelUnderElements, getModel, setContinuumComponent, setContinuumFromTplFit, EstimateSpectrumContinuum, GetObservedSpectrumWithLinesRemoved, GetWeightingAnyLineCenterProximity, GetContinuumWeightedSumInRange, getContinuumSquaredResidualInRange, getFluxDirectIntegration, getContinuumUnderLines, getLinesAboveSNR; RedshiftLibrary/src/lib/linemodel/linemodelfitting.cpp: CLineModelFitting::GetMeanContinuumUnderLine, getFluxDirectIntegration

*Proof:* Spectra are functions of the sample, elements what they add under their windows; the loops over elements are folds, proved pointwise; the weights by a running maximum; the direct integration by C61; the strong lines by an invariant on the lines already accumulated for each doublet, restated with a separate table of names.

*Status:* proved — theorems: `C70_refresh`, `C70_refresh_under`, `C70_get_model`, `C70_get_model_all_samples`, `C70_component`, `C70_init`, `C70_template`, `C70_template_ignores`, `C70_nothing_under_lines`, `C70_weight`, `C70_removed`, `C70_removed_perfect`, `C70_removed_all_refuted`, `C70_removed_model_refuted`, `C70_residual`, `C70_weighted_sum`, `C70_mean`, `C70_deviation`, `C70_continuum_under`, `C70_direct`, `C70_direct_plain`, `C70_direct_error`, `C70_direct_throws`, `C70_absorption_refuted`, `C70_flux_snr`, `C70_snr`, `C70_get_model_sum_refuted`, `C70_refresh_under_same_refuted`, `C70_refresh_under_others_refuted`, `C70_direct_window_refuted`, `C70_doublet_refuted`. One spectrum for each model. The profile of an element is C65/C66, the ranges of the direct integration are given. Refuted beside it: with all lines removed the blend is with the full model, so up to nine tenths of a line remain and the uncertainty of the continuum counts the line; removal leaves a model with one type of lines; overlapping elements erase each other in the model of some elements; the absorption is never subtracted for emission elements, and samples outside the windows lose no continuum; refreshing under elements loses the offsets; a doublet is reported for its first line alone.

### C71 Line matching groups every detected line that agrees with a pair, each solution once, and the best redshift is the one with most lines

*Modelled:* RedshiftLibrary/src/lib/operator/linematching.cpp: CLineMatching::Compute, updateSolution, isLineAlreadyPresent, refineSolutions, AreSolutionSetsEqual; RedshiftLibrary/src/lib/operator/linematchingresult.cpp: CLineMatchingResult::GetBestRedshift, GetBestMatchNumRedshift, GetSolutionsListOverNumber, GetAverageRedshiftListOverNumber, GetRoundedRedshiftCandidatesOverNumber, GetExtendedRedshiftCandidatesOverNumber, GetMeanRedshiftSolutionByIndex, getNStrongRestLines, GetMaxMatchingNumber, FilterWithRules

*Proof:* The loops over detected lines and catalog as folds over Q; solutions are sorted lists of pairs. Soundness by an invariant of the loop, exactness by a separate definition of the group of a pair (find the first partner of every other line), uniqueness by the order on positions; the queries by running maxima.

*Status:* proved — theorems: `C71_compute`, `C71_sound`, `C71_groups`, `C71_complete`, `C71_unique`, `C71_over_number`, `C71_best`, `C71_best_number`, `C71_rounded`, `C71_extended`, `C71_by_index`, `C71_filter`, `C71_pairwise_refuted`, `C71_rest_once_refuted`, `C71_nearest_refuted`, `C71_one_rest_refuted`, `C71_negative_number_refuted`, `C71_by_index_refuted`, `C71_extended_refuted`. Positions in Q, the catalog lines by position, name, type and strength. Refuted beside it: two redshifts of a solution may differ by more than the tolerance; a line of the catalog can be used twice; the partner is the first, not the nearest; with one line in the catalog nothing is grouped; a negative number selects nothing; the mean by index of an empty list reads outside; the extended candidates miss the upper end and may be empty.

### C72 Line detection keeps exactly the peaks with an acceptable fit and a ratio above the cut, and the retest only adds weak lines near strong ones

*Modelled:* RedshiftLibrary/src/lib/operator/linedetection.cpp: CLineDetection::Compute, ComputeFluxes, Retest, RemoveStrongFromSpectra, XMadFind; RedshiftLibrary/RedshiftLibrary/operator/linedetection.h: CLineDetection::SGaussParams; RedshiftLibrary/RedshiftLibrary/line/linedetected.h: CLineDetected; RedshiftLibrary/src/lib/line/catalog.cpp: CLineDetectedCatalog::Sort

*Proof:* Loops over samples as recursions with invariants (first largest so far), medians by C10, windows by the lookup of C19; the peaks one by one against a separate predicate of acceptability; the trimming of the excluded intervals by shrinking and clearing lemmas; the reduced spectrum by counting the samples kept.

*Status:* proved — theorems: `C72_fluxes`, `C72_fluxes_error`, `C72_height`, `C72_lines`, `C72_status`, `C72_retested`, `C72_excluded`, `C72_reduced_index`, `C72_normal_end`, `C72_swapped_refuted`, `C72_once_refuted`, `C72_exclusion_width_refuted`, `C72_own_sample_refuted`, `C72_first_sample_refuted`, `C72_infinite_refuted`, `C72_flat_refuted`. The Gaussian fit is a parameter (any answer); rationals without rounding, with the IEEE values of a division by zero. Not modelled: the unused LimitGaussianFitStartAndStop, logs. Refuted beside it: a retested line has its amplitude and width exchanged; a peak near two strong lines is added twice; the part excluded depends on the ratio, not on the width; the last sample of a retested peak can be excluded; an excluded first sample shifts the indices and throws; an infinite ratio is converted to an integer; a flat peak without noise is detected whatever the cut.

### C73 A matching solution is removed exactly for the broken rules of its code

*Modelled:* RedshiftLibrary/src/lib/line/rules.cpp: CRules::check, checkRule01, checkRule02, checkRule03, getRestLineLambda, isLineInsideRange; RedshiftLibrary/src/lib/operator/linematchingresult.cpp: CLineMatchingResult::FilterWithRules; RedshiftLibrary/RedshiftLibrary/line/linetags.h: linetags

*Proof:* The loops against largest ratio, exactly one and none as separate predicates on lists and strings; totality from C72; the range test as parsed (a conditional on the sum), with the theorem that it is equality with the window and that the filter therefore removes nothing.

*Status:* proved — theorems: `C73_code`, `C73_zero`, `C73_filter`, `C73_mean`, `C73_inside_refuted`, `C73_never_refuted`, `C73_outside_refuted`. Codes and filter proved for the test of the range as compiled. The last sentence is refuted: [begin + winsize ? m_winsize : 0] is parsed as a conditional on the sum, so a line is inside iff its position equals the window size, and with a window shorter than the rest positions the filter never removes a solution. Also refuted: rule 1 compares with strong lines outside of the range.

### C74 The line matching method returns the first parameters which give a redshift, uses all its values in finitely many turns, and stops

*Modelled:* RedshiftLibrary/src/lib/method/linematchingsolve.cpp: CLineMatchingSolve::compute

*Proof:* One turn as a function on the state of the loop, the detection and the matching as arbitrary functions; termination of the exploration by a lexicographic rank of the four parameters; the best values by an invariant over the turns done; the refuted end by an invariant.

*Status:* proved — theorems: `C74_single`, `C74_first`, `C74_exhausts`, `C74_best`, `C74_failure`, `C74_ranges`, `C74_limit_refuted`, `C74_end_refuted`, `C74_cut_refuted`. All but the last sentence, for the loop with exact decimal constants; the detection and the matching are arbitrary functions (C71-C73 model them). Refuted: every path of the loop ends with continue, so the limit of 100 turns and its warning are never reached, and the dynamic search runs forever when nothing matches; the cut goes below its minimum, even below 0.

### C75 The prior tables give for each redshift the densities of its bin

*Modelled:* RedshiftLibrary/src/lib/statistics/priorhelper.cpp: CPriorHelper::Init, loadFileEZ, loadFileZ, setEZTData, GetTplPriorData, fillPriorDataPerZ, GetTZEPriorData, getRedshiftIndex, getTemplateIndex; RedshiftLibrary/RedshiftLibrary/statistics/priorhelper.h: CPriorHelper, SPriorTZE

*Proof:* Files as lists of lines of tokens; the tables cell by cell; the bins by the conversion towards zero; exp of the precomputed logarithms against the densities, over the reals.

*Status:* proved — theorems: `C75_tables`, `C75_loads`, `C75_densities`, `C75_available`, `C75_errors`, `C75_checked`, `C75_one`, `C75_last_refuted`, `C75_low_refuted`, `C75_short_refuted`, `C75_null_refuted`, `C75_failed_refuted`, `C75_name_refuted`. The first four sentences, on files given as tokens, rational values and real logarithms. The last one is refuted: from redshift 6 the index is one past the table (undefined behaviour); with the check, redshifts between -0.25 and 0 are accepted; a table with missing lines is read out of bounds; the minimal value is 0, which makes every request in that bin an error; after a failed loading the request of one value reads an empty list; the templates are registered under the full names of their files, so a template is unknown under its own name.

### C76 The template fit with photometry is the joint fit of the spectrum and of one point per band

*Modelled:* RedshiftLibrary/src/lib/photometry/photometricband.cpp: CPhotometricBand, IntegrateFlux, GetNameList, GetNameListSortedByLambda; RedshiftLibrary/src/lib/photometry/photometricdata.cpp: CPhotometricData; RedshiftLibrary/src/lib/operator/templatefittingwithphot.cpp: COperatorTemplateFittingPhot, checkInputPhotometry, init_fast_igm_processing, ComputePhotCrossProducts, ComputeAmplitudeAndChi2, EstimateLikelihoodCstLog, getIntegratedFluxes; RedshiftLibrary/src/lib/operator/templatefittingBase.cpp: EstimateLikelihoodCstLog

*Proof:* Bands as lists over the rationals, maps as ordered association lists, the loop of the sums with the saved part; induction on the bands; the fit reuses C64; the constant over the reals.

*Status:* proved — theorems: `C76_band`, `C76_empty_band_refuted`, `C76_integral`, `C76_flat`, `C76_linear`, `C76_bounds`, `C76_catalog`, `C76_data`, `C76_sorted_names`, `C76_operator`, `C76_operator_errors`, `C76_sums`, `C76_sums_returns`, `C76_joint_fit`, `C76_null_error`, `C76_igm_bands`, `C76_unreached`, `C76_fast_first`, `C76_fast_next`, `C76_all_bands_reached_refuted`, `C76_model_photometry`, `C76_constant`, `C76_constant_returns`, `C76_phot_constant_refuted`. All but two clauses, for the rebinned templates given (the rebinning is not modelled) and exact arithmetic. Refuted: when every band begins below Lyman alpha the shortcut counts each point twice from the second igm index on; the constant of the likelihood with photometry is too large by twice the sum of the logarithms of the errors of the points. An empty band is undefined behaviour.

### C77 The redshift PDF can be resampled, made regular and extended without changing its values

*Modelled:* RedshiftLibrary/src/lib/operator/logZPdfResult.cpp: CLogZPdfResult::CLogZPdfResult, interpolateOnGrid, convertToRegular, extrapolate_on_right_border; RedshiftLibrary/RedshiftLibrary/operator/logZPdfResult.i: CLogZPdfResult::isRegular; pylibamazed/python/pylibamazed/PdfHandler.py: PdfHandler.convertToRegular

*Proof:* The object as a record, the GSL binary search with its cached interval and the loop over the target grid; invariant: the cache is a valid interval; the grids of C06 and C36; the read past the end of a vector is a parameter (undefined behaviour, or the value an implementation gives).

*Status:* partial — theorems: `C77_construct`, `C77_linear_grid`, `C77_constructed`, `C77_parameters_given_back`, `C77_resampling`, `C77_nan_neighbours`, `C77_through_the_samples`, `C77_no_overshoot`, `C77_not_interpolable`, `C77_regular_unchanged`, `C77_coarse_conversion`, `C77_fine_conversion_refuted`, `C77_fine_conversion_partial`, `C77_different_steps_rejected`, `C77_no_nan`, `C77_extension_keeps_the_pdf`, `C77_no_extension`, `C77_handler_partial`, `C77_nan_at_the_border_refuted`. Resampling, coarse conversion, rejection and extension (linear sampling) proved. Refuted: the default (fine) conversion of an irregular PDF reads the second step after the vector was cut to one element (undefined behaviour); what is meant is proved for an implementation that returns the old value. Refuted: a coarse grid that stops short of the end of its range gives NaN at the right border after the fine conversion.

### C78 The table of line-model results stays aligned with its redshift grid through both passes

*Modelled:* RedshiftLibrary/src/lib/operator/linemodelresult.cpp: CLineModelResult::Init, updateVectors, SetChisquareTplContinuumResult, SetChisquareTplratioResult, getChisquareTplContinuumResult, getChisquareTplratioResult, getScaleMargCorrTplratioResult, getHaELPresentTplratioResult; RedshiftLibrary/src/lib/operator/linemodel.cpp: COperatorLineModel::ComputeFirstPass, updateRedshiftGridAndResults, RecomputeAroundCandidates; RedshiftLibrary/src/lib/common/zgridparam.cpp: CZGridListParams::insertSubgrid

*Proof:* The result object as a record of vectors; rows as a separate record and a relation between the two; the fit is an oracle indexed by the call; induction over the redshifts and over the windows, with the insertion of C36.

*Status:* partial — theorems: `C78_init`, `C78_init_priors`, `C78_store`, `C78_ratio_sizes`, `C78_grid_update`, `C78_first_pass`, `C78_two_passes`, `C78_no_candidate`, `C78_getters`, `C78_getters_past_the_end`, `C78_continuum_merits_kept_refuted`, `C78_continuum_merits_lost`, `C78_overlapping_windows_refuted`, `C78_reinit_refuted`. Init, store, insertion, first pass, both passes, getters and size errors proved. Refuted: windows that overlap make the second pass fail; the merits of the continuum templates are not kept from the first pass as the comment says but are DBL_MAX in the windows (proved); Init again without template ratios leaves the previous H-alpha flags, whose reading is then past the end of a vector.

### C79 The models given to the redshift PDF are all combinations of line ratio and continuum, with consistent priors

*Modelled:* RedshiftLibrary/src/lib/method/linemodelsolve.cpp: CLineModelSolve::BuildChisquareArray, fillChisquareArrayForTplRatio, BuildZpriors, GetZpriorsOptions; RedshiftLibrary/src/lib/operator/linemodelresult.cpp: CLineModelResult::getNLinesOverCutThreshold, getStrongLinesPresence, getStrongestLineIsHa, getMinChiSquare, getMaxChiSquare; RedshiftLibrary/src/lib/linemodel/linemodelsolution.cpp: CLineModelSolution::isLineValid

*Proof:* The loops with their push_back on a state of three vectors; the table of C78 as input; closed form of the state after each loop, positions of the models, sum of the priors; the prior functions of C49.

*Status:* proved — theorems: `C79_lines_above_cut`, `C79_strong_lines`, `C79_halpha_strongest`, `C79_extreme_merits`, `C79_redshift_prior`, `C79_array`, `C79_positions`, `C79_prior_total`, `C79_best_chi2`, `C79_bad_combination`, `C79_flat_merits`, `C79_second_pass_flat`. Merits are rationals or NaN (no infinite merit). zstep, zgridParams and parentCandidates are copied and not modelled; the prior on the number of lines is disabled in the code (factor -1). Proved consequence: with the continuum merits lost by the second pass (C78), every continuum counts as the best one inside the windows.

### C80 The FFT cross-correlations of the logarithmic template fitting are the direct sums

*Modelled:* RedshiftLibrary/src/lib/operator/templatefittinglog.cpp: COperatorTemplateFittingLog::EstimateXtY, EstimateMtMFast, InitFFT, freeFFTPrecomputedBuffers

*Proof:* Transforms written in the reals with cos and sin as documented by FFTW (half spectrum, rest of the buffer arbitrary); orthogonality of the cosines by telescoping, convolution theorem for even and odd sizes, padding and reversal; invariant on the cached transforms over a sequence of calls.

*Status:* proved — theorems: `C80_fft_correlation_exact`, `C80_fft_calls_exact`, `C80_fft_slot_keeps_first`, `C80_fft_slot_reuse_refuted`, `C80_running_sum_refuted`, `C80_running_sum_value`. Real arithmetic. FFTW is modelled by its documented r2c/c2r transforms, not its code. Refuted parts: a slot reused with another vector without re-initialisation answers for the first one; EstimateMtMFast (unused in the library) is off by one sample.

### C81 The logarithmic template fit gives the least-squares fit at every redshift

*Modelled:* RedshiftLibrary/src/lib/operator/templatefittinglog.cpp: COperatorTemplateFittingLog::FitAllz, FitRangez, FindTplSpectralIndex; RedshiftLibrary/src/lib/operator/templatefittingBase.cpp: COperatorTemplateFittingBase::applyPositiveAndNonNullConstraint

*Proof:* FitRangez, FindTplSpectralIndex and FitAllz in the reals over the FFT model of C80; correlations replaced by weighted dot products, the nested igm/dust loops by a first-best over their product, reversal and index arithmetic on exponential grids; induction on the chain of ranges.

*Status:* proved — theorems: `C81_range_fit`, `C81_template_indices`, `C81_template_indices_nearest`, `C81_full_grid`, `C81_full_grid_total`, `C81_least_squares_optimal`, `C81_merit_below_null`, `C81_prior_amplitude_optimal`, `C81_prior_after_choice_refuted`, `C81_same_as_direct_refuted`. Real arithmetic, one spectrum; the corrected template is a function argument (C57, C59, C60). Ranges: C82. Refuted parts: choice of the indices before the prior; priors not used as in the direct method.

### C82 The redshift grid is split where the intergalactic correction changes

*Modelled:* RedshiftLibrary/src/lib/operator/templatefittinglog.cpp: COperatorTemplateFittingLog::FindZRanges; RedshiftLibrary/src/lib/operator/templatefittingBase.cpp: COperatorTemplateFittingBase::GetIGMStartingRedshiftValue

*Proof:* FindZRanges over rationals with the binary search of C06; the splits are the grid cells of the increasing list of thresholds; induction on the splits for coverage, non-empty chain and separation; the igm index of C59 is constant in a range; composition with the fit of C81 for the empty range.

*Status:* proved — theorems: `C82_every_redshift_once`, `C82_without_igm`, `C82_ranges_not_empty`, `C82_no_change_inside`, `C82_split_only_at_changes`, `C82_one_side`, `C82_same_table`, `C82_boundary_redshift_refuted`, `C82_empty_range_refuted`, `C82_fit_of_empty_range_refuted`. Exact rationals. Refuted parts: redshift on a bin boundary; empty range when two boundaries fall in one grid cell, undefined behaviour of the fit on it.

### C83 The classification gives normalised probabilities and the first most probable category

*Modelled:* RedshiftLibrary/src/lib/method/classificationsolve.cpp: CClassificationSolve::compute

*Proof:* compute over reals extended with infinities and NaN; induction on the categories for the first maximum and for the sum of exponentials.

*Status:* proved — theorems: `C83_probabilities`, `C83_evidences`, `C83_no_evidence`, `C83_order_free`, `C83_shift_free`, `C83_NaN_refuted`. Real arithmetic with special values; underflow of exp not modelled. Refuted part: NaN evidence.

### C84 A combination of templates is fitted to the usable samples, and the best dust and igm are returned

*Modelled:* RedshiftLibrary/src/lib/operator/tplcombination.cpp: COperatorTplcombination::BasicFit; RedshiftLibrary/src/lib/operator/tplcombination.cpp: COperatorTplcombination::RebinTemplate; RedshiftLibrary/src/lib/operator/tplcombination.cpp: COperatorTplcombination::Compute; RedshiftLibrary/src/lib/operator/tplcombination.cpp: COperatorTplcombination::ComputeSpectrumModel; RedshiftLibrary/src/lib/method/tplcombinationsolve.cpp: CTplCombinationSolve::Solve; RedshiftLibrary/src/lib/method/tplcombinationsolve.cpp: CTplCombinationSolve::checkTemplates

*Proof:* BasicFit, RebinTemplate, Compute, ComputeSpectrumModel over rationals, reusing the interpolation of C23, the dust and igm of C57, C59, C60; GSL's weighted linear fit is a parameter constrained by its documented result, with a solver meeting the contract; induction on the igm and dust loops for the first minimum and the stale last fit; counting for the share of samples covered.

*Status:* proved — theorems: `C84_solver_exists`, `C84_fit`, `C84_amplitudes`, `C84_amplitudes_refuted`, `C84_covariance_refuted`, `C84_common_wavelengths_refuted`, `C84_succeeds`, `C84_needs`, `C84_one_template_refuted`, `C84_model`, `C84_model_wavelengths_refuted`, `C84_redshifts`, `C84_clamped_range`, `C84_component`, `C84_components_refuted`, `C84_templates`. Exact rationals; GSL's fit by its contract (a minimum, its sum of squares, inverse normal matrix), shown inhabited. Refuted parts: amplitudes and covariance of the last fit, covariance scale, disjoint templates, single template, wavelengths of the model, dust of the continuum component.

### C85 The template fitting method reports, for each candidate, the template of least chi square

*Modelled:* RedshiftLibrary/src/lib/method/templatefittingsolve.cpp: CTemplateFittingSolve::compute; RedshiftLibrary/src/lib/method/templatefittingsolve.cpp: CTemplateFittingSolve::Solve; RedshiftLibrary/src/lib/method/templatefittingsolve.cpp: CTemplateFittingSolve::BuildChisquareArray; RedshiftLibrary/src/lib/method/templatefittingsolve.cpp: CTemplateFittingSolve::buildExtremaResults

*Proof:* A state machine (types, sampling, results by component) with the operator, the pdf and the model of a template as given functions; induction on the components and on the templates for the results and the restored types; on the result map for the first least chi square; on the table for the columns.

*Status:* proved — theorems: `C85_method`, `C85_succeeds`, `C85_components`, `C85_components_refuted`, `C85_failure_refuted`, `C85_off_grid_refuted`, `C85_no_merit_refuted`, `C85_constants`, `C85_constants_refuted`. The operators, the pdf and the model spectrum are parameters (C64, C76, C81, C35, C49). Refuted parts: noContinuum refused, state after a failure, candidate off the grid or without merit, constant -1.

### C86 Fitting the line model at a redshift keeps the best pair of continuum and line ratio, and leaves the object in the state of that fit

*Modelled:* RedshiftLibrary/src/lib/linemodel/linemodelfitting.cpp: CLineModelFitting::fit; RedshiftLibrary/src/lib/linemodel/tplratiomanager.cpp: CTplratioManager::computeMerit; RedshiftLibrary/src/lib/linemodel/tplratiomanager.cpp: CTplratioManager::updateTplratioResults; RedshiftLibrary/src/lib/linemodel/tplratiomanager.cpp: CTplratioManager::resetToBestRatio; RedshiftLibrary/src/lib/linemodel/lineratiomanager.cpp: CLineRatioManager::getLeastSquareMerit; RedshiftLibrary/src/lib/linemodel/rulesmanager.cpp: CRulesManager::computeMerit; RedshiftLibrary/src/lib/linemodel/continuummanager.cpp: CContinuumManager::LoadFitContinuum; RedshiftLibrary/RedshiftLibrary/linemodel/elementparam.h: TLineModelElementParam

*Proof:* The loops as folds over candidates and ratios with the fitter, the rules, the Lya profiles and the model spectrum as given functions; the list of the fits made is a ghost of the proofs; invariant: best = first least of the list, entry r = first least of the part of ratio r; saving then restoring an element is the identity when the amplitude is positive and under the limit. Witnesses by computation for the refuted parts.

*Status:* proved — theorems: `C86_least_merit`, `C86_pairs`, `C86_no_finite_merit`, `C86_table`, `C86_best_restored`, `C86_rules_last`, `C86_chi_square`, `C86_last_sample_refuted`, `C86_prior_ignored_refuted`, `C86_prior_mixed_refuted`, `C86_rules_mixed_refuted`, `C86_svdlc_mixed_refuted`, `C86_limit_refuted`, `C86_stale_refuted`. tplCorr is not modelled. The fitters, rules and model spectra are parameters (C66-C70). The refuted parts have their own theorems.

### C87 Candidates handed from the first to the second pass keep their redshift, and combining two first passes loses no redshift

*Modelled:* RedshiftLibrary/src/lib/operator/linemodelpassextremaresult.cpp: CLineModelPassExtremaResult; RedshiftLibrary/src/lib/operator/linemodel.cpp: COperatorLineModel::SetFirstPassCandidates; RedshiftLibrary/src/lib/operator/linemodel.cpp: COperatorLineModel::Combine_firstpass_candidates; RedshiftLibrary/src/lib/operator/linemodel.cpp: COperatorLineModel::buildFirstPassExtremaResults; RedshiftLibrary/src/lib/operator/linemodel.cpp: COperatorLineModel::SpanRedshiftWindow; RedshiftLibrary/src/lib/operator/linemodel.cpp: COperatorLineModel::buildExtendedRedshifts; RedshiftLibrary/src/lib/operator/linemodel.cpp: COperatorLineModel::getSPZGridParams; RedshiftLibrary/src/lib/linemodel/linemodelextremaresult.cpp: TLineModelResult

*Proof:* Arrays of the pass object as lists, null pointers as None; each loop is proved equal to a map over rows; kept indices characterised by membership and order; windows from the linear and logarithmic grids of C08 with an explicit count of the steps, unique, which gives the rebuilt grid.

*Status:* proved — theorems: `C87_set`, `C87_set_off_grid`, `C87_set_forgets`, `C87_combine`, `C87_combine_fails`, `C87_combine_covers`, `C87_combine_twice`, `C87_close_candidates_refuted`, `C87_other_continuum_refuted`, `C87_report`, `C87_report_agrees`, `C87_report_velocity_refuted`, `C87_window_linear`, `C87_windows`, `C87_window_log`. linear windows over exact rationals, logarithmic ones over the reals; the rebuilt grid is proved for linear sampling only. The refuted parts have their own theorems.

### C88 The velocities and the fits of the second pass: first least merit over the absorption then the emission velocities, each window fitted with the velocities of its candidate

*Modelled:* RedshiftLibrary/src/lib/operator/linemodel.cpp: COperatorLineModel::EstimateSecondPassParameters; RedshiftLibrary/src/lib/operator/linemodel.cpp: COperatorLineModel::fitVelocity; RedshiftLibrary/src/lib/operator/linemodel.cpp: COperatorLineModel::RecomputeAroundCandidates; RedshiftLibrary/src/lib/linemodel/linemodelfitting.cpp: CLineModelFitting::SetVelocityEmission

*Proof:* The fit (C86) is an arbitrary function of the redshift, the velocities and the setup; the two nested loops are proved equal to the first least over the list of pairs; the candidate loop by induction with the chain of velocities; the windows by induction with the last window containing a sample.

*Status:* partial — theorems: `C88_velocities`, `C88_largest_tested_refuted`, `C88_nothing_tested`, `C88_no_step_refuted`, `C88_redshifts`, `C88_pairs`, `C88_two_scans`, `C88_second_scan_improves`, `C88_all_candidates`, `C88_on_grid`, `C88_without_fit`, `C88_candidate_off_grid`, `C88_window_off_grid`, `C88_windows`, `C88_no_candidate`, `C88_window_point_off_grid`, `C88_best_pair_refuted`, `C88_independent_candidates_refuted`, `C88_chi_square_of_the_candidate_refuted`, `C88_velocities_restored_refuted`. the theorems on several candidates assume that the fitter of the user leaves the velocities alone (all but lbfgsb); velocity groups are a constant-false branch and are left out. The refuted parts have their own theorems.

### C89 The continuum templates fitted before each pass: every template at every redshift, ranked, and the continuum decided from the most significant best fit

*Modelled:* RedshiftLibrary/src/lib/operator/linemodel.cpp: COperatorLineModel::PrecomputeContinuumFit; RedshiftLibrary/src/lib/operator/linemodel.cpp: COperatorLineModel::evaluateContinuumAmplitude; RedshiftLibrary/src/lib/operator/linemodel.cpp: COperatorLineModel::fitContinuumTemplates; RedshiftLibrary/src/lib/operator/linemodel.cpp: COperatorLineModel::getContinuumInfoFromFirstpassFitStore; RedshiftLibrary/src/lib/operator/linemodel.cpp: COperatorLineModel::makeTFOperator; RedshiftLibrary/src/lib/operator/linemodel.cpp: COperatorLineModel::isfftprocessingActive; RedshiftLibrary/src/lib/operator/linemodel.cpp: COperatorLineModel::ComputeSecondPass

*Proof:* The results of the operators are an arbitrary function of the request and the redshift index; the store is the one of C42: after all the insertions the list at each redshift is a ranked permutation of the fits there; the decision by cases on the two thresholds; the second pass by induction on the candidates, the component being kept.

*Status:* partial — theorems: `C89_fft`, `C89_operator_history`, `C89_first_pass`, `C89_first_pass_without_templates`, `C89_fit_and_decision`, `C89_too_few_templates`, `C89_snr`, `C89_refit`, `C89_refit_out_of_range`, `C89_refit_below_grid`, `C89_second_pass`, `C89_second_pass_unknown`, `C89_negative_continuum_second_pass_refuted`, `C89_empty_redshifts_refuted`, `C89_no_template_refuted`. the significances are numbers (a NaN amplitude, given by an operator without data, is not covered). The refuted parts have their own theorems.

### C90 The profiles of Lya and of the lines absorbed by the intergalactic medium: taken from the catalogue, fitted, and the same whatever redshifts came before

*Modelled:* RedshiftLibrary/src/lib/linemodel/lineratiomanager.cpp: CLineRatioManager::setLyaProfile; RedshiftLibrary/src/lib/linemodel/lineratiomanager.cpp: CLineRatioManager::setAsymProfile; RedshiftLibrary/src/lib/linemodel/lineratiomanager.cpp: CLineRatioManager::setSymIgmProfile; RedshiftLibrary/src/lib/linemodel/lineratiomanager.cpp: CLineRatioManager::setPassMode; RedshiftLibrary/src/lib/linemodel/abstractfitter.cpp: CAbstractFitter::fitLyaProfile; RedshiftLibrary/src/lib/linemodel/abstractfitter.cpp: CAbstractFitter::fitAsymParameters; RedshiftLibrary/src/lib/linemodel/abstractfitter.cpp: CAbstractFitter::fitAsymIGMCorrection; RedshiftLibrary/src/lib/linemodel/lmeltlistvector.cpp: CLMEltListVector::getIgmLinesIndices; RedshiftLibrary/RedshiftLibrary/linemodel/elementparam.h: TLineModelElementParam; RedshiftLibrary/src/lib/line/lineprofileASYM.cpp: CLineProfileASYM; RedshiftLibrary/src/lib/line/lineprofileASYMFIT.cpp: CLineProfileASYMFIT; RedshiftLibrary/src/lib/line/lineprofileSYMIGM.cpp: CLineProfileSYMIGM

*Proof:* The amplitude fit and the residual are arbitrary functions of the profiles. Each update is a map over the lines of the elements; the two searches are scans for the first least merit; the independence of the history because each visit leaves a state which differs from the first one only by what the next visit overwrites.

*Status:* partial — theorems: `C90_registered`, `C90_set`, `C90_catalogue_missing`, `C90_catalogue_lookup`, `C90_no_line`, `C90_set_keeps`, `C90_first_pass`, `C90_second_pass`, `C90_third_pass`, `C90_conversion`, `C90_support`, `C90_reset`, `C90_grid`, `C90_null_step`, `C90_fit`, `C90_fit_no_line`, `C90_history`, `C90_visit_state`, `C90_visits`, `C90_only_first_asymmetric_line_refuted`, `C90_symmetric_catalogue_sticks_refuted`, `C90_grid_inside_limits_refuted`, `C90_fitted_inside_limits_refuted`. the amplitudes and residuals are functions of the profiles only (they do not depend on the amplitudes left by previous fits). The refuted parts have their own theorems.

### C91 The lines of a catalogue become elements, and what is reported for each line is what was fitted, also after it was loaded again

*Modelled:* RedshiftLibrary/src/lib/linemodel/lmeltlistvector.cpp: CLMEltListVector::LoadCatalog; RedshiftLibrary/src/lib/linemodel/lmeltlistvector.cpp: CLMEltListVector::findElementIndex; RedshiftLibrary/src/lib/linemodel/lmeltlistvector.cpp: CLMEltListVector::GetModelNonZeroElementsNDdl; RedshiftLibrary/src/lib/line/catalog.cpp: CLineCatalogBase::ConvertToGroupList; RedshiftLibrary/src/lib/linemodel/elementparam.cpp: TLineModelElementParam::TLineModelElementParam; RedshiftLibrary/src/lib/linemodel/linemodelsolution.cpp: CLineModelSolution; RedshiftLibrary/src/lib/linemodel/linemodelfitting.cpp: CLineModelFitting::GetModelSolution; RedshiftLibrary/src/lib/linemodel/linemodelfitting.cpp: CLineModelFitting::LoadModelSolution; RedshiftLibrary/src/lib/linemodel/linemodelfitting.cpp: CLineModelFitting::getFluxDirectIntegration

*Proof:* The functions which measure a spectrum are arbitrary. The partition is a permutation of the catalogue; one row is a case analysis, the rows and the two accumulators an induction on the catalogue; the load an induction on the rows with the cells written so far as invariant; both are composed for the round trip.

*Status:* partial — theorems: `C91_elements`, `C91_find`, `C91_groups`, `C91_two_elements`, `C91_one_line`, `C91_solution`, `C91_solution_throws`, `C91_solution_no_element`, `C91_flux_signs`, `C91_direct_error`, `C91_round_trip`, `C91_load_profiles`, `C91_reread`, `C91_quotient`, `C91_complex_names`, `C91_group_of_one_type_refuted`, `C91_ungrouped_line_alone_refuted`, `C91_velocities_reread_refuted`, `C91_polynomial_restored_refuted`, `C91_null_flux_error_refuted`, `C91_complex_of_all_lines_refuted`. rounding is not modelled; the supports recomputed at the end of a load are not. The refuted parts have their own theorems.

### C92 The statistics of the whole line model are those of the samples of the fitted range

*Modelled:* RedshiftLibrary/src/lib/linemodel/linemodelfitting.cpp: CLineModelFitting::getOutsideLinesMask; RedshiftLibrary/src/lib/linemodel/linemodelfitting.cpp: CLineModelFitting::getOutsideLinesSTD; RedshiftLibrary/src/lib/linemodel/linemodelfitting.cpp: CLineModelFitting::getLeastSquareContinuumMerit; RedshiftLibrary/src/lib/linemodel/linemodelfitting.cpp: CLineModelFitting::getLeastSquareContinuumMeritFast; RedshiftLibrary/src/lib/linemodel/linemodelfitting.cpp: CLineModelFitting::computeSpcNSamples; RedshiftLibrary/src/lib/linemodel/linemodelfitting.cpp: CLineModelFitting::getCumulSNRStrongEL; RedshiftLibrary/src/lib/linemodel/linemodelfitting.cpp: CLineModelFitting::getSNROnRange; RedshiftLibrary/src/lib/linemodel/linemodelfitting.cpp: CLineModelFitting::initDtd; RedshiftLibrary/src/lib/linemodel/linemodelfitting.cpp: CLineModelFitting::getDTransposeD; RedshiftLibrary/src/lib/linemodel/linemodelfitting.cpp: CLineModelFitting::EstimateDTransposeD; RedshiftLibrary/src/lib/linemodel/linemodelfitting.cpp: CLineModelFitting::EstimateMTransposeM; RedshiftLibrary/src/lib/linemodel/linemodelfitting.cpp: CLineModelFitting::EstimateLikelihoodCstLog

*Proof:* Exact sums over a filtered list of samples, shown equal to the window between the two indexes; log, sqrt and log(2 pi) are arbitrary; the cache is an automaton over any sequence of calls; the merge of the supports an induction on the list.

*Status:* partial — theorems: `C92_mask`, `C92_std`, `C92_std_argument`, `C92_continuum_merit`, `C92_dtd`, `C92_mtm`, `C92_samples`, `C92_fast_merit_partial`, `C92_fast_merit_other`, `C92_likelihood`, `C92_likelihood_throws`, `C92_one_sample_more`, `C92_cache_fresh`, `C92_cache_forced`, `C92_cache_component`, `C92_merge`, `C92_merge_sorted`, `C92_merge_apart`, `C92_lines_counted`, `C92_range_snr`, `C92_snr`, `C92_ratio`, `C92_snr_no_line`, `C92_snr_no_strong_line`, `C92_fast_merit_refuted`, `C92_samples_in_range_refuted`, `C92_samples_reversed_refuted`, `C92_cache_refuted`, `C92_merge_chain_refuted`, `C92_merge_touching_refuted`, `C92_snr_one_sample_refuted`. rounding is not modelled; the quick merit needs sums over the same samples, which the template fit does not use. The refuted parts have their own theorems.

### C93 The redshifts tried by the solvers are the documented grids, and the second first pass changes nothing

*Modelled:* RedshiftLibrary/src/lib/method/objectSolve.cpp: CObjectSolve; RedshiftLibrary/src/lib/method/linemodelsolve.cpp: CLineModelSolve::Solve; RedshiftLibrary/src/lib/method/linemodelsolve.cpp: CLineModelSolve::createRedshiftGrid; RedshiftLibrary/src/lib/method/linemeassolve.cpp: CLineMeasSolve::GetRedshiftSampling; RedshiftLibrary/src/lib/common/zgridparam.cpp: CZGridParam::getZGrid; RedshiftLibrary/src/lib/operator/linemodel.cpp: COperatorLineModel::AllAmplitudesAreZero; RedshiftLibrary/src/lib/operator/linemodel.cpp: COperatorLineModel::isfftprocessingActive; RedshiftLibrary/src/lib/operator/linemodel.cpp: COperatorLineModel::ComputeFirstPass

*Proof:* The range builders of C03/C07 composed; the samples as Qmin / Rmin of a step and the end; coarse grid in the fine one by indices k*i; the first passes from the theorems of C87.

*Status:* partial — theorems: `C93_linear_grid`, `C93_linear_line_model`, `C93_linear_measurement`, `C93_sampling_rebinned`, `C93_sampling_plain`, `C93_fft`, `C93_null_model`, `C93_not_null`, `C93_second_pass_enabled`, `C93_second_pass_disabled`, `C93_second_pass_useless`, `C93_log_grid`, `C93_log_line_model`, `C93_log_measurement`, `C93_second_pass_refuted`, `C93_null_model_refuted`, `C93_coarse_refuted`, `C93_measurement_negative_refuted`. rounding of the steps is not modelled. The refuted parts have their own theorems.

### C94 The L-BFGS-B fit of a group of overlapping elements stays within its bounds and minimises the squared residuals

*Modelled:* RedshiftLibrary/src/lib/linemodel/gaussianfit/lbfgsbfitter.cpp: CLbfgsbFitter::fitAmplitudesLinSolvePositive; RedshiftLibrary/src/lib/linemodel/gaussianfit/lbfgsbfitter.cpp: CLeastSquare::unpack; RedshiftLibrary/src/lib/linemodel/gaussianfit/lbfgsbfitter.cpp: CLeastSquare::ComputeLeastSquare; RedshiftLibrary/src/lib/linemodel/gaussianfit/lbfgsbfitter.cpp: CLbfgsbFitter::resetSupport; RedshiftLibrary/RedshiftLibrary/linemodel/elementparam.h: TLineModelElementParam::setAmplitudes; RedshiftLibrary/src/lib/linemodel/element.cpp: CLineModelElement::getModelAtLambda; RedshiftLibrary/src/lib/linemodel/element.cpp: CLineModelElement::GetElementAmplitude; RedshiftLibrary/src/lib/common/polynom.cpp: CPolynomCoeffsNormalized

*Proof:* The parameter vector built piece by piece with uninitialised cells; the minimiser as any strategy of evaluate / return / fail; what each stage leaves in an element as relations between groups; the objective by induction over lines, elements, samples; history independence by erasing the fields an evaluation overwrites.

*Status:* partial — theorems: `C94_parameters`, `C94_unpacked`, `C94_result`, `C94_no_undefined_behaviour`, `C94_too_few_samples`, `C94_velocities`, `C94_offsets`, `C94_amplitudes`, `C94_errors`, `C94_polynomial`, `C94_low_snr`, `C94_library_failure`, `C94_objective`, `C94_history_free`, `C94_guess_defined`, `C94_irregular`, `C94_absorption_scale`, `C94_polynomial_units`, `C94_polynomial_centred`, `C94_irregular_refuted`, `C94_order_refuted`, `C94_errors_refuted`, `C94_history_refuted`, `C94_offset_flag_refuted`, `C94_velocity_ill_refuted`, `C94_absorption_bound_refuted`. rounding is not modelled; LBFGSpp is any strategy of evaluations (the finite differences of the gradient are evaluations; ComputeLeastSquareAndGrad is never called and is not modelled). The refuted parts have their own theorems.

### C95 A failed step of the processing of a spectrum does not disturb the others, is reported where the user looks for it, and leaves the scope clean

*Modelled:* pylibamazed/python/pylibamazed/ProcessFlow.py: ProcessFlow.run; pylibamazed/python/pylibamazed/ProcessFlow.py: ProcessFlow.process_spectrum_model; pylibamazed/python/pylibamazed/ProcessFlow.py: ProcessFlow.all_redshift_solver_failed; pylibamazed/python/pylibamazed/ScopeManager.py: push_scope; pylibamazed/python/pylibamazed/ResultStoreOutput.py: ResultStoreOutput.store_error; pylibamazed/python/pylibamazed/AbstractOutput.py: spectrum_model_stages; pylibamazed/python/pylibamazed/Parameters.py: Parameters.stage_enabled

*Proof:* Python exceptions as results of state transformers; every external call is an event with its scope and an arbitrary outcome depending on the history. The scope by induction on the flow; one model's calls as a relation over its trace; the errors by a frame argument: a model writes only keys which end with its name, and the keys of distinct models and stages are distinct.

*Status:* partial — theorems: `C95_scope_restored`, `C95_session_scope`, `C95_interruption`, `C95_calls`, `C95_errors_of_calls`, `C95_errors_without_call`, `C95_root_errors`, `C95_init_errors`, `C95_classification_refuted`, `C95_silent_skip_refuted`, `C95_load_stage_init_refuted`, `C95_load_stage_refuted`, `C95_reserved_name_refuted`. calibration, reader, solvers, store and pandas are arbitrary outcomes; the message, line and file of an error are not modelled. The refuted parts have their own theorems.

### C96 The spectra given to the library are exactly the samples of the client which pass the filters

*Modelled:* pylibamazed/python/pylibamazed/AbstractSpectrumReader.py: AbstractSpectrumReader.init; pylibamazed/python/pylibamazed/AbstractSpectrumReader.py: AbstractSpectrumReader._add_cspectra; pylibamazed/python/pylibamazed/Filter.py: SpectrumFilterItem; pylibamazed/python/pylibamazed/Filter.py: FilterList.apply; pylibamazed/python/pylibamazed/FilterLoader.py: ParamJsonFilterLoader; pylibamazed/python/pylibamazed/ASCIISpectrumReader.py: ASCIISpectrumReader.load_wave; pylibamazed/python/pylibamazed/ParametersAccessor.py: ParametersAccessor.get_airvacuum_method; pylibamazed/python/pylibamazed/Parameters.py: Parameters.get_lambda_range_min

*Proof:* Python dictionaries as association lists, pandas tables as columns of rationals, NaN or integers, exceptions as results. The filters: a mask decides a predicate on rows, by composition; the merge by induction on the runs of equal wavelengths of the sorted list, for an arbitrary sorting algorithm; acceptance step by step.

*Status:* partial — theorems: `C96_coherent`, `C96_mono`, `C96_full`, `C96_merge`, `C96_merge_accepts`, `C96_filter`, `C96_keys`, `C96_conversion`, `C96_range_warning`, `C96_accepted`, `C96_empty_spectrum_refuted`, `C96_range_warning_refuted`, `C96_checked_keys_refuted`, `C96_refused_keys_refuted`, `C96_instructions_refuted`, `C96_flag_absent_refuted`, `C96_method_version_2_refuted`, `C96_method_version_2`, `C96_method_version_1`, `C96_ascii_names`, `C96_ascii_replaced`, `C96_ascii_observations_refuted`, `C96_range_min`, `C96_range_max`, `C96_column_name_refuted`. wavelengths and fluxes are exact rationals, so the shift of 1e-10 is not lost to rounding as it can be in the code; the line spread function, the photometry and the quality of the samples are outside this model. The refuted parts have their own theorems.

### C97 The parameters of the client keep their meaning when they are converted to the names read by the library

*Modelled:* pylibamazed/python/pylibamazed/ParametersConverter.py: ParametersConverterV1.convert; pylibamazed/python/pylibamazed/ParametersConverter.py: ParametersConverterV2.convert; pylibamazed/python/pylibamazed/ParametersAccessor.py: ParametersAccessor.get_linemeas_method; pylibamazed/auxdir/pylibamazed/rename_params_v1_to_treed.csv; pylibamazed/auxdir/pylibamazed/jsonschema-v2/spectrum_model.json; pylibamazed/auxdir/pylibamazed/jsonschema-v2/linemeas_solver.json; pylibamazed/auxdir/pylibamazed/jsonschema-v2/lya_fit.json; pylibamazed/auxdir/pylibamazed/jsonschema-v2/line_model_priors.json; pylibamazed/auxdir/pylibamazed/jsonschema-v2/lsf.json

*Proof:* JSON trees as an inductive type with association lists; the table of the names copied from the CSV file and checked pairwise by computation in the kernel; the renaming by induction on the size of the tree; the three updates of a section by equations on look-ups, then lifted to the list of models by induction; version 2 by an invariant of the loop over the keys; the refuted parts by the lists of names of the schemas.

*Status:* partial — theorems: `C97_table`, `C97_no_merge`, `C97_tree`, `C97_v1`, `C97_v1_sections`, `C97_v1_sections_distinct`, `C97_v1_names`, `C97_v1_all_names`, `C97_v2`, `C97_v2_section`, `C97_v2_from`, `C97_v1_strings_refuted`, `C97_v2_linemeas_refuted`, `C97_v2_linemeas_never`, `C97_v2_lsf_refuted`, `C97_v2_all_names_refuted`, `C97_v2_priors_refuted`, `C97_v2_asym_refuted`, `C97_v2_collision_refuted`. the textual replacement is modelled on the strings of the tree (strings with quotation marks are outside); of the schemas only the lists of accepted names of the sections concerned are modelled. The refuted parts have their own theorems.

### C98 The defaults added to the parameters are complete and change nothing the client has to give

*Modelled:* pylibamazed/python/pylibamazed/ParametersExtender.py: ParametersExtender.extend; pylibamazed/python/pylibamazed/ParametersChecker.py: ParametersChecker.continuum_removal_presence_condition; pylibamazed/python/pylibamazed/ParametersChecker.py: ParametersChecker.useloglambdasampling_presence_condition; pylibamazed/python/pylibamazed/ParametersAccessor.py: ParametersAccessor._get_or_create_section

*Proof:* The tree of C97; reading and writing at a path with creation of the missing sections; the extension is shown to be a sequence of writings which are exactly the wanted ones; a value after the sequence is the one written by any writing that reaches its path, when all the writings of this path agree; acceptance by the invariant that the sections stay sections.

*Status:* partial — theorems: `C98_written`, `C98_untouched`, `C98_reestimation_kept`, `C98_loglambda_kept`, `C98_removal_kept`, `C98_catalog_removal_kept`, `C98_accepts`, `C98_client_values_refuted`, `C98_no_reestimation_refuted`. the shared Python object of the default section is modelled as a copy; names of spectrum models must be strings other than continuumRemoval and templateCatalog. The refuted parts have their own theorems.

### C99 The reliability is the probability of success of a network that matches the PDF

*Modelled:* pylibamazed/python/pylibamazed/Reliability.py: ReliabilitySolve.get_probas; pylibamazed/python/pylibamazed/PdfHandler.py: buildPdfParams; pylibamazed/python/pylibamazed/CalibrationLibrary.py: load_reliability_model; pylibamazed/python/pylibamazed/SubType.py: SubType.Compute

*Proof:* Real numbers; the network is an arbitrary function from lists to lists, the tests are modelled with the outcome of numpy for a division by zero, and shown to be inequalities without division; dictionaries of C96 for the report, the table and the catalogue; strings with the order of Python for the versions. Acceptance is an equivalence; the report an equivalence between an entry and a position.

*Status:* partial — theorems: `C99_network_used`, `C99_shape_rejected`, `C99_classes`, `C99_reliability`, `C99_reliability_total`, `C99_same_grid_refuted`, `C99_file`, `C99_version_digits`, `C99_version_refuted`, `C99_grid_parameters`, `C99_grid_parameters_total`, `C99_short_column_refuted`, `C99_sub_types`, `C99_sub_types_total`. real numbers instead of floating point ones; the conversion of the PDF before is C77. The refuted parts have their own theorems.
