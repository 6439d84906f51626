{"id": "C01", "title": "Intersecting two ranges is set intersection", "statement": "For two well-formed ranges, CRange::Intersect reports success exactly when some value lies in both, and on success the returned range contains a value exactly when both input ranges contain it; on failure the output range is not touched. HasIntersection agrees with Intersect.", "quantifier": "every pair of ranges with begin <= end, every sample value", "why_tests_cant": "a statement about all real bounds and all points of the range; tests sample a few literal ranges", "anchors": ["RedshiftLibrary/RedshiftLibrary/common/range.h: CRange::Intersect, CRange::HasIntersection"]}
{"id": "C02", "title": "Union of two overlapping ranges is exact", "statement": "CRange::getUnion succeeds exactly when the two ranges share a value, and then the result contains a value exactly when one of the inputs does; otherwise the output is untouched.", "quantifier": "every pair of ranges, every value", "why_tests_cant": "quantifies over all bounds and all points", "anchors": ["RedshiftLibrary/RedshiftLibrary/common/range.h: CRange::getUnion"]}
{"id": "C03", "title": "Joining a list of ranges keeps the coverage and yields disjoint increasing ranges", "statement": "CRange::joinIntersections returns ranges that are sorted, pairwise separated by a strict gap, and cover exactly the values covered by the input list, whatever the order, overlap or nesting of the inputs; an empty list is rejected with EMPTY_LIST.", "quantifier": "every finite list of well-formed ranges of any length", "why_tests_cant": "nesting/touching patterns are unbounded in number", "anchors": ["RedshiftLibrary/RedshiftLibrary/common/range.h: CRange::joinIntersections"]}
{"id": "C04", "title": "Closed-interval index lookup is exact", "statement": "On a strictly increasing grid getClosedIntervalIndices returns (iMin,iMax) such that a grid sample is inside the range exactly when its index is between iMin and iMax; otherwise it throws/returns false exactly when the grid is empty or no sample lies in the range.", "quantifier": "every increasing grid of any size and every range", "why_tests_cant": "the boundary cases depend on the relative position of both bounds and all grid points", "anchors": ["RedshiftLibrary/RedshiftLibrary/common/range.h: CRange::getClosedIntervalIndices"]}
{"id": "C05", "title": "Enclosing-interval index lookup brackets the range", "statement": "When getEnclosingIntervalIndices succeeds the sample at iMin is <= the range begin, the sample at iMax is >= the range end, and no tighter bracket exists; it fails exactly when the range is not covered by the grid.", "quantifier": "every sorted grid, every range, every value", "why_tests_cant": "all sizes and positions", "anchors": ["RedshiftLibrary/RedshiftLibrary/common/range.h: CRange::getEnclosingIntervalIndices"]}
{"id": "C06", "title": "Uniform grids spread over a range stay inside it with constant step", "statement": "SpreadOver(delta) starts at the range begin, has exactly floor(length/delta)+1 samples with step delta, stays inside the range and leaves less than one step uncovered; SpreadOver_backward is the mirror image ending exactly at the range end; SpreadOverEpsilon clamps only the extreme samples.", "quantifier": "every range, every positive step", "why_tests_cant": "count and containment for every length/step ratio", "anchors": ["RedshiftLibrary/RedshiftLibrary/common/range.h: CRange::SpreadOver, SpreadOver_backward, SpreadOverEpsilon"]}
{"id": "C07", "title": "Logarithmic grids have a constant ratio in (1+z) or wavelength", "statement": "SpreadOverLog(delta, offset) yields samples x_i with x_i + offset = (begin + offset) * exp(i*delta), starting at begin, strictly increasing, inside the range, and leaving less than one log-step uncovered.", "quantifier": "every range with positive shifted bounds and every positive step", "why_tests_cant": "real-analytic statement over all bounds and steps", "anchors": ["RedshiftLibrary/RedshiftLibrary/common/range.h: CRange::SpreadOverLog, SpreadOverLogZplusOne"]}
{"id": "C08", "title": "A centred window grid contains the centre and stays in the window", "statement": "spanCenteredWindow(center, logsampling, delta) yields a strictly increasing grid with constant step that lies in the range and contains the centre exactly once, for any centre inside the range.", "quantifier": "every range, centre, step", "why_tests_cant": "all positions of the centre relative to the bounds", "anchors": ["RedshiftLibrary/RedshiftLibrary/common/range.h: spanCenteredWindow"]}
{"id": "C09", "title": "Index lookups return the intended neighbour", "statement": "On a sorted non-empty vector: getCloserIndex returns the index of a sample at minimal distance; getClosestLowerIndex returns the largest index whose sample does not exceed the value and fails iff the value precedes the first sample; getClosestUpperIndex returns the smallest index whose sample is not below the value; getIndex returns the position of an equal sample or throws.", "quantifier": "every sorted vector, every value", "why_tests_cant": "all sizes, ties and positions", "anchors": ["RedshiftLibrary/RedshiftLibrary/common/indexing.h: CIndexing"]}
{"id": "C10", "title": "The median routine returns an order statistic", "statement": "CMedian::Find returns, for every number of samples, a value with at least half of the samples on each side; the result does not depend on the order of the samples; for odd sizes it is the middle order statistic.", "quantifier": "every non-empty vector of any size and order", "why_tests_cant": "all permutations of all sizes; sorting-network correctness is not testable by sampling", "anchors": ["RedshiftLibrary/RedshiftLibrary/common/median.hpp: CMedian::Find, Opt3Find, Opt5Find, Opt7Find, Opt9Find, BeersFind, FastFind"]}
{"id": "C11", "title": "Mask intersection and overlap fractions", "statement": "IntersectWith is the sample-wise AND of two masks and fails without effect on size mismatch; the overlap fraction lies in [0,1], equals masked-both / masked-self, is -1 on size mismatch and 0 for an empty self mask; counting agrees with the number of set samples.", "quantifier": "every pair of masks", "why_tests_cant": "all mask contents and sizes", "anchors": ["RedshiftLibrary/src/lib/common/mask.cpp: CMask"]}
{"id": "C12", "title": "The warning flag word is exactly the set of warnings raised since the last reset", "statement": "After any history of warning() and resetFlag() calls, bit k of the flag word is set exactly when a warning with code k was raised after the last reset, warnings never clear each other, and the message list holds exactly the messages raised since the list was last cleared, in order.", "quantifier": "every finite history of calls", "why_tests_cant": "history property", "anchors": ["RedshiftLibrary/src/lib/common/flag.cpp: CFlagWarning"]}
{"id": "C13", "title": "The scope stack stays well formed under any history", "statement": "After any sequence of push/pop calls, the stack holds at most one spectrum-model, one stage and one method, in that nesting order, with a method directly on top of a stage; a rejected push leaves the stack unchanged; the reported current type is the type of the top element.", "quantifier": "every finite sequence of push/pop", "why_tests_cant": "history property", "anchors": ["RedshiftLibrary/src/lib/processflow/scopestack.cpp: CScopeStack"]}
{"id": "C14", "title": "Scoped (RAII) pushes are balanced", "statement": "Any nesting of CAutoScope objects restores the scope stack exactly on exit, including when an inner scope construction throws.", "quantifier": "every tree of nested scopes, every throwing point", "why_tests_cant": "all nesting shapes and crash points", "anchors": ["RedshiftLibrary/RedshiftLibrary/processflow/autoscope.h: CAutoScope", "RedshiftLibrary/src/lib/processflow/autoscope.cpp"]}
{"id": "C15", "title": "Results are write-once and isolated per scope and name", "statement": "In the result store a lookup returns the value of the first successful store under exactly that scope and name; a second store under the same key is rejected with INTERNAL_ERROR and does not alter any stored result; storing never changes any other key, and global and per-template results do not interfere.", "quantifier": "every history of store/lookup/reset operations", "why_tests_cant": "history property over all key interleavings", "anchors": ["RedshiftLibrary/src/lib/processflow/resultstore.cpp: COperatorResultStore"]}
{"id": "C16", "title": "Scoped parameter lookup resolves to the current scope", "statement": "GetScoped reads exactly the parameter whose path is the current scope followed by the name; list lookups fall back to the unscoped name exactly when the scoped one is absent; feature queries (ISM/IGM/FFT/orthogonalisation) are true exactly when some spectrum model/stage asks for the feature.", "quantifier": "every parameter tree and scope", "why_tests_cant": "all parameter trees", "anchors": ["RedshiftLibrary/src/lib/processflow/parameterstore.cpp: CParameterStore", "RedshiftLibrary/RedshiftLibrary/processflow/parameterstore.h", "RedshiftLibrary/src/lib/processflow/scopestore.cpp"]}
{"id": "C17", "title": "Cached 'sorted' / 'log-sampled' verdicts of a spectral axis are never stale", "statement": "After any history of axis operations, isSorted()/IsLogSampled() answer what a fresh recomputation on the current samples would answer.", "quantifier": "every finite history of CSpectralAxis operations", "why_tests_cant": "history property; stale caches need particular sequences", "anchors": ["RedshiftLibrary/src/lib/spectrum/spectralaxis.cpp: CSpectralAxis"]}
{"id": "C18", "title": "Sub-sampling masks select every k-th sample of the range", "statement": "GetSubSamplingMask(k, range) marks exactly the indices end, end-k, end-2k, ... that are not below the range begin, and nothing else.", "quantifier": "every axis size, range and ratio", "why_tests_cant": "all sizes and ratios", "anchors": ["RedshiftLibrary/src/lib/spectrum/spectralaxis.cpp: CSpectralAxis::GetSubSamplingMask"]}
{"id": "C19", "title": "Masking an axis keeps exactly the masked-in samples in order", "statement": "CSpectrumAxis::maskVector / MaskAxis keeps exactly the samples whose mask is set, in their original order, rejects size mismatch, and keeps sorted axes sorted.", "quantifier": "every axis and mask", "why_tests_cant": "all contents and sizes", "anchors": ["RedshiftLibrary/src/lib/spectrum/axis.cpp: CSpectrumAxis::maskVector, MaskAxis"]}
{"id": "C20", "title": "Wavelength lookups on a spectral axis are consistent", "statement": "GetIndexAtWaveLength returns the first sample not below the wavelength (clamped to the axis); GetMask marks exactly the samples inside the range; ClampLambdaRange returns the intersection with the axis range or fails; GetMeanResolution is the range divided by the number of steps; ShiftByWaveLength multiplies (forward) or divides (backward) every sample and a forward shift followed by a backward shift restores the axis.", "quantifier": "every sorted axis, wavelength, range, offset", "why_tests_cant": "all positions", "anchors": ["RedshiftLibrary/src/lib/spectrum/spectralaxis.cpp"]}
{"id": "C21", "title": "Running median/mean smoothing uses the truncated centred window", "statement": "ApplyMedianSmooth/ApplyMeanSmooth replace every sample by the median/mean of the samples within k of it (window truncated at the borders), never change the number of samples, and leave the flux untouched when they report failure; the mean-smoothed flux stays within [min,max] of the input.", "quantifier": "every flux, every half width", "why_tests_cant": "all sizes and window widths", "anchors": ["RedshiftLibrary/src/lib/spectrum/fluxaxis.cpp: CSpectrumFluxAxis::ApplyMedianSmooth, ApplyMeanSmooth"]}
{"id": "C22", "title": "Flux/noise correction repairs only invalid samples", "statement": "correctFluxAndNoiseAxis changes only samples inside the range whose flux or noise is invalid, gives them noise >= coeff x the largest valid noise and flux = min|valid flux|/coeff, reports the number of corrected samples, and raises SPECTRUM_CORRECTION_ERROR when no valid sample exists; after it the range is valid.", "quantifier": "every flux/noise pair incl. NaN/inf, every range", "why_tests_cant": "all NaN/inf placements", "anchors": ["RedshiftLibrary/src/lib/spectrum/fluxaxis.cpp: CSpectrumFluxAxis::correctFluxAndNoiseAxis, checkFlux", "RedshiftLibrary/src/lib/spectrum/noiseaxis.cpp"]}
{"id": "C23", "title": "Linear rebinning interpolates and never extrapolates", "statement": "Linear rebinning writes to every target sample covered by the source the linear interpolation of the two neighbouring source samples (hence a value between them), zero flux/zero mask (infinite noise) elsewhere, and rejects ranges not covered by the source axis.", "quantifier": "every sorted source and target axis, every range", "why_tests_cant": "all relative alignments of two grids", "anchors": ["RedshiftLibrary/src/lib/spectrum/rebin/rebin.cpp", "RedshiftLibrary/src/lib/spectrum/rebin/rebinLinear.cpp"]}
{"id": "C24", "title": "Nearest-grid-point rebinning copies the nearest source sample", "statement": "NGP rebinning writes to each target sample inside the range the flux of a source sample at minimal distance, with zero mask outside the range.", "quantifier": "every source/target axis and range", "why_tests_cant": "all alignments", "anchors": ["RedshiftLibrary/src/lib/spectrum/rebin/rebinNgp.cpp"]}
{"id": "C25", "title": "PDF peak finding reports only genuine maxima", "statement": "The peak search never reads or reports a sample outside its window, whatever the values (NaN included). On values without a plateau that is entered from above and left downwards (or at the border), the reported peaks are exactly the local maxima, plateaus by their middle sample, once each, in increasing order. (On such plateaus the claim is false of the code: refuted theorems.)", "quantifier": "every PDF array of any length", "why_tests_cant": "plateau/border patterns are unbounded", "anchors": ["RedshiftLibrary/src/lib/extremum/extremum.cpp: CExtremum::FindAllPeaks"]}
{"id": "C26", "title": "Selected redshift candidates are mutually separated", "statement": "With peak separation on, a search returns at most the requested number of maxima, best first, any two separated by more than the extrema separation; the highest maximum is always returned; a maximum that is missing is too close to a returned one at least as high, or the requested number of peaks at least as high was reached; no maximum is an error in first pass and an empty list otherwise. (Requesting zero peaks reads out of bounds: refuted.)", "quantifier": "every peak list", "why_tests_cant": "greedy selection over all inputs", "anchors": ["RedshiftLibrary/src/lib/extremum/extremum.cpp: FilterOutNeighboringPeaks, assertPeakSeparation"]}
{"id": "C27", "title": "Candidate truncation keeps the top-N by probability", "statement": "Without peak separation a search returns the min(N, count) best maxima in decreasing order; the merit-cut filter keeps exactly the peaks within the cut of the best. (A search combining the merit cut with any selection uses stale indexes and reads out of bounds: refuted.)", "quantifier": "every peak list and N", "why_tests_cant": "all sizes/ties", "anchors": ["RedshiftLibrary/src/lib/extremum/extremum.cpp: Truncate"]}
{"id": "C28", "title": "Spectral peak detection returns maximal above-threshold runs", "statement": "The possible peaks are disjoint, increasing, inside the spectrum and are exactly the maximal runs of samples strictly above the local threshold (median + cut/2 x (median absolute deviation + offset) of the background window); the detection returns exactly those whose first maximum is neither one of the two first samples nor the last one, with fit ranges containing the peak, not running past the neighbouring peaks, inside the spectrum, enlarged by rate x width unless so limited; no peak gives a null result.", "quantifier": "every spectrum, window and cut", "why_tests_cant": "all flux shapes", "anchors": ["RedshiftLibrary/src/lib/operator/peakdetection.cpp: CPeakDetection"]}
{"id": "C29", "title": "Candidate integration ranges", "statement": "Every non-empty set of candidates inside the PDF range with positive widths gets integration ranges without error: each range contains the redshift of its candidate, lies inside its +-3 Deltaz window cut at the PDF bounds; ranges of neighbouring kept candidates never overlap; an overlap below 30 % of both widths is shared equally, otherwise the less probable of the two is reported as a duplicate; isolated candidates keep their full window. (Kept candidates on both sides of a duplicate may overlap; a candidate can be dropped because of a neighbour that is dropped too; an empty set is not handled: refuted.)", "quantifier": "every candidate set, any order, any half width", "why_tests_cant": "pairwise/3-way overlap patterns are unbounded", "anchors": ["RedshiftLibrary/src/lib/statistics/pdfcandidatesz.cpp: CPdfCandidatesZ::SetIntegrationRanges"]}
{"id": "C30", "title": "Candidates are ranked by integrated probability", "statement": "The ranked list is a permutation of the candidates in non-increasing integrated probability, ties keeping the order of identifiers; duplicates come after every candidate with a positive integral.", "quantifier": "every candidate map", "why_tests_cant": "all sizes and ties", "anchors": ["RedshiftLibrary/src/lib/statistics/pdfcandidatesz.cpp: SortByValSumProbaInt"]}
{"id": "C31", "title": "Redshift error estimate", "statement": "CDeltaz uses a window clamped to the grid and centred on the candidate; the returned error is sqrt(1/c0) for the least-squares curvature c0 of the centred merit and is always positive; a redshift missing from the grid or a non-positive curvature is an error, with at most two attempts before the default is used.", "quantifier": "every merit/grid/redshift", "why_tests_cant": "all merit shapes", "anchors": ["RedshiftLibrary/src/lib/statistics/deltaz.cpp: CDeltaz", "RedshiftLibrary/src/lib/statistics/pdfcandidatesz.cpp"]}
{"id": "C32", "title": "The redshift PDF integrates to one", "statement": "For every chi-square array and prior on a strictly increasing redshift grid of at least two points, exp(logPdf) integrated by the trapezoid rule is 1, logPdf is the normalised posterior exp(-chi2/2 + logprior), the evidence is exp(cst) times the ratio of the integrals of posterior and prior, and constants added to the chi2 or to the log prior do not change the density; wrong sizes are errors.", "quantifier": "every merit array, prior and grid", "why_tests_cant": "real-analytic identity over all inputs", "anchors": ["RedshiftLibrary/src/lib/operator/pdfz.cpp: CPdfz::ComputePdf, logSumExpTrick"]}
{"id": "C33", "title": "The log-sum-exp evaluation is exact and shift-invariant", "statement": "logSumExpTrick returns the logarithm of the trapezoid integral of exp(values), is invariant under adding a constant (adds it to the result), and every exponential it evaluates is <= 1 x step (no overflow).", "quantifier": "every array/grid", "why_tests_cant": "all value ranges", "anchors": ["RedshiftLibrary/src/lib/operator/pdfz.cpp: CPdfz::logSumExpTrick"]}
{"id": "C34", "title": "Marginalised PDF is the evidence-weighted mixture", "statement": "Marginalize over model hypotheses yields the mixture of the per-model posteriors weighted by evidence x model prior, and integrates to one (up to exp(-DBL_MAX) times the width of the grid).", "quantifier": "every number of models, arrays and priors", "why_tests_cant": "all model counts/values", "anchors": ["RedshiftLibrary/src/lib/operator/pdfz.cpp: CPdfz::Marginalize, ComputeAllPdfs"]}
{"id": "C35", "title": "Best-chi2 combination takes the pointwise minimum", "statement": "BestChi2 is the normalised density of the pointwise smallest chi2 over the models with a constant prior, whatever the order of the models and their priors.", "quantifier": "every set of merit arrays", "why_tests_cant": "all arrays", "anchors": ["RedshiftLibrary/src/lib/operator/pdfz.cpp: CPdfz::BestChi2"]}
{"id": "C36", "title": "Inserting a sub-grid keeps the redshift grid sorted and complete", "statement": "insertSubgrid replaces exactly the coarse samples inside the sub-grid range by the sub-grid samples; the result stays strictly increasing, contains all sub-grid samples and all outside samples, and returns the position and number of replaced samples used to update the companion arrays consistently; this needs a sub-grid at least as dense as the samples it replaces and within the grid except possibly its end samples (otherwise refuted).", "quantifier": "every grid and subgrid", "why_tests_cant": "all overlaps", "anchors": ["RedshiftLibrary/src/lib/common/zgridparam.cpp: CZGridListParams::insertSubgrid", "RedshiftLibrary/RedshiftLibrary/common/vectorOperations.h: insertWithDuplicates"]}
{"id": "C37", "title": "OII doublet ratio rule", "statement": "The ratio-range rule leaves a doublet whose amplitudes are within a factor R of each other untouched; otherwise it sets the higher one to the inverse-variance weighted mean of itself and R times the other and the lower one to that divided by R, touching nothing else. (Unit nominal amplitudes and at least one non-null error; both conditions necessary.)", "quantifier": "every amplitude/error pair", "why_tests_cant": "all real amplitudes", "anchors": ["RedshiftLibrary/src/lib/line/ruleOIIRatioRange.cpp: CRuleRatioRange::Correct"]}
{"id": "C38", "title": "Balmer/2-line and strong-weak amplitude rules only lower amplitudes", "statement": "The two-line and strong/weak rules never raise an amplitude, never make it negative; after a rule the weak line is no higher than the coefficient-scaled strong line (resp. the lowest strong line plus its error), and the Balmer constraints hold together after the whole series. Elements mixing strong and weak lines, and absorption Balmer lines, escape the rule (refuted).", "quantifier": "every amplitude set", "why_tests_cant": "all real amplitudes and list sizes", "anchors": ["RedshiftLibrary/src/lib/line/rule2singlelinesamplitude.cpp", "RedshiftLibrary/src/lib/line/ruleStrongHigherThanWeak.cpp", "RedshiftLibrary/src/lib/linemodel/elementparam.cpp"]}
{"id": "C39", "title": "Limiting an element's amplitude preserves the line ratios", "statement": "LimitFittedAmplitude caps the line at max(0,limit), changes nothing when already below or undefined, and rescales all lines of the element proportionally to the nominal amplitudes, so that no amplitude of a proportional non-negative element goes up.", "quantifier": "every element of any number of lines", "why_tests_cant": "all sizes", "anchors": ["RedshiftLibrary/src/lib/linemodel/elementparam.cpp"]}
{"id": "C40", "title": "Continuum mirror extension and smoothing windows", "statement": "The removal of the continuum by medians never reads outside the spectrum, keeps the size, changes nothing outside the first and last sample different from zero, subtracts inside a continuum which stays within the values of the spectrum, leaves nothing of a flat spectrum, does not depend on the flux unit, and says when it did nothing; the reflection at the borders uses values fitted near the borders.", "quantifier": "every spectrum and window", "why_tests_cant": "all sizes", "anchors": ["RedshiftLibrary/src/lib/continuum/irregularsamplingmedian.cpp"]}
{"id": "C41", "title": "Log messages reach exactly the registered handlers at or above their level", "statement": "After any history of handler registrations/removals, a message is delivered once to each registered handler whose level mask is <= message level, in slot order, and to no other; a handler registered when the 8 places are taken is silently never served.", "quantifier": "every history", "why_tests_cant": "history property", "anchors": ["RedshiftLibrary/src/lib/log/log.cpp: CLog"]}
{"id": "C42", "title": "Template-fit store keeps candidates ranked at every redshift", "statement": "After any sequence of additions, the fits stored at each redshift are a permutation of the additions at this redshift ordered by increasing merit (ties by decreasing |amplitude/sigma|), and lookups never read outside what was stored.", "quantifier": "every history of Add/Get", "why_tests_cant": "history property", "anchors": ["RedshiftLibrary/src/lib/linemodel/templatesfitstore.cpp: CTemplatesFitStore"]}
{"id": "C43", "title": "Template catalog lists stay consistent", "statement": "Adding, replacing and clearing templates affects only the targeted (category, orthogonal, log-sampled) list plus the documented cascade; names lookups return the added template; rejecting an empty category leaves the catalog unchanged.", "quantifier": "every history of catalog operations", "why_tests_cant": "history property", "anchors": ["RedshiftLibrary/src/lib/spectrum/template/catalog.cpp: CTemplateCatalog"]}
{"id": "C44", "title": "Air/vacuum conversions invert each other to the requested precision", "statement": "A named converter uses the dispersion formula published under its name, refuses an empty list and wavelengths outside its validity range, and refuses unknown names; VacToAir shortens each wavelength and preserves their order; AirToVac inverts it to the precision requested (1e-9 Angstrom) or warns; whatever VacToAir returns can be converted back.", "quantifier": "every wavelength vector in the valid range", "why_tests_cant": "all wavelengths", "anchors": ["RedshiftLibrary/src/lib/line/airvacuum.cpp"]}
{"id": "C45", "title": "Line catalog filtering and grouping", "statement": "Adding a line replaces the one with the same identifier and keeps every other one; the filtered list contains exactly the lines matching the type and force filters, given as values or as the strings of the configuration; the grouping puts every line in exactly one group, ungrouped lines alone; changing an amplitude or converting profiles changes exactly the intended lines; ratio catalogs accept a velocity once; detected lines are numbered and sorted.", "quantifier": "every catalog", "why_tests_cant": "all catalogs", "anchors": ["RedshiftLibrary/src/lib/line/catalog.cpp: CLineCatalogBase"]}
{"id": "C46", "title": "Polynomial coefficients normalisation round-trips", "statement": "Setting coefficients then reading them back returns the same coefficients, and the normalised evaluation equals the plain polynomial for every x.", "quantifier": "every coefficient triple and abscissa", "why_tests_cant": "real identity", "anchors": ["RedshiftLibrary/src/lib/common/polynom.cpp"]}
{"id": "C47", "title": "Concurrent log messages are never interleaved", "statement": "For every number of threads and every schedule, the handlers see whole messages one after the other, in a sequence that preserves each thread's own order, and no schedule blocks; destroying a handler while another thread logs is not protected.", "quantifier": "every set of threads, message queues and interleavings", "why_tests_cant": "tests only sample schedules", "anchors": ["RedshiftLibrary/src/lib/log/log.cpp: CLog::logEntry", "RedshiftLibrary/src/lib/log/handler.cpp", "RedshiftLibrary/RedshiftLibrary/common/mutex.h"]}
{"id": "C48", "title": "Clamping a value into a range", "statement": "Clamp returns a value of the range, the closest one to its argument, leaves values of the range unchanged and is idempotent.", "quantifier": "every range with begin <= end and every value", "why_tests_cant": "all values", "anchors": ["RedshiftLibrary/RedshiftLibrary/common/range.h: CRange::Clamp"]}
{"id": "C49", "title": "Redshift priors are normalised and combine by product", "statement": "Each prior is the documented raw log prior (0; log of the penalisation where the strong line or the second line is missing; strength x log of the number-of-Halpha polynomial clipped to a 1e12 dynamic), or, when normalisation is asked, this raw prior shifted so that it integrates to one; the combination of two priors is their product; size mismatches and non-positive strengths are errors.", "quantifier": "every grid, presence vector, penalisation factor and pair of priors", "why_tests_cant": "all inputs, real-analytic identity", "anchors": ["RedshiftLibrary/src/lib/statistics/zprior.cpp: CZPrior"]}
{"id": "C50", "title": "Best-probability combination", "statement": "BestProba returns, on a grid whose steps differ by at most 5%, the pointwise maximum over the models of their normalised log densities, shifted so that its rectangle sum is one; on other grids it is an error.", "quantifier": "every set of models", "why_tests_cant": "all arrays", "anchors": ["RedshiftLibrary/src/lib/operator/pdfz.cpp: COperatorPdfz::BestProba"]}
{"id": "C51", "title": "Validity test of a density and integral of a candidate", "statement": "A flat density is reported as FLAT_ZPDF, a non-flat one is accepted exactly when its integral is within 0.1 of one; the integral of a candidate is computed on the smallest grid interval containing its range, is positive and never exceeds the integral over the whole grid.", "quantifier": "every density, grid and candidate range", "why_tests_cant": "all arrays", "anchors": ["RedshiftLibrary/src/lib/operator/logZPdfResult.cpp: CLogZPdfResult::isPdfValid, checkPdfSum, getSumTrapez", "RedshiftLibrary/src/lib/statistics/pdfcandidatesz.cpp: CPdfCandidatesZ::getCandidateSumTrapez"]}
{"id": "C52", "title": "Line-ratio catalog fit", "statement": "The fit value of a line-ratio catalog is the smallest chi-square over every common scale between its nominal amplitudes and the measured ones (-1 when they are uncorrelated), and the best-fit query returns the first catalog with the smallest positive value together with its scaled amplitudes, or -1 and nothing.", "quantifier": "every set of measured amplitudes and errors, every list of catalogs", "why_tests_cant": "minimum over every scale; every catalog list", "anchors": ["RedshiftLibrary/src/lib/line/catalogsTplRatio.cpp: CLineCatalogsTplRatio::GetBestFit, getFitForOneCatalog, computeFitValue"]}
{"id": "C53", "title": "Line profiles", "statement": "The Gaussian and Lorentzian profiles are positive, at most 1, symmetric, decreasing away from the centre and maximal only there; the asymmetric profile is the skew-normal one, equal to the Gaussian without asymmetry, mirrored by the opposite asymmetry, with its mean at the line centre when centered on the mean; the derivatives returned with respect to the centre and the width are the derivatives of the value; the line flux is the integral of the line over the whole wavelength axis; conversions between fixed and fitted asymmetric profiles keep every parameter; NaN parameters are refused.", "quantifier": "every wavelength, centre, width, amplitude and profile parameters", "why_tests_cant": "real analysis over a continuum of inputs", "anchors": ["RedshiftLibrary/src/lib/line/lineprofileSYM.cpp", "RedshiftLibrary/src/lib/line/lineprofileLOR.cpp", "RedshiftLibrary/src/lib/line/lineprofileASYM.cpp", "RedshiftLibrary/src/lib/line/lineprofileASYMFIT.cpp"]}
{"id": "C54", "title": "Orthogonalized templates follow the templates and the LSF", "statement": "After the orthogonalization of a spectrum model with a given LSF, the orthogonal templates of each sampling are exactly the orthogonalizations with this LSF of the templates with that sampling, nothing else in the catalog changed, and nothing is recomputed when neither the LSF nor the templates changed.", "quantifier": "every catalog and history of orthogonalizations", "why_tests_cant": "history property over every catalog", "anchors": ["RedshiftLibrary/src/lib/linemodel/templatesortho.cpp: CTemplatesOrthogonalization"]}
{"id": "C55", "title": "Log-sampled templates follow the templates and the grid", "statement": "After the rebinning of a category, each log-sampled template is the rebinning of the original template of the same name if the previous one did not fit the grid, the previous one otherwise; the orthogonal templates derived from a replaced one are gone; nothing else changed.", "quantifier": "every catalog, every set of templates to rebin", "why_tests_cant": "history property over every catalog", "anchors": ["RedshiftLibrary/src/lib/spectrum/logrebinning.cpp: CSpectrumLogRebinning::logRebinTemplateCatalog"]}
{"id": "C56", "title": "The raw flux, the continuum and the continuum-free flux of a spectrum stay consistent under any history of calls", "statement": "Whatever sequence of calls is made on a spectrum (setters, type changes, continuum settings, scaling, inversion, correction, rebinning, calls that throw included), the continuum and the continuum-free flux that its getters return add up to its raw flux sample by sample, have the size of its wavelengths, correspond to its present settings and wavelengths, and rebinning uses its present flux; a copy returns what the original returns.", "quantifier": "every finite history of calls of the interface, with every argument (wrong sizes, unknown names, references to the spectrum's own data), every continuum remover", "why_tests_cant": "unit tests exercise a few orders of calls; the lazily computed and cached components (continuum, fine grid) depend on the whole history, and the stale ones only show after particular interleavings", "anchors": ["RedshiftLibrary/src/lib/spectrum/spectrum.cpp: CSpectrum", "RedshiftLibrary/RedshiftLibrary/spectrum/spectrum.h: CSpectrum", "RedshiftLibrary/src/lib/spectrum/rebin/rebin.cpp: CRebin::convert", "RedshiftLibrary/src/lib/spectrum/rebin/rebinFineGrid.cpp: CRebinFineGrid"]}
{"id": "C57", "title": "The dust attenuation is the tabulated Calzetti law", "statement": "For every table and every wavelength, the attenuation coefficient of a dust index is 10^(-0.4 E(B-V) k) with E(B-V) the value of the index and k the table value at the index the wavelength falls on; 1 outside the table; in ]0, 1] and decreasing with E(B-V); an index outside the grid is refused; value and index of the E(B-V) grid are inverse of each other.", "quantifier": "every table (any length, step, order), every E(B-V) grid, every dust index and wavelength", "why_tests_cant": "a unit test checks a few wavelengths of one calibration table; the statement is about every table and index, including those a configuration can get wrong", "anchors": ["RedshiftLibrary/src/lib/spectrum/fluxcorrectioncalzetti.cpp: CSpectrumFluxCorrectionCalzetti", "RedshiftLibrary/RedshiftLibrary/spectrum/fluxcorrectioncalzetti.h"]}
{"id": "C58", "title": "A line spread function has a positive width wherever it is used, and its kernel is normalised", "statement": "The constructors accept exactly the positive widths and resolutions above one; the width of an accepted function is positive at every wavelength of its range, and at every wavelength when clipped; a tabulated width is interpolated linearly between its nodes and refused outside; the normalised kernel has as many values as wavelengths, all positive, with sum one; the factory builds the class of the name it is given.", "quantifier": "every parameter, every table of widths, every wavelength, every kernel support, every factory name and argument", "why_tests_cant": "tests use a few widths and one table; normalisation and positivity must hold for every support and wavelength or a convolution silently changes fluxes", "anchors": ["RedshiftLibrary/src/lib/spectrum/LSF.cpp: CLSF", "RedshiftLibrary/src/lib/spectrum/LSFConstantResolution.cpp", "RedshiftLibrary/src/lib/spectrum/LSFVariableWidth.cpp", "RedshiftLibrary/src/lib/spectrum/LSF_NISPSIM_2016.cpp", "RedshiftLibrary/src/lib/spectrum/LSF_NISPVSSPSF_201707.cpp", "RedshiftLibrary/RedshiftLibrary/spectrum/LSFFactory.h: CLSFFactory"]}
{"id": "C59", "title": "The intergalactic extinction is a transmission, taken from the bin of the redshift and convolved with the current line spread function", "statement": "For every history of convolutions, the extinction at a redshift, a curve index and a wavelength is in [0, 1] if the tables are; it is 1 above Lyman alpha and below the first redshift bin; the curve is that of the redshift bin (the last one above the last boundary), the sample the nearest one of the grid; a constant curve is left unchanged by the convolution; the convolution succeeds on every well-formed table; the curves in use are those of the last convolution.", "quantifier": "every set of tables and bins, every line spread function, every observed range, every history of convolutions, every redshift, index and wavelength", "why_tests_cant": "tests convolve a single small table once; the state left by several convolutions (one for each observation) is a property of histories", "anchors": ["RedshiftLibrary/src/lib/spectrum/fluxcorrectionmeiksin.cpp: CSpectrumFluxCorrectionMeiksin", "RedshiftLibrary/RedshiftLibrary/spectrum/fluxcorrectionmeiksin.h", "RedshiftLibrary/src/lib/processflow/inputcontext.cpp: CInputContext::Init"]}
{"id": "C60", "title": "A template's flux always is its original flux times the extinctions last asked for", "statement": "For every program of initialisations, dust and intergalactic indices, amplitudes and disabling whose calls return, each sample of the template flux is its original value times the product of the amplitudes, times the dust and igm transmissions of the last indices asked for inside the range initialised, and 1 outside; disabling gives back the original flux times the amplitudes; the calls return for the indices of the tables; a masked copy commutes with dust.", "quantifier": "every template, every pair of tables, every sequence of calls, every range, redshift and index, every mask", "why_tests_cant": "the flux is recomputed in place from cached extinctions; only an invariant over all call sequences shows that no extinction is applied twice or left behind", "anchors": ["RedshiftLibrary/src/lib/spectrum/template/template.cpp: CTemplate", "RedshiftLibrary/RedshiftLibrary/spectrum/template/template.h"]}
{"id": "C61", "title": "Integrals and statistics of a flux are those of the samples asked for", "statement": "The trapezoidal integral over ranges of samples is the sum of the integrals of the piecewise linear flux over them (additive, linear, exact on straight lines, between the extreme fluxes times the width), with the quadratic sum of the weighted errors bounded by the true one; the mean and standard deviation over a mask are the inverse-variance weighted mean and its unbiased deviation over the selected samples; over a wavelength range they are those of the samples in it, and refused outside the axis; the RMS difference is the square root of the mean squared difference.", "quantifier": "every wavelength axis, flux, error, list of index ranges, mask and wavelength range", "why_tests_cant": "the identities hold over all axes and ranges, including one-sample ranges and uneven steps; tests compare a handful of numbers", "anchors": ["RedshiftLibrary/src/lib/spectrum/spectrum.cpp: CSpectrum::integrateFluxes_usingTrapez, GetMeanAndStdFluxInRange", "RedshiftLibrary/src/lib/spectrum/fluxaxis.cpp: ComputeMeanAndSDev, ComputeRMSDiff"]}
{"id": "C62", "title": "Validation of an input spectrum accepts exactly the spectra that can be processed", "statement": "When the wavelength range overlaps the axis, validating a spectrum succeeds exactly when the axes have the same size, the LSF is set when needed, and flux and noise are valid inside the common range, otherwise with the error of the first failing check; with correction enabled the invalid samples in the range are replaced and all others left untouched, and it fails only when no valid sample remains.", "quantifier": "every spectrum, wavelength range and correction setting", "why_tests_cant": "the set of accepted inputs is infinite and the verdict depends on each sample of the range, including its bounds", "anchors": ["RedshiftLibrary/src/lib/spectrum/spectrum.cpp: ValidateSpectrum, ValidateFlux, ValidateNoise, correctSpectrum", "RedshiftLibrary/src/lib/processflow/inputcontext.cpp: CInputContext::Init"]}
{"id": "C63", "title": "The Gaussian line profile with intergalactic extinction is the Gaussian times the transmission", "statement": "The value is the Gaussian times the transmission at the rest wavelength for the index and redshift last set, never above the Gaussian; the derivatives with respect to the position and the width are the derivatives of that product; the flux of a line above Lyman alpha is the Gaussian flux; the index and redshift used are those last set.", "quantifier": "every wavelength, position, positive width, redshift, transmission and history of parameter settings", "why_tests_cant": "derivatives and integrals are statements over all reals", "anchors": ["RedshiftLibrary/src/lib/line/lineprofileSYMIGM.cpp: CLineProfileSYMIGM", "RedshiftLibrary/RedshiftLibrary/line/lineprofileSYMIGM.h"]}
{"id": "C64", "title": "The fit of a template at a redshift finds the best extinguished template of the grid", "statement": "For each dust and intergalactic index of the grid, the chi square reported is that of the template seen through that extinction, at the amplitude minimising it (with the Gaussian prior on the amplitude when there is one), set to zero when its significance is below the threshold; the best fit is the first of smallest chi square; with a null threshold no model of the grid with a non-negative amplitude fits better, and data equal to a positive multiple of a model of the grid are fitted exactly. Sums reused between intergalactic indices do not change the result.", "quantifier": "every set of observations, errors, masks, template, redshift, extinction tables, lists of indices, threshold and priors", "why_tests_cant": "optimality over all amplitudes and all grids, and the equivalence of the fast computation with the direct one, are universal statements", "anchors": ["RedshiftLibrary/src/lib/operator/templatefitting.cpp: COperatorTemplateFitting::BasicFit, ComputeCrossProducts, ComputeAmplitudeAndChi2", "RedshiftLibrary/src/lib/operator/templatefittingBase.cpp: applyPositiveAndNonNullConstraint", "RedshiftLibrary/src/lib/operator/templatefittingresult.cpp: SNRCalculation", "RedshiftLibrary/RedshiftLibrary/operator/templatefitting.h"]}
{"id": "C65", "title": "The lines of an element are fitted on disjoint merged supports which cover exactly their windows", "statement": "Preparing an element at a redshift gives each line the samples of its window inside the wavelength range (and at most one sample more, never after the end of the range); a line is used when the line spread function is known there and enough of its window is in the range: a window inside the range is used and a window outside is not, on a fine enough sampling. The supports of the lines linked by overlaps are merged into one: whatever the order of the lines and although the code stops after 20 passes, below two million lines no two merged supports share two samples, each used line is active on exactly one non-empty merged support which contains its own support, the lines active on it are those linked to it, and the merged supports cover the same samples as the supports of the lines. No sample outside the spectrum is ever designated.", "quantifier": "every list of lines, axis, redshift, wavelength range, line spread function and line offset", "why_tests_cant": "termination of the iterative merging with disjoint supports for every configuration of overlaps cannot be enumerated", "anchors": ["RedshiftLibrary/src/lib/linemodel/element.cpp: CLineModelElement::EstimateIndexRange, EstimateTheoreticalSupport, prepareSupport, getSupport, getTheoreticalSupport, getSupportSubElt, GetObservedPosition", "RedshiftLibrary/RedshiftLibrary/linemodel/element.h"]}
{"id": "C66", "title": "The model spectrum is the continuum plus, on the supports, each used line exactly once", "statement": "Adding an element to a spectrum adds at each sample each used line whose merged support holds this sample exactly once (amplitude times profile for emission, minus amplitude times continuum times profile for absorption; lines of negative amplitude are left out) and changes nothing else. Refreshing the whole model gives the continuum plus the lines of the elements of the asked type; refreshing under some elements gives on their supports the continuum plus their own lines and leaves the other samples, so it is enough after a change of amplitudes when no sample is shared with another element. The model at a wavelength is the sum of the used lines, equals the amplitude times the returned derivative, and is affine in the continuum amplitude with the returned slope. The mean observed position is the mean over the used lines, the amplitude of an element is recovered from its lines, and the continuum at the centre of a line is read at the first sample at or after it.", "quantifier": "every spectrum axis, list of elements and lines, redshift, continuum, profile function, amplitudes", "why_tests_cant": "the samples of every support of every configuration of overlapping lines would have to be compared with the sum of the lines", "anchors": ["RedshiftLibrary/src/lib/linemodel/element.cpp: CLineModelElement::addToSpectrumModel, initSpectrumModel, getModelAtLambda, GetModelDerivAmplitudeAtLambda, GetModelDerivContinuumAmpAtLambda, GetObservedPosition, GetElementAmplitude, GetContinuumAtCenterProfile", "RedshiftLibrary/src/lib/linemodel/spectrummodel.cpp: CSpectrumModel::refreshModel, refreshModelUnderElements, reinitModelUnderElements", "RedshiftLibrary/RedshiftLibrary/linemodel/elementparam.h"]}
{"id": "C67", "title": "The amplitude and the wavelength offset of an element are those of the least squares", "statement": "Fitting an element on one or several observations gives the non-negative amplitude which minimises the chi square over the samples of its supports, every line receiving it times its nominal amplitude (an absorption line at most the configured limit), with the uncertainty one over the root of the information; the merit returned is the change of the chi square. Without signal, or out of the range of all the spectra, there is no amplitude fitted and no merit. The previous amplitudes have no effect. When offsets are fitted, the offset and amplitude kept minimise the chi square jointly over the offsets -400 to 375 km/s by 25 and all the non-negative amplitudes (the first of equal ones), the lines whose offset is not fitted keep theirs.", "quantifier": "every element, observations, supports, noise, continuum, profile function, redshift, offsets enabled", "why_tests_cant": "minimality over all real amplitudes and over every spectrum cannot be tested on samples", "anchors": ["RedshiftLibrary/src/lib/linemodel/abstractfitter.cpp: CAbstractFitter::fitAmplitude, setLambdaOffset, HasLambdaOffsetFitting, GetLambdaOffsetSteps, fitAmplitudeAndLambdaOffset, getLeastSquareMeritFast", "RedshiftLibrary/src/lib/linemodel/element.cpp: CLineModelElement::computeCrossProducts", "RedshiftLibrary/RedshiftLibrary/linemodel/elementparam.h: setAmplitudes, setFittedAmplitude", "RedshiftLibrary/src/lib/linemodel/lmeltlistvector.cpp: computeOutsideLambdaRange, computeOutsideLambdaRangeLine"]}
{"id": "C68", "title": "The elements fitted, fitted together, and summarised are exactly those in the range", "statement": "The list of valid elements has exactly the elements in the wavelength range which are not disabled, and automatic disabling adds those without any positive amplitude. The hybrid fit puts every valid element in exactly one group; a group has its first element and every element of the same type not yet fitted whose window shares more than 15% of one of its windows. Velocity groups and fitting groups have one entry per tag with the elements of the tag in order. The samples under elements are each listed once; the amplitude offset adds to each sample the polynomial of one group only. The strong line flag, the H alpha flag, the scale correction, the search of a line, the number of degrees of freedom are functions of the valid elements as specified; loading the catalog keeps every line exactly once.", "quantifier": "every list of elements and lines, amplitudes, widths, supports, groups, disabled elements, redshift", "why_tests_cant": "the grouping depends on all pairs of lines and on the order of the elements; a test has only a few lists", "anchors": ["RedshiftLibrary/src/lib/linemodel/elementlist.cpp: CLineModelElementList::GetModelValidElementsIndexes, SetElementIndexesDisabledAuto, GetModelVelfitGroups, getOverlappingElements, getSupportIndexes, addToSpectrumAmplitudeOffset, getScaleMargCorrection, GetModelStrongEmissionLinePresent, GetModelHaStrongest, getFittingGroups", "RedshiftLibrary/src/lib/linemodel/hybridfitter.cpp: CHybridFitter::fitAmplitudesHybrid", "RedshiftLibrary/src/lib/linemodel/lmeltlistvector.cpp: GetModelNonZeroElementsNDdl, LoadCatalogOneMultiline, LoadCatalogTwoMultilinesAE"]}
{"id": "C69", "title": "The joint fit of overlapping elements minimises the chi square and never sets a negative amplitude", "statement": "The joint linear fit of elements over the samples of their support sets the amplitudes (and the polynomial, if amplitude offsets are enabled) which minimise the chi square, independently of the normalisation of the flux and of the amplitudes before, and changes no other element; it throws without element or sample, and sets zero amplitudes with fewer samples than unknowns. The positive fit keeps a non negative joint minimum, else sets the negative ones to zero and fits the others again, and never leaves a negative amplitude. The fit of offsets keeps the first offset of smallest residual with its amplitudes. The improvement of Balmer lines keeps the joint fit only if the residual under the absorption line has not grown, else puts back the amplitudes.", "quantifier": "every set of elements, profiles, fluxes, errors, amplitudes before, number of offsets, and every exact solver of linear least squares", "why_tests_cant": "optimality is against all real amplitudes; the branches depend on the signs of the solutions of two linear problems", "anchors": ["RedshiftLibrary/src/lib/linemodel/svdfitter.cpp: CSvdFitter::fitAmplitudesLinSolve, fitAmplitudesLinSolvePositive, fitAmplitudesLinSolveAndLambdaOffset", "RedshiftLibrary/src/lib/linemodel/hybridfitter.cpp: CHybridFitter::improveBalmerFit", "RedshiftLibrary/src/lib/linemodel/spectrummodel.cpp: getModelSquaredResidualUnderElements", "RedshiftLibrary/RedshiftLibrary/linemodel/spectrummodel.h: getModelResidualRmsUnderElements"]}
{"id": "C70", "title": "The model spectrum is the continuum plus each line once, and the fluxes measured with it are integrals above the right continuum", "statement": "Refreshing the model gives at every sample the continuum, the amplitude offsets and the lines of the type asked, each once, and changes nothing else; refreshing under elements changes the samples under their windows only. The continuum set by a name or by a template fit is the stated blend, and the flux without continuum follows it. Removing the lines of a type from a spectrum which is its model leaves exactly the continuum and the other lines, the blending weight is in [0, 1] and largest at the centre of a window. The direct integration of lines is the integral of the spectrum minus the continuum (and offsets) over the ranges with the error propagated, and throws without range; the mean continuum lies between the extremes; a strong line is reported once, if and only if its direct integration is above the cut.", "quantifier": "every list of elements, windows, spectrum, continuum, offsets, ranges, catalog and cut", "why_tests_cant": "identities at every sample for any overlap of windows; the outcome depends on the order of elements and on which lines are in range", "anchors": ["RedshiftLibrary/src/lib/linemodel/spectrummodel.cpp: CSpectrumModel::refreshModel, refreshModelUnderElements, getModel, setContinuumComponent, setContinuumFromTplFit, EstimateSpectrumContinuum, GetObservedSpectrumWithLinesRemoved, GetWeightingAnyLineCenterProximity, GetContinuumWeightedSumInRange, getContinuumSquaredResidualInRange, getFluxDirectIntegration, getContinuumUnderLines, getLinesAboveSNR", "RedshiftLibrary/src/lib/linemodel/linemodelfitting.cpp: CLineModelFitting::GetMeanContinuumUnderLine, getFluxDirectIntegration"]}
{"id": "C71", "title": "Line matching groups every detected line that agrees with a pair, each solution once, and the best redshift is the one with most lines", "statement": "Each solution of the line matching is a set of pairs of a detected line and a line of the catalog, each at the redshift of the pair, no detected line twice, at least as many pairs as asked, with a mean redshift inside the range, and all agree with one of them within the tolerance. With distinct positions and identifiers the solutions are exactly the groups of the pairs, each once. The best redshift is the mean of the first solution with most strong lines, then most lines; the candidates above a number are those with more lines, rounded to the step, and extended without repetition; filtering by rules loses nothing.", "quantifier": "every list of detected lines, catalog, range of redshift, threshold, tolerance and filter", "why_tests_cant": "which pairs are grouped depends on the tolerance, the order of both lists and the removal of repeated solutions, for lists of any length", "anchors": ["RedshiftLibrary/src/lib/operator/linematching.cpp: CLineMatching::Compute, updateSolution, isLineAlreadyPresent, refineSolutions, AreSolutionSetsEqual", "RedshiftLibrary/src/lib/operator/linematchingresult.cpp: CLineMatchingResult::GetBestRedshift, GetBestMatchNumRedshift, GetSolutionsListOverNumber, GetAverageRedshiftListOverNumber, GetRoundedRedshiftCandidatesOverNumber, GetExtendedRedshiftCandidatesOverNumber, GetMeanRedshiftSolutionByIndex, getNStrongRestLines, GetMaxMatchingNumber, FilterWithRules"]}
{"id": "C72", "title": "Line detection keeps exactly the peaks with an acceptable fit and a ratio above the cut, and the retest only adds weak lines near strong ones", "statement": "The ratio of a peak is its first largest flux minus the median of the window, over the larger of the median deviation and the mean noise. Out of the spectrum it is an error. The lines of the first pass are exactly those of the peaks whose Gaussian fit is acceptable (sign, width limits, height and position close to the peak) with a ratio not below the cut, strong when above the cut times the strong cut, each once, and every peak has a status. A retested line comes from a peak below the cut at first, near a strong line, above the cut in the spectrum without the strong lines; it is weak. What is excluded is only around strong lines and never strictly inside a retested peak.", "quantifier": "every spectrum, noise, mask, list of peaks, fit and thresholds", "why_tests_cant": "depends on medians of windows of any size, on the order of peaks and on which strong lines overlap which peaks", "anchors": ["RedshiftLibrary/src/lib/operator/linedetection.cpp: CLineDetection::Compute, ComputeFluxes, Retest, RemoveStrongFromSpectra, XMadFind", "RedshiftLibrary/RedshiftLibrary/operator/linedetection.h: CLineDetection::SGaussParams", "RedshiftLibrary/RedshiftLibrary/line/linedetected.h: CLineDetected", "RedshiftLibrary/src/lib/line/catalog.cpp: CLineDetectedCatalog::Sort"]}
{"id": "C73", "title": "A matching solution is removed exactly for the broken rules of its code", "statement": "The code of a solution is the sum of 1 (only weak lines although a strong emission line is expected in the range, and a strong line of the catalog is below the weak ones in ratio and in deviation), 10 (one [OIII]b without [OIII]a although [OIII]a would be in the range) and 100 (one Hbeta without exactly one Halpha although Halpha would be in the range); it is 0 exactly when no rule is broken, and there always is a code on a usable spectrum. The filter keeps the solutions with code 0 in their order and records each other one with its code. A line is expected in the range when its position is in it.", "quantifier": "every spectrum, catalog, window, wavelength range, redshift and list of solutions", "why_tests_cant": "depends on the names and on the order of the lines of solutions and catalogs of any size; an expression parsed differently than written gives right answers on the catalogs of the tests", "anchors": ["RedshiftLibrary/src/lib/line/rules.cpp: CRules::check, checkRule01, checkRule02, checkRule03, getRestLineLambda, isLineInsideRange", "RedshiftLibrary/src/lib/operator/linematchingresult.cpp: CLineMatchingResult::FilterWithRules", "RedshiftLibrary/RedshiftLibrary/line/linetags.h: linetags"]}
{"id": "C74", "title": "The line matching method returns the first parameters which give a redshift, uses all its values in finitely many turns, and stops", "statement": "Without the dynamic option there is one detection and one matching. With it, the parameters which give the redshift are the first tried with 200 lines or more (or, after all the values, those with the most lines, the last of equals) whose matching succeeds. All the values are used after finitely many turns whatever the answers, they stay in fixed ranges, and the search fails by itself only when a smaller minimum width gives less lines. The search stops after its limit of turns when nothing is found.", "quantifier": "every starting parameters and every answer of the detection and of the matching", "why_tests_cant": "the number of turns depends on four nested parameters and on all the answers; no test can show that a loop never ends", "anchors": ["RedshiftLibrary/src/lib/method/linematchingsolve.cpp: CLineMatchingSolve::compute"]}
{"id": "C75", "title": "The prior tables give for each redshift the densities of its bin", "statement": "Each cell of the tables is the number at its place in the file of its kind (0 when missing or not positive). For each redshift the priors of a template are the row of the bin of width 0.25 of that redshift, with the logarithms of the peak of the normal density of the amplitude, of p(extinction, template | z) and of p(z), and the weights. Without a positive weight, or for an unknown template, it is an error; a failed loading gives no prior. Redshifts beyond the last bin get its values (or an error when asked), invalid values of the files are replaced by a minimal one, and an incomplete file is an error.", "quantifier": "every directory of files, template name, list of redshifts and weights", "why_tests_cant": "the bins, the columns and the redshifts out of the table are all to be covered, and the effect of reading past a table is not visible in a test", "anchors": ["RedshiftLibrary/src/lib/statistics/priorhelper.cpp: CPriorHelper::Init, loadFileEZ, loadFileZ, setEZTData, GetTplPriorData, fillPriorDataPerZ, GetTZEPriorData, getRedshiftIndex, getTemplateIndex", "RedshiftLibrary/RedshiftLibrary/statistics/priorhelper.h: CPriorHelper, SPriorTZE"]}
{"id": "C76", "title": "The template fit with photometry is the joint fit of the spectrum and of one point per band", "statement": "The integrated flux of a band is the photon-weighted mean of the flux per unit of frequency: linear, unchanged for a flat flux, between its bounds. The operator is built exactly for one spectrum with a point for each band of a non empty catalogue; the bands are visited once each by increasing first wavelength. The amplitude and chi square are those of the least squares over the samples and the points together (the weight divides the errors of the points), with or without the shortcut that keeps the sums of the bands beyond Lyman alpha. The constant of the likelihood is the logarithm of the normalisation of all these gaussian errors.", "quantifier": "every band, catalogue, set of points, rebinned templates, weight and order of the igm indices", "why_tests_cant": "the sums kept between two igm indices depend on the history of the calls and on where Lyman alpha falls among the bands", "anchors": ["RedshiftLibrary/src/lib/photometry/photometricband.cpp: CPhotometricBand, IntegrateFlux, GetNameList, GetNameListSortedByLambda", "RedshiftLibrary/src/lib/photometry/photometricdata.cpp: CPhotometricData", "RedshiftLibrary/src/lib/operator/templatefittingwithphot.cpp: COperatorTemplateFittingPhot, checkInputPhotometry, init_fast_igm_processing, ComputePhotCrossProducts, ComputeAmplitudeAndChi2, EstimateLikelihoodCstLog, getIntegratedFluxes", "RedshiftLibrary/src/lib/operator/templatefittingBase.cpp: EstimateLikelihoodCstLog"]}
{"id": "C77", "title": "The redshift PDF can be resampled, made regular and extended without changing its values", "statement": "A PDF object holds one log-probability per redshift of the grid of its parameters (-DBL_MAX each when none is given, an error when the sizes differ). Resampling is the linear interpolation between the two neighbours of every redshift inside the curve, whatever the order of the redshifts, and NaN outside; it goes through the samples and never overshoots. Converting to a regular grid leaves a regular PDF untouched, resamples an irregular one on the first range with the coarse step or with the common step of the sub-grids, and rejects sub-grids with different steps. Extending a regular PDF to the right keeps every value on its redshift and repeats the last value.", "quantifier": "every list of grid parameters, values, target grid and end of range", "why_tests_cant": "the interval search depends on the previous redshift; a read past the end of a vector is invisible in a test", "anchors": ["RedshiftLibrary/src/lib/operator/logZPdfResult.cpp: CLogZPdfResult::CLogZPdfResult, interpolateOnGrid, convertToRegular, extrapolate_on_right_border", "RedshiftLibrary/RedshiftLibrary/operator/logZPdfResult.i: CLogZPdfResult::isRegular", "pylibamazed/python/pylibamazed/PdfHandler.py: PdfHandler.convertToRegular"]}
{"id": "C78", "title": "The table of line-model results stays aligned with its redshift grid through both passes", "statement": "The line-model result holds, for every redshift, the merits, the line solution, the continuum solution and, per continuum template and per template ratio, further merits, flags and priors. After the first pass every row comes from the fit made at its redshift. Refining the grid around the candidates replaces rows in all columns alike, and after the second pass every row is what one fit gave at its own redshift: a second-pass fit inside the windows, the first-pass fit elsewhere; the priors of the template ratios are kept. Wrong sizes are rejected, and the getters return the row asked for.", "quantifier": "every redshift grid, number of continuum templates and template ratios, sequence of fit results (the fit is an arbitrary function of the call and of the redshift), and every list of candidates with insertable windows that do not overlap", "why_tests_cant": "seven vectors and seven lists of vectors are shifted separately for every window; a column forgotten, or shifted by another amount, shows only as merits attributed to a neighbouring redshift", "anchors": ["RedshiftLibrary/src/lib/operator/linemodelresult.cpp: CLineModelResult::Init, updateVectors, SetChisquareTplContinuumResult, SetChisquareTplratioResult, getChisquareTplContinuumResult, getChisquareTplratioResult, getScaleMargCorrTplratioResult, getHaELPresentTplratioResult", "RedshiftLibrary/src/lib/operator/linemodel.cpp: COperatorLineModel::ComputeFirstPass, updateRedshiftGridAndResults, RecomputeAroundCandidates", "RedshiftLibrary/src/lib/common/zgridparam.cpp: CZGridListParams::insertSubgrid"]}
{"id": "C79", "title": "The models given to the redshift PDF are all combinations of line ratio and continuum, with consistent priors", "statement": "For the marginalised PDF the line-model result is turned into one curve of merits per template ratio and per continuum template. The curve of a ratio is its merit plus its line prior; with another continuum it is increased by how much worse that continuum is than the best one (never decreased; unchanged when a merit is NaN). Each curve carries the redshift prior of its ratio (the product of the enabled priors: strong line present, H-alpha strongest, number of H-alpha emitters) and the probability of its ratio divided by the number of continua, so the probabilities sum to the same. The counts and flags behind the priors are those of the lines fitted.", "quantifier": "every result table, number of template ratios and continua (including none), merits possibly NaN, prior options and line catalog", "why_tests_cant": "a model at a wrong place in the array, a prior not divided, or a line counted twice still gives a normalised PDF", "anchors": ["RedshiftLibrary/src/lib/method/linemodelsolve.cpp: CLineModelSolve::BuildChisquareArray, fillChisquareArrayForTplRatio, BuildZpriors, GetZpriorsOptions", "RedshiftLibrary/src/lib/operator/linemodelresult.cpp: CLineModelResult::getNLinesOverCutThreshold, getStrongLinesPresence, getStrongestLineIsHa, getMinChiSquare, getMaxChiSquare", "RedshiftLibrary/src/lib/linemodel/linemodelsolution.cpp: CLineModelSolution::isLineValid"]}
{"id": "C80", "title": "The FFT cross-correlations of the logarithmic template fitting are the direct sums", "statement": "After the FFT buffers are initialised, each call returns for every shift k of the spectrum inside the template exactly the sum over j of X[j]*Y[j+k], whatever the vector lengths, the padding (even or odd), the contents of fresh or unused buffer entries and the order of the calls, as long as each of the two cached slots is always used with the same spectrum vector. (A slot keeps the transform of its first call; the running-sum shortcut for constant X adds the wrong sample.)", "quantifier": "every spectrum and template vector with 1 <= |X| <= |Y| <= padded size, every initial buffer contents, every sequence of calls and slots", "why_tests_cant": "the test compares a direct sum on two short literal vectors and one slot; a wrong padding, a wrapped sample or a stale cached transform only shows for other lengths or call orders", "anchors": ["RedshiftLibrary/src/lib/operator/templatefittinglog.cpp: COperatorTemplateFittingLog::EstimateXtY, EstimateMtMFast, InitFFT, freeFFTPrecomputedBuffers"]}
{"id": "C81", "title": "The logarithmic template fit gives the least-squares fit at every redshift", "statement": "On logarithmic grids aligned with the same step, the fit of a redshift grid split into consecutive ranges gives at every redshift the smallest direct least-squares merit over the igm and dust indices (the first one in case of equality) with its amplitude, error, significance, products and indices, and every merit in the intermediate table, for the template samples that match the spectrum at that redshift; it never fails without priors; the amplitude is optimal, prior included. (The prior is added after the choice of the dust index, which may then not be the best; and the direct method adds the priors under other conditions.)", "quantifier": "every aligned logarithmic grid, spectrum, error, template correction, list of igm and dust indices, threshold, split into ranges, buffer contents and prior table", "why_tests_cant": "the tests fit a few simulated spectra and compare some redshifts; a shifted template index, a lost reversal or a stale best fit shows only for other grids, splits or index lists", "anchors": ["RedshiftLibrary/src/lib/operator/templatefittinglog.cpp: COperatorTemplateFittingLog::FitAllz, FitRangez, FindTplSpectralIndex", "RedshiftLibrary/src/lib/operator/templatefittingBase.cpp: COperatorTemplateFittingBase::applyPositiveAndNonNullConstraint"]}
{"id": "C82", "title": "The redshift grid is split where the intergalactic correction changes", "statement": "The ranges found for the logarithmic template fit contain every redshift of the grid once and in order; they end only where the igm correction changes (the redshift at which the spectrum reaches Lyman-alpha, or a bin of the igm tables); no change is strictly inside a range, and all the redshifts of a range above the start use the igm table of its first redshift. (Except: a redshift equal to a bin boundary is left in the range below; and two changes in one cell of the grid give an empty range, on which the fit reads the first element of an empty vector.)", "quantifier": "every strictly increasing redshift grid, spectrum start and list of igm bins", "why_tests_cant": "one grid is tested; a boundary compared with the wrong inequality or two boundaries in the same cell only appear for particular grids", "anchors": ["RedshiftLibrary/src/lib/operator/templatefittinglog.cpp: COperatorTemplateFittingLog::FindZRanges", "RedshiftLibrary/src/lib/operator/templatefittingBase.cpp: COperatorTemplateFittingBase::GetIGMStartingRedshiftValue"]}
{"id": "C83", "title": "The classification gives normalised probabilities and the first most probable category", "statement": "When at least one category has a finite evidence, the classification succeeds; the probabilities are between 0 and 1, sum to 1, are in the ratio of the evidences and 0 without result, do not depend on the order of the categories, on previous calls or on a constant added to the log-evidences; the label is the first of the most probable categories. Without any finite evidence it fails with NO_CLASSIFICATION. (A NaN evidence gives NaN probabilities without error.)", "quantifier": "every list of categories, every subset with results, every evidence including -inf and NaN, every previous label", "why_tests_cant": "the test runs two fixed spectra; normalisation, ties, missing results and order independence concern every combination of evidences", "anchors": ["RedshiftLibrary/src/lib/method/classificationsolve.cpp: CClassificationSolve::compute"]}
{"id": "C84", "title": "A combination of templates is fitted to the usable samples, and the best dust and igm are returned", "statement": "At each redshift of the sorted list the operator fits exactly the samples of the range that every template covers; for each igm and dust index the chi square written is the least of all linear combinations of the templates interpolated and seen through that dust and igm; the best chi square, E(B-V), igm index and signal to noise are those of the first least cell; every template covers at least the required share of the range; the model of a candidate is the combination of those templates; enough samples and two templates are needed. (Except: the amplitudes, errors and covariance returned are those of the last fit, not of the best one; the covariance is not multiplied by the square of the flux scale; templates without a common wavelength are not refused; a single template is never fitted; the wavelengths of the model are multiplied by 1+z; with all components the continuum is fitted without dust; additional masks change nothing.)", "quantifier": "every spectrum, set of templates, wavelength range, redshift list, set of dust and igm indices", "why_tests_cant": "tests compare one value on one spectrum with a tolerance; minimality concerns all amplitude vectors, and the stale amplitudes only appear when the best cell is not the last one", "anchors": ["RedshiftLibrary/src/lib/operator/tplcombination.cpp: COperatorTplcombination::BasicFit", "RedshiftLibrary/src/lib/operator/tplcombination.cpp: COperatorTplcombination::RebinTemplate", "RedshiftLibrary/src/lib/operator/tplcombination.cpp: COperatorTplcombination::Compute", "RedshiftLibrary/src/lib/operator/tplcombination.cpp: COperatorTplcombination::ComputeSpectrumModel", "RedshiftLibrary/src/lib/method/tplcombinationsolve.cpp: CTplCombinationSolve::Solve", "RedshiftLibrary/src/lib/method/tplcombinationsolve.cpp: CTplCombinationSolve::checkTemplates"]}
{"id": "C85", "title": "The template fitting method reports, for each candidate, the template of least chi square", "statement": "When the method ends, every template of the catalogue was fitted once for each component asked, with the spectra and the template set to that component; the pdf is made from one column per template, dust and igm with a constant prior and the common likelihood constant; each candidate carries the template of least chi square at its redshift (first name among equals) with the amplitude, error, dust, igm and model of that fit; the types of the spectra and of the templates are those before the call. It ends when the fits succeed at the same redshifts. (Except: the component noContinuum accepted by the parameter schema is refused; a failed fit leaves the types and the log sampling changed; a candidate off the grid or without finite chi square is undefined; with all components the continuum is fitted without dust and the candidates are those of the raw spectrum; a first constant equal to -1 is not compared.)", "quantifier": "every catalogue, set of spectra, component, result of the fits and list of candidates", "why_tests_cant": "tests run one parameter set that succeeds; ties between templates, missing results, exceptions and the other component names never occur there", "anchors": ["RedshiftLibrary/src/lib/method/templatefittingsolve.cpp: CTemplateFittingSolve::compute", "RedshiftLibrary/src/lib/method/templatefittingsolve.cpp: CTemplateFittingSolve::Solve", "RedshiftLibrary/src/lib/method/templatefittingsolve.cpp: CTemplateFittingSolve::BuildChisquareArray", "RedshiftLibrary/src/lib/method/templatefittingsolve.cpp: CTemplateFittingSolve::buildExtremaResults"]}
{"id": "C86", "title": "Fitting the line model at a redshift keeps the best pair of continuum and line ratio, and leaves the object in the state of that fit", "statement": "For every continuum candidate and every line ratio catalogue (those with extinction excepted when its fit is disabled) the lines are fitted once; the merit returned is the first least chi-square of these fits (NaN and infinite ones do not count), with the index of its continuum and of its ratio and the solutions of that fit. The per-ratio table holds for every ratio the fit of least chi-square plus prior over the continua, and the entry of the previous ratio for a ratio that was not fitted. Without line priors, once the fit is logged, the object holds the ratio, the continuum, the amplitudes, the errors and the Lya profile of that best fit; an element without a positive amplitude gets amplitude 0 and no error. The chi-square is the sum over the samples of the range but the last one, plus the terms of the continuum. Refuted parts: the line prior is ignored when the ratio is chosen; with line priors, or with the rules, and several continua, the best continuum is left with the amplitudes of another one (the last one with the rules); with svdlc the last continuum stays; absorption lines over the limit are restored with other amplitudes; an element whose amplitude is not a number gets, with line priors, the amplitude of the redshift fitted before.", "quantifier": "every catalogue of ratios, list of continuum candidates, fitter, spectrum, set of elements and content of the tables before the fit", "why_tests_cant": "tests run one fit with one candidate; the mixing of two candidates, stale tables and ties depend on the order of merits over all the pairs", "anchors": ["RedshiftLibrary/src/lib/linemodel/linemodelfitting.cpp: CLineModelFitting::fit", "RedshiftLibrary/src/lib/linemodel/tplratiomanager.cpp: CTplratioManager::computeMerit", "RedshiftLibrary/src/lib/linemodel/tplratiomanager.cpp: CTplratioManager::updateTplratioResults", "RedshiftLibrary/src/lib/linemodel/tplratiomanager.cpp: CTplratioManager::resetToBestRatio", "RedshiftLibrary/src/lib/linemodel/lineratiomanager.cpp: CLineRatioManager::getLeastSquareMerit", "RedshiftLibrary/src/lib/linemodel/rulesmanager.cpp: CRulesManager::computeMerit", "RedshiftLibrary/src/lib/linemodel/continuummanager.cpp: CContinuumManager::LoadFitContinuum", "RedshiftLibrary/RedshiftLibrary/linemodel/elementparam.h: TLineModelElementParam"]}
{"id": "C87", "title": "Candidates handed from the first to the second pass keep their redshift, and combining two first passes loses no redshift", "statement": "Setting the first pass candidates gives each of them the velocities and the continuum found at its redshift, whatever the object held before, and is refused when a candidate is not on the grid. Combining with the candidates of another first pass leaves ours untouched and appends, in order, exactly those that are 5e-4 or more away from all of ours, with their velocities; every redshift of either pass stays represented within 5e-4; doing it a second time changes nothing; it fails only for a candidate off the grid or without continuum template. The report of the first pass gives each candidate its identifier, its line solution, its velocities and its continuum, named noContinuum exactly when the amplitude is zero. The refined window of a candidate is increasing, contains it, lies within the half width (of ln(1+z) with logarithmic sampling) and within the grid, reaches its ends up to a step, and the grid rebuilt from its two ends is the same grid. Refuted parts: two close candidates of the other pass are both kept; an appended candidate gets the continuum of our pass and not of its own; its reported velocities are not those kept for the second pass.", "quantifier": "every pair of candidate lists, result grids, windows and previous states of the object", "why_tests_cant": "tests combine a few well separated candidates once; the separation, the idempotence and the agreement of the rebuilt grid depend on all the distances and on the rounding of the number of steps", "anchors": ["RedshiftLibrary/src/lib/operator/linemodelpassextremaresult.cpp: CLineModelPassExtremaResult", "RedshiftLibrary/src/lib/operator/linemodel.cpp: COperatorLineModel::SetFirstPassCandidates", "RedshiftLibrary/src/lib/operator/linemodel.cpp: COperatorLineModel::Combine_firstpass_candidates", "RedshiftLibrary/src/lib/operator/linemodel.cpp: COperatorLineModel::buildFirstPassExtremaResults", "RedshiftLibrary/src/lib/operator/linemodel.cpp: COperatorLineModel::SpanRedshiftWindow", "RedshiftLibrary/src/lib/operator/linemodel.cpp: COperatorLineModel::buildExtendedRedshifts", "RedshiftLibrary/src/lib/operator/linemodel.cpp: COperatorLineModel::getSPZGridParams", "RedshiftLibrary/src/lib/linemodel/linemodelextremaresult.cpp: TLineModelResult"]}
{"id": "C88", "title": "The velocities and the fits of the second pass: first least merit over the absorption then the emission velocities, each window fitted with the velocities of its candidate", "statement": "For each candidate the second pass tests every pair (redshift, velocity) where the redshift is a sample of its window at most six samples away and the velocity is min + i step with one more step not above the maximum: the absorption velocity first, the emission velocity unchanged, then the emission velocity with the absorption velocity found; the first pair of least finite merit gives the velocity of the candidate; without any finite merit its velocity is not changed. Other candidates and redshifts are not touched, and the fitter, the continuum and the dust flag are put back. Without velocity fit every candidate gets the velocities of the model. A candidate or a window off the grid is refused. The fits of the windows then leave every redshift outside them untouched and give each redshift inside the chi-square and the solution of one and the same fit, made with the velocities of the last candidate whose window contains it. Refuted parts: the maximum velocity is tested; a null step is refused; the pair found is the best pair; the velocities of a candidate do not depend on the candidates before it; the chi-square set for the candidate is of its own redshift and goes with the solution beside it; the model gets its velocities back when no merit is finite.", "quantifier": "every merit function, grid, windows, candidates, velocity limits, option and previous state", "why_tests_cant": "tests fit one or two candidates with one merit surface; which pair is first least, which window comes last and what the previous candidate leaves behind depend on all the merits and on the order", "anchors": ["RedshiftLibrary/src/lib/operator/linemodel.cpp: COperatorLineModel::EstimateSecondPassParameters", "RedshiftLibrary/src/lib/operator/linemodel.cpp: COperatorLineModel::fitVelocity", "RedshiftLibrary/src/lib/operator/linemodel.cpp: COperatorLineModel::RecomputeAroundCandidates", "RedshiftLibrary/src/lib/linemodel/linemodelfitting.cpp: CLineModelFitting::SetVelocityEmission"]}
{"id": "C89", "title": "The continuum templates fitted before each pass: every template at every redshift, ranked, and the continuum decided from the most significant best fit", "statement": "Before the first pass every template of the category is fitted at every redshift, with the FFT operator only when asked for and for 100 redshifts at least, and with the lines masked when asked for unless it is the FFT one, whatever was fitted before; the store holds at each redshift exactly these fits, ranked by merit then significance. With m the largest significance over the redshifts of the best fit: below the negative threshold, the fit is refused, or with tplFitAuto the continuum is taken from the spectrum; between the two thresholds there is no continuum; otherwise the templates are kept. Fewer templates than the number of continua kept is an error. In the second pass the component never changes; each candidate gets its own store on its own redshifts, of all the templates or of the first ones of the first pass at the sample just below its redshift with their dust and Meiksin curve, or all share the store of the first pass; an unknown method, a candidate out of range or below the grid is refused. Refuted parts: a negative continuum found in the second pass with tplFitAuto falls back to the spectrum; an empty redshift list or an empty list of templates is refused.", "quantifier": "every result of the template fitting operators, grid, templates, thresholds, previous operator, method and candidates", "why_tests_cant": "tests run one spectrum whose continuum is well above the thresholds; the decision depends on the best fit at every redshift, and the operator used on the fits before", "anchors": ["RedshiftLibrary/src/lib/operator/linemodel.cpp: COperatorLineModel::PrecomputeContinuumFit", "RedshiftLibrary/src/lib/operator/linemodel.cpp: COperatorLineModel::evaluateContinuumAmplitude", "RedshiftLibrary/src/lib/operator/linemodel.cpp: COperatorLineModel::fitContinuumTemplates", "RedshiftLibrary/src/lib/operator/linemodel.cpp: COperatorLineModel::getContinuumInfoFromFirstpassFitStore", "RedshiftLibrary/src/lib/operator/linemodel.cpp: COperatorLineModel::makeTFOperator", "RedshiftLibrary/src/lib/operator/linemodel.cpp: COperatorLineModel::isfftprocessingActive", "RedshiftLibrary/src/lib/operator/linemodel.cpp: COperatorLineModel::ComputeSecondPass"]}
{"id": "C90", "title": "The profiles of Lya and of the lines absorbed by the intergalactic medium: taken from the catalogue, fitted, and the same whatever redshifts came before", "statement": "At each redshift the first registered line, when asymmetric, takes the profile of the line of the same identifier in the catalogue of the ratio (made fixed or fitted, with the same parameters and support, by the switches; never fitted in the first pass); every absorbed line takes the curve and redshift of the template continuum, or is to be fitted; no other profile changes. A line which is not in the catalogue is an error. The fit then gives to the asymmetric line, when it is fitted and in the range, the first triple of least residual among all those of the grids (from the minimum step by step up to half a step above the maximum) with a positive amplitude, the default one when there is none, and to all the absorbed lines to fit the first curve of least residual. After any sequence of redshifts, passes and ratios whose catalogues keep Lya asymmetric, the result is the one of a fresh model. Refuted parts: every asymmetric line is set and fitted (only the first one is); a catalogue with a symmetric Lya has no effect on the next ones; the values tried and the fitted parameters are inside the limits.", "quantifier": "every elements and lines, catalogue, flags, continuum, redshift, limits of the parameters, fitted amplitudes and residuals, and sequence of visits", "why_tests_cant": "tests fit one line at one redshift; the profiles are updated in place at each redshift and ratio, so a leftover parameter shows up only for some history", "anchors": ["RedshiftLibrary/src/lib/linemodel/lineratiomanager.cpp: CLineRatioManager::setLyaProfile", "RedshiftLibrary/src/lib/linemodel/lineratiomanager.cpp: CLineRatioManager::setAsymProfile", "RedshiftLibrary/src/lib/linemodel/lineratiomanager.cpp: CLineRatioManager::setSymIgmProfile", "RedshiftLibrary/src/lib/linemodel/lineratiomanager.cpp: CLineRatioManager::setPassMode", "RedshiftLibrary/src/lib/linemodel/abstractfitter.cpp: CAbstractFitter::fitLyaProfile", "RedshiftLibrary/src/lib/linemodel/abstractfitter.cpp: CAbstractFitter::fitAsymParameters", "RedshiftLibrary/src/lib/linemodel/abstractfitter.cpp: CAbstractFitter::fitAsymIGMCorrection", "RedshiftLibrary/src/lib/linemodel/lmeltlistvector.cpp: CLMEltListVector::getIgmLinesIndices", "RedshiftLibrary/RedshiftLibrary/linemodel/elementparam.h: TLineModelElementParam", "RedshiftLibrary/src/lib/line/lineprofileASYM.cpp: CLineProfileASYM", "RedshiftLibrary/src/lib/line/lineprofileASYMFIT.cpp: CLineProfileASYMFIT", "RedshiftLibrary/src/lib/line/lineprofileSYMIGM.cpp: CLineProfileSYMIGM"]}
{"id": "C91", "title": "The lines of a catalogue become elements, and what is reported for each line is what was fitted, also after it was loaded again", "statement": "For a catalogue with distinct identifiers every line is in one element only, which is not empty and has no amplitude yet; the elements are the groups (a line without group alone), the two types, or the single lines; the place of a line is found by its identifier, and by no other. The solution has one row by line of the catalogue, in its order: nothing for a line without element, only its element for a line out of the range, else the amplitude, error, offset, velocity, position and group of that line, and in a full solution its flux (never negative for an emission line, never positive for an absorption one, of the first spectrum which has the line; an error when no spectrum has it) and its direct integration with the root of its variance as error; the fluxes of the Halpha and [OII] complexes sum the positive fluxes of their first three or two measured emission lines; the number of degrees of freedom counts the elements in the range with a positive amplitude; the Lya parameters are those of the first registered line of the first element with LyAE. A solution loaded in any state of the same lines gives back these values, resets the others, and reading it again gives the same rows. Refuted parts: the lines of an element have the same type; a line without a group is alone; the two velocities are read again; the polynomial is restored from a short solution; the error of a null flux is known; the complex sums all its lines.", "quantifier": "every catalogue with distinct identifiers, composition, state of the elements, set of spectra, continuum and integration functions", "why_tests_cant": "tests look at one or two lines of one element; a wrong index between the three orders (catalogue, elements, lines of an element) is seen only with other groupings", "anchors": ["RedshiftLibrary/src/lib/linemodel/lmeltlistvector.cpp: CLMEltListVector::LoadCatalog", "RedshiftLibrary/src/lib/linemodel/lmeltlistvector.cpp: CLMEltListVector::findElementIndex", "RedshiftLibrary/src/lib/linemodel/lmeltlistvector.cpp: CLMEltListVector::GetModelNonZeroElementsNDdl", "RedshiftLibrary/src/lib/line/catalog.cpp: CLineCatalogBase::ConvertToGroupList", "RedshiftLibrary/src/lib/linemodel/elementparam.cpp: TLineModelElementParam::TLineModelElementParam", "RedshiftLibrary/src/lib/linemodel/linemodelsolution.cpp: CLineModelSolution", "RedshiftLibrary/src/lib/linemodel/linemodelfitting.cpp: CLineModelFitting::GetModelSolution", "RedshiftLibrary/src/lib/linemodel/linemodelfitting.cpp: CLineModelFitting::LoadModelSolution", "RedshiftLibrary/src/lib/linemodel/linemodelfitting.cpp: CLineModelFitting::getFluxDirectIntegration"]}
{"id": "C92", "title": "The statistics of the whole line model are those of the samples of the fitted range", "statement": "The sums over the range (merit of the continuum alone, <d,d>, <m,m>, number of samples) count exactly the samples begin <= wavelength < end but the last one of each spectrum, each with the square of its error; the standard deviation outside the lines is the root of the mean square over those which are under no line (NaN without any, an error for an unknown quantity); the quick merit of the continuum is the direct one when the sums of the template fit are over these samples; the constant of the likelihood is over the closed range, which has at most one sample more, and fails when the range has no sample; the cached values are those of the continuum component when it did not change since, or after a forced computation. For the signal to noise ratio of the lines, overlapping supports are merged: same samples, every line in one merged support, strong when one of its lines is; lines apart from each other give the sum of the absolute fluxes over the root of the sum of the variances, for all and for the strong ones; NaN without a line. Refuted parts: the quick merit with the closed sums of the template fit; all the samples of the range count; the cache follows a change of component; merged supports share no sample; a line of one sample counts.", "quantifier": "every set of spectra with increasing wavelengths, every range, component, template fit, set of supports and sequence of calls", "why_tests_cant": "the bounds of the window and the order of the supports matter only for particular positions of the range and of the lines; the cache depends on the sequence of the calls", "anchors": ["RedshiftLibrary/src/lib/linemodel/linemodelfitting.cpp: CLineModelFitting::getOutsideLinesMask", "RedshiftLibrary/src/lib/linemodel/linemodelfitting.cpp: CLineModelFitting::getOutsideLinesSTD", "RedshiftLibrary/src/lib/linemodel/linemodelfitting.cpp: CLineModelFitting::getLeastSquareContinuumMerit", "RedshiftLibrary/src/lib/linemodel/linemodelfitting.cpp: CLineModelFitting::getLeastSquareContinuumMeritFast", "RedshiftLibrary/src/lib/linemodel/linemodelfitting.cpp: CLineModelFitting::computeSpcNSamples", "RedshiftLibrary/src/lib/linemodel/linemodelfitting.cpp: CLineModelFitting::getCumulSNRStrongEL", "RedshiftLibrary/src/lib/linemodel/linemodelfitting.cpp: CLineModelFitting::getSNROnRange", "RedshiftLibrary/src/lib/linemodel/linemodelfitting.cpp: CLineModelFitting::initDtd", "RedshiftLibrary/src/lib/linemodel/linemodelfitting.cpp: CLineModelFitting::getDTransposeD", "RedshiftLibrary/src/lib/linemodel/linemodelfitting.cpp: CLineModelFitting::EstimateDTransposeD", "RedshiftLibrary/src/lib/linemodel/linemodelfitting.cpp: CLineModelFitting::EstimateMTransposeM", "RedshiftLibrary/src/lib/linemodel/linemodelfitting.cpp: CLineModelFitting::EstimateLikelihoodCstLog"]}
{"id": "C93", "title": "The redshifts tried by the solvers are the documented grids, and the second first pass changes nothing", "statement": "A grid is the regular steps in z (or in log(1+z)) from the start of the range, all those which do not exceed its end by more than 1e-8, clamped to the end: first redshift at the start, last one within a step of the end. The line model takes the coarse grid of its first pass, or the fine one when the coarse one has less than 10 redshifts; the redshifts taken are always redshifts of the fine grid. The line measurement takes 2n+1 redshifts centred on the reference, which is one of them, over at least the asked half range. With rebinned spectra the range and step are theirs and a linear sampling is refused. The continuum is fitted by FFT when the option of the pass says so and there are at least 100 redshifts. The first pass fails with NULL_MODEL exactly when nothing was fitted at any redshift (no positive line, a continuum amplitude which is a number and not positive). The second first pass runs for at least two candidates and a template continuum; it uses the same continuum as the first one, so that the candidates are those of the first one alone. Refuted parts: one candidate enables it; NULL_MODEL without a continuum; the fall-back gives fewer redshifts; non negative redshifts in the line measurement.", "quantifier": "every range, step, ratio, reference and half range the grid builders accept, every fit, every pair of candidate lists", "why_tests_cant": "the number of samples depends on every combination of range and step; that a pass has no effect is a statement over all its results", "anchors": ["RedshiftLibrary/src/lib/method/objectSolve.cpp: CObjectSolve", "RedshiftLibrary/src/lib/method/linemodelsolve.cpp: CLineModelSolve::Solve", "RedshiftLibrary/src/lib/method/linemodelsolve.cpp: CLineModelSolve::createRedshiftGrid", "RedshiftLibrary/src/lib/method/linemeassolve.cpp: CLineMeasSolve::GetRedshiftSampling", "RedshiftLibrary/src/lib/common/zgridparam.cpp: CZGridParam::getZGrid", "RedshiftLibrary/src/lib/operator/linemodel.cpp: COperatorLineModel::AllAmplitudesAreZero", "RedshiftLibrary/src/lib/operator/linemodel.cpp: COperatorLineModel::isfftprocessingActive", "RedshiftLibrary/src/lib/operator/linemodel.cpp: COperatorLineModel::ComputeFirstPass"]}
{"id": "C94", "title": "The L-BFGS-B fit of a group of overlapping elements stays within its bounds and minimises the squared residuals", "statement": "The group is fitted on one amplitude per element, one velocity per kind of line when they are fitted, one velocity offset for all the lines, and the three coefficients of a polynomial. When there are less samples than parameters the amplitudes are zero with an infinite error. Otherwise the amplitudes are never negative, the velocities are the same for all the elements of a kind and within the configured range, all the lines are shifted by the same factor, within the configured range, on top of their catalogue offset, and all the elements hold the same polynomial, which is the one of the fit in flux units. The function minimised is the sum over the samples of the squared residuals of the model in units of the error; when no line enters or leaves the spectral range with the offset it does not depend on the points evaluated before. When no line is above its error in the linear fit, the linear fit is kept; when the minimiser fails, the fit is the one of the initial guess. A fit is returned only when the amplitudes of the linear fit are numbers. The fit never reads outside of its vectors whatever the minimiser evaluates, if all the elements but the last one have the same kind. Refuted parts: a second element of the second kind (uninitialised bounds); standard deviations after an element outside the range; dependence on the previous evaluation; the offset flag of the caller, which is ignored; the velocity left after a fit on too few samples; the limit of an absorption amplitude, which is multiplied by the largest flux.", "quantifier": "every group of elements, spectrum, configuration, linear fit and minimiser (a strategy choosing each point from the values seen, which may fail)", "why_tests_cant": "the minimiser may evaluate any sequence of points; the group, the kinds and the flags combine without bound", "anchors": ["RedshiftLibrary/src/lib/linemodel/gaussianfit/lbfgsbfitter.cpp: CLbfgsbFitter::fitAmplitudesLinSolvePositive", "RedshiftLibrary/src/lib/linemodel/gaussianfit/lbfgsbfitter.cpp: CLeastSquare::unpack", "RedshiftLibrary/src/lib/linemodel/gaussianfit/lbfgsbfitter.cpp: CLeastSquare::ComputeLeastSquare", "RedshiftLibrary/src/lib/linemodel/gaussianfit/lbfgsbfitter.cpp: CLbfgsbFitter::resetSupport", "RedshiftLibrary/RedshiftLibrary/linemodel/elementparam.h: TLineModelElementParam::setAmplitudes", "RedshiftLibrary/src/lib/linemodel/element.cpp: CLineModelElement::getModelAtLambda", "RedshiftLibrary/src/lib/linemodel/element.cpp: CLineModelElement::GetElementAmplitude", "RedshiftLibrary/src/lib/common/polynom.cpp: CPolynomCoeffsNormalized"]}
{"id": "C95", "title": "A failed step of the processing of a spectrum does not disturb the others, is reported where the user looks for it, and leaves the scope clean", "statement": "Whatever the calibration, the reader, the solvers and the store do, the scope stack after a run is the one before the run, so the next spectra of a session start clean. An interruption ends the run. Otherwise the run initialises, goes through the spectrum models in the order of the parameters, each one through its own stages (redshift solver; then, if it succeeded, sub-classification, reliability, loading of the line measurement inputs; then the line measurement) whatever happens to the other models, then classifies if some redshift solver was used and not all failed, and loads the results; it raises only if the flags cannot be stored or the root results cannot be loaded after a failed initialisation. A stage which was called has an error in the output exactly if it failed, with its code; a stage which was not called has an error exactly if it was requested and a failed stage of the same model prevents it, and the error names that stage; a failed initialisation is reported for all the requested stages of all the models. Refuted parts: the classification is run although all the redshift solvers failed when a model has none; a requested line measurement or reliability is silently skipped; the loading of the line measurement inputs is reported for the wrong models when the initialisation fails and is not reported when the redshift solver fails; a spectrum model named classification makes every run raise.", "quantifier": "every set of parameters, every spectrum of a session and every outcome (success, error with a code, other exception, interruption) of every call, which may depend on all the earlier ones", "why_tests_cant": "the failures of the stages combine with the requested stages and the number of models without bound; tests fail one call at a time", "anchors": ["pylibamazed/python/pylibamazed/ProcessFlow.py: ProcessFlow.run", "pylibamazed/python/pylibamazed/ProcessFlow.py: ProcessFlow.process_spectrum_model", "pylibamazed/python/pylibamazed/ProcessFlow.py: ProcessFlow.all_redshift_solver_failed", "pylibamazed/python/pylibamazed/ScopeManager.py: push_scope", "pylibamazed/python/pylibamazed/ResultStoreOutput.py: ResultStoreOutput.store_error", "pylibamazed/python/pylibamazed/AbstractOutput.py: spectrum_model_stages", "pylibamazed/python/pylibamazed/Parameters.py: Parameters.stage_enabled"]}
{"id": "C96", "title": "The spectra given to the library are exactly the samples of the client which pass the filters", "statement": "When the reader accepts the data of a source, all the columns of all the observations are coherent (same observations, same lengths); without several observations the one spectrum has the samples which pass all the filters, in order and with their own flux and error; with several observations kept apart there is one such spectrum per observation; merged, there is one spectrum with all the kept samples of all the observations once each, by strictly increasing wavelength, the k-th one of a wavelength being shifted by k times 1e-10. Each instruction of a filter keeps what its documentation says. The wavelengths are converted if and only if they are in the air; the warning on the range concerns exactly the observations whose range of parameters is not covered. Coherent data with usable filters are accepted; merging is accepted when different wavelengths are far enough. Refuted parts: a spectrum emptied by the filters and a range cut by the filters are accepted without warning; the names of columns accepted by the check of the parameters are never accepted by the reader; an instruction of the schema is always refused; the instruction documented as flag absent keeps samples with the flag; the conversion method cannot be chosen in version 2; the ASCII reader loses the names of the observations; the extreme wavelengths of the parameters are wrong.", "quantifier": "every source (any number of observations, columns, samples, NaN values, flags), every list of filters, every set of parameters of the three modes and, for merging, every sorting algorithm", "why_tests_cant": "combinations of filters, flags and overlapping observations are unbounded; a wrong sample among thousands is not seen in a test of the redshift", "anchors": ["pylibamazed/python/pylibamazed/AbstractSpectrumReader.py: AbstractSpectrumReader.init", "pylibamazed/python/pylibamazed/AbstractSpectrumReader.py: AbstractSpectrumReader._add_cspectra", "pylibamazed/python/pylibamazed/Filter.py: SpectrumFilterItem", "pylibamazed/python/pylibamazed/Filter.py: FilterList.apply", "pylibamazed/python/pylibamazed/FilterLoader.py: ParamJsonFilterLoader", "pylibamazed/python/pylibamazed/ASCIISpectrumReader.py: ASCIISpectrumReader.load_wave", "pylibamazed/python/pylibamazed/ParametersAccessor.py: ParametersAccessor.get_airvacuum_method", "pylibamazed/python/pylibamazed/Parameters.py: Parameters.get_lambda_range_min"]}
{"id": "C97", "title": "The parameters of the client keep their meaning when they are converted to the names read by the library", "statement": "Version 1: every name of the published table is renamed as the table says, in one step, and no other; two old names are not merged; the tree keeps its shape, order and values. When the conversion succeeds every spectrum model asks for the same stages, methods and sections as before (redshift, line measurement, reliability), everything else is untouched; it succeeds exactly when every stage asked for has its section. The names read by the accessors are the converted ones of names accepted by the schema. Version 2: without two entries getting the same name, the entries after the conversion are exactly the ones of the client, without the mark of the sections. Refuted parts: strings of the client are renamed as well (a column named linemodel); in version 2 the line measurement is never run and its parameters never read although its stage is accepted; the file of variable widths and the directory of the priors are never read; no asymmetric profile of Lyman alpha is accepted; a section may replace a general parameter.", "quantifier": "every tree of parameters (any depth, any names and values), any number of spectrum models, both versions", "why_tests_cant": "a name misspelt between the schema, the table and the accessors is silent, since a missing parameter reads as None; the combinations of stages, models and sections are not enumerable", "anchors": ["pylibamazed/python/pylibamazed/ParametersConverter.py: ParametersConverterV1.convert", "pylibamazed/python/pylibamazed/ParametersConverter.py: ParametersConverterV2.convert", "pylibamazed/python/pylibamazed/ParametersAccessor.py: ParametersAccessor.get_linemeas_method", "pylibamazed/auxdir/pylibamazed/rename_params_v1_to_treed.csv", "pylibamazed/auxdir/pylibamazed/jsonschema-v2/spectrum_model.json", "pylibamazed/auxdir/pylibamazed/jsonschema-v2/linemeas_solver.json", "pylibamazed/auxdir/pylibamazed/jsonschema-v2/lya_fit.json", "pylibamazed/auxdir/pylibamazed/jsonschema-v2/line_model_priors.json", "pylibamazed/auxdir/pylibamazed/jsonschema-v2/lsf.json"]}
{"id": "C98", "title": "The defaults added to the parameters are complete and change nothing the client has to give", "statement": "After the extension every parameter which the client does not have to give has its default (removal of the continuum of the spectra and of the templates, reestimation of the continuum, logarithmic sampling, median kernel), for every listed spectrum model; every other value of the tree, at any depth, is the one of the client, in particular the parameters which are needed (hybrid fitting, FFT processing, removal of the continuum, irregular sampling median). The extension is accepted as soon as the sections on the way are sections, absent or null. Refuted parts: values given by the client where they are not considered needed are replaced without a word; the documented value for no reestimation, written by the extension itself, is counted as a reestimation by the condition on the removal of the continuum.", "quantifier": "every tree of converted parameters and every number of spectrum models", "why_tests_cant": "the defaults depend on combinations of methods over all the models, and the absence of side effects concerns every path of every tree", "anchors": ["pylibamazed/python/pylibamazed/ParametersExtender.py: ParametersExtender.extend", "pylibamazed/python/pylibamazed/ParametersChecker.py: ParametersChecker.continuum_removal_presence_condition", "pylibamazed/python/pylibamazed/ParametersChecker.py: ParametersChecker.useloglambdasampling_presence_condition", "pylibamazed/python/pylibamazed/ParametersAccessor.py: ParametersAccessor._get_or_create_section"]}
{"id": "C99", "title": "The reliability is the probability of success of a network that matches the PDF", "statement": "The reliability network is used exactly when the converted PDF has the number of points of its input and the grid fits the one of the training: its last redshift not above, its step not below, within one millionth. It is given the probabilities (not their logarithms); each class after the first one is reported with the probability of its position and nothing else is reported; the reliability is the probability of the class success. A network file is accepted exactly when its major version is not after the installed one and its redshift range and step are those of the solver. The grid parameters read back from an output are, for each i, the i-th row of the table; there is one sub type per candidate, the one of its own line ratios. Refuted parts: a much coarser and shorter grid is accepted (the tests are one-sided); versions of more than one digit are compared as strings (10 is accepted by 9, 9 rejected by 10); columns of different lengths are silently cut to the shortest.", "quantifier": "every PDF, network, training description, table of parameters and number of candidates", "why_tests_cant": "the acceptance concerns real grids of any length, and the correspondence of classes, rows and candidates every length of the lists", "anchors": ["pylibamazed/python/pylibamazed/Reliability.py: ReliabilitySolve.get_probas", "pylibamazed/python/pylibamazed/PdfHandler.py: buildPdfParams", "pylibamazed/python/pylibamazed/CalibrationLibrary.py: load_reliability_model", "pylibamazed/python/pylibamazed/SubType.py: SubType.Compute"]}
