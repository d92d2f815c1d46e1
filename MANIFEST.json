{
 "claims": [
  {
   "property": "C01",
   "status": "proved",
   "theorems": [
    "C01_filter_stream",
    "C01_response_unique",
    "C01_filter_cut_independent",
    "C01_filter_rejects"
   ],
   "note": "Any carrier and operations, so bit-exact for IEEE doubles; order-0 IIR is excluded by the statement (see C03)."
  },
  {
   "property": "C02",
   "status": "proved",
   "theorems": [
    "C02_filter_reset_fresh"
   ],
   "note": "Any carrier; history is any mix of process and reset calls."
  },
  {
   "property": "C03",
   "status": "partial",
   "theorems": [
    "C03_filter_memory_safe_refuted",
    "C03_filter_order0_always_UB",
    "C03_filter_memory_safe_partial"
   ],
   "note": "The full statement is false: order-0 IIR filters (accepted by the constructor) write bufa[20] of a 20-element vector on the 21st sample. Proved safe for FIR and order >= 1."
  },
  {
   "property": "C04",
   "status": "partial",
   "theorems": [
    "C04_filtfilt_pure_refuted",
    "C04_filtfilt_first_call_partial",
    "C04_filtfilt_every_call_partial"
   ],
   "note": "Second call on one object starts from leftover state (refuted by witness); first call proved exact; exact meaning of all later calls proved."
  },
  {
   "property": "C05",
   "status": "proved",
   "theorems": [
    "C05_median_percentile",
    "C05_median_percentile_double"
   ],
   "note": "Generic in the element order and instantiated at IEEE-754 data (SpecFloat). The integer obtained from int(size*p/100.f) is a parameter of the model: any value is covered, the float expression producing it is not modelled."
  },
  {
   "property": "C06",
   "status": "proved",
   "theorems": [
    "C06_median_filter_centred",
    "C06_median_filter_centred_double"
   ],
   "note": "Any size >= 1, any input length."
  },
  {
   "property": "C07",
   "status": "proved",
   "theorems": [
    "C07_framer_covers"
   ],
   "note": "Any prior state of the object."
  },
  {
   "property": "C08",
   "status": "partial",
   "theorems": [
    "C08_framer_reuse_refuted",
    "C08_framer_reuse_unsafe_refuted",
    "C08_framer_reuse_reset_partial",
    "C08_framer_reuse_continues_partial"
   ],
   "note": "False of the code: setSource does not rewind (witnesses: wrong data; out-of-bounds write for a shorter second source). Proved correct when resetCounters() is called, and characterised otherwise."
  },
  {
   "property": "C09",
   "status": "proved",
   "theorems": [
    "C09_decimator_stream",
    "C09_response_unique",
    "C09_response_difference",
    "C09_decimator_block_independent",
    "C09_decimator_reset_fresh"
   ],
   "note": "Any carrier and operations (bit-exact for doubles), float and double sample types; coefficient tables transcribed as exact decimals."
  },
  {
   "property": "C10",
   "status": "partial",
   "theorems": [
    "C10_decimator_in_place_refuted",
    "C10_decimator_in_place_partial",
    "C10_decimator_factor1_partial"
   ],
   "note": "False for factor 1 with dst a few samples above src (forward copy); proved for every overlap when the factor is >= 2, and for factor 1 when dst <= src or disjoint."
  },
  {
   "property": "C100",
   "status": "proved",
   "theorems": [
    "C100_gain",
    "C100_polynomials"
   ],
   "note": "As C98."
  },
  {
   "property": "C101",
   "status": "proved",
   "theorems": [
    "C101_invert",
    "C101_regular",
    "C101_unique"
   ],
   "note": "Exact reals. LAPACK and BLAS routines transcribed, for the arguments invert gives them."
  },
  {
   "property": "C102",
   "status": "partial",
   "theorems": [
    "C102_never_exits",
    "C102_singular_reported_refuted",
    "C102_zero_determinant_partial"
   ],
   "note": "False as documented: dgetrf_ returns 0 always, and its info would be positive. The remainder is proved."
  },
  {
   "property": "C103",
   "status": "proved",
   "theorems": [
    "C103_initial",
    "C103_training",
    "C103_regular",
    "C103_inverse"
   ],
   "note": "Exact reals."
  },
  {
   "property": "C104",
   "status": "proved",
   "theorems": [
    "C104_constant_coefficient",
    "C104_same_frames"
   ],
   "note": "Exact reals; feature type unknown (setFeatures). Neighbourhood limits below 2^19."
  },
  {
   "property": "C105",
   "status": "proved",
   "theorems": [
    "C105_training",
    "C105_iterations",
    "C105_unique"
   ],
   "note": "Exact reals. Generalised expectation maximisation: covariance about the old means first, then the means; triangular factors for the determinant."
  },
  {
   "property": "C106",
   "status": "partial",
   "theorems": [
    "C106_fifty_iterations",
    "C106_stops_refuted"
   ],
   "note": "False: *loglik2 is set before the loop over the observations has added to *loglik. What happens instead is proved."
  },
  {
   "property": "C107",
   "status": "proved",
   "theorems": [
    "C107_decimator_doubles",
    "C107_decimatorB_doubles"
   ],
   "note": "IEEE binary64, round to nearest even, every operation rounded (no fused or extended-precision arithmetic); literals are the nearest doubles."
  },
  {
   "property": "C108",
   "status": "partial",
   "theorems": [
    "C108_princarg_doubles_partial",
    "C108_range_refuted",
    "C108_large_refuted"
   ],
   "note": "True up to |x| = 2^48 with error 10 (|x| + 4) 2^-53 (also on the range). The exact range is refuted (a double near 37 pi gives a result above pi), and so is any range for huge arguments (one near 2^59.8 gives more than 131)."
  },
  {
   "property": "C109",
   "status": "proved",
   "theorems": [
    "C109_unwrapping_doubles"
   ],
   "note": "IEEE binary64, round to nearest even; the measured phases (atan2) are inputs, finite and of magnitude at most 4."
  },
  {
   "property": "C11",
   "status": "partial",
   "theorems": [
    "C11_C12_resampler_stream_partial",
    "C11_interpolated_unique",
    "C11_resampler_cut_independent",
    "C11_C12_default_resampler_partial",
    "C11_resampler_all_rates_refuted"
   ],
   "note": "Any carrier and operations, any filter at least as long as the reduced rates; for the default constructor the filter is proved to be the Kaiser-windowed sinc over exact reals. False for reduced source rates above 200001: process() throws (refuted by 300001 -> 1)."
  },
  {
   "property": "C110",
   "status": "proved",
   "theorems": [
    "C110_forward",
    "C110_inverse",
    "C110_roundtrip"
   ],
   "note": "IEEE binary64, round to nearest even, no fused operations; cos and sin of the C library are any functions within 2^-52 of the true values for arguments up to 7."
  },
  {
   "property": "C111",
   "status": "proved",
   "theorems": [
    "C111_forward",
    "C111_magnitude",
    "C111_inverse",
    "C111_roundtrip"
   ],
   "note": "IEEE binary64, round to nearest even, no fused operations; cos and sin of the C library are any functions within 2^-52 of the true values for arguments up to 7; sqrt is correctly rounded."
  },
  {
   "property": "C112",
   "status": "partial",
   "theorems": [
    "C112_forward_partial",
    "C112_inverse",
    "C112_forward_unitary_partial",
    "C112_inverse_unitary",
    "C112_roundtrip_partial",
    "C112_history_refuted"
   ],
   "note": "True of the inverses. The forward transforms keep the rounding residue that an inverse leaves in the even samples of the time buffer: with the values of glibc's cos and sin, an inverse of (0, 2^200, 0) makes a later forward of zeros return more than 2^146 (refuted). Proved instead: the error bound with a further term 355 M (178 M, 356 M), M the largest coefficient given to an earlier inverse."
  },
  {
   "property": "C113",
   "status": "proved",
   "theorems": [
    "C113_sum",
    "C113_mean",
    "C113_mean_range"
   ],
   "note": "IEEE binary64, round to nearest even, no extended precision."
  },
  {
   "property": "C114",
   "status": "partial",
   "theorems": [
    "C114_unit_sum_partial",
    "C114_zeros",
    "C114_mixed_refuted",
    "C114_unit_max"
   ],
   "note": "NormaliseUnitMax as claimed. NormaliseUnitSum proved for non-negative values; with both signs it is refuted: 2^60, 100, -2^60 have the sum 100, but the computed sum is 0 and the data stay as they are."
  },
  {
   "property": "C115",
   "status": "partial",
   "theorems": [
    "C115_round_partial",
    "C115_half_refuted",
    "C115_large_refuted"
   ],
   "note": "True up to 2^52 - 1 except for the double just below 1/2, which goes to 1; 2^52 + 1 goes to 2^52 + 2."
  },
  {
   "property": "C116",
   "status": "proved",
   "theorems": [
    "C116_threshold"
   ],
   "note": "IEEE binary64, round to nearest even, no extended precision."
  },
  {
   "property": "C117",
   "status": "proved",
   "theorems": [
    "C117_factorial",
    "C117_infinite",
    "C117_negative"
   ],
   "note": "IEEE binary64. The 171 finite cases by kernel computation, the rest by induction. For the largest int the loop counter overflows; excluded."
  },
  {
   "property": "C118",
   "status": "proved",
   "theorems": [
    "C118_local",
    "C118_stable"
   ],
   "note": "IEEE binary64, round to nearest even, no fused operations."
  },
  {
   "property": "C119",
   "status": "proved",
   "theorems": [
    "C119_resampler"
   ],
   "note": "IEEE binary64, round to nearest even, no fused operations. The kernel is any array of finite doubles: its own computation (Kaiser window, sinc) is covered over the reals only (C11)."
  },
  {
   "property": "C12",
   "status": "partial",
   "theorems": [
    "C11_C12_resampler_stream_partial",
    "C11_C12_default_resampler_partial",
    "C12_process_vector_overload",
    "C12_ceil_in_double",
    "C11_resampler_all_rates_refuted"
   ],
   "note": "As C11. The ceiling expression is proved exact in IEEE double (Flocq) while n*target < 2^53."
  },
  {
   "property": "C120",
   "status": "proved",
   "theorems": [
    "C120_frames",
    "C120_any_state",
    "C120_new"
   ],
   "note": "IEEE binary64, round to nearest even, no fused operations. cos, sin and atan2 of the C library are parameters: within 2^-52, and a direction within 2^-50."
  },
  {
   "property": "C121",
   "status": "partial",
   "theorems": [
    "C121_accurate_partial",
    "C121_range_partial",
    "C121_sizes",
    "C121_negative_refuted",
    "C121_overflow_refuted"
   ],
   "note": "Proved for sums of squares from 2^-400 to 2^400. Without that it is refuted: the vector (2^300) has the distance 1 from itself, since the product of the squared norms overflows. The distance can be a little below 0: (1, 2) and (5/7, 10/7). Vectors of smaller norm, zero vectors among them, are not covered."
  },
  {
   "property": "C122",
   "status": "proved",
   "theorems": [
    "C122_auto"
   ],
   "note": "IEEE binary64, round to nearest even, no fused operations; input and output do not overlap."
  },
  {
   "property": "C123",
   "status": "partial",
   "theorems": [
    "C123_median_partial",
    "C123_odd",
    "C123_overflow_refuted"
   ],
   "note": "As claimed for odd lengths, and for even ones up to magnitudes of 2^999. Without that it is refuted: the median of 2^1023 and 2^1023 is infinite. IEEE binary64; std::sort is any function returning an ordered permutation."
  },
  {
   "property": "C13",
   "status": "partial",
   "theorems": [
    "C13_resample_partial",
    "C13_default_resample_partial",
    "C11_resampler_all_rates_refuted"
   ],
   "note": "Proved for reduced rates up to 200001 (all usual rates)."
  },
  {
   "property": "C14",
   "status": "partial",
   "theorems": [
    "C14_princarg_partial",
    "C14_princarg_unique",
    "C14_princarg_interval_refuted"
   ],
   "note": "Exact reals. The interval is (-pi, pi], not the documented [-pi, pi)."
  },
  {
   "property": "C15",
   "status": "partial",
   "theorems": [
    "C15_isPowerOfTwo",
    "C15_nextPowerOfTwo",
    "C15_nextPowerOfTwo_overflow",
    "C15_previousPowerOfTwo",
    "C15_nearestPowerOfTwo_partial",
    "C15_nearestPowerOfTwo_overflow_refuted"
   ],
   "note": "32-bit int with overflow as undefined behaviour. Everything proved except that nearestPowerOfTwo overflows at the two lowest ints."
  },
  {
   "property": "C16",
   "status": "proved",
   "theorems": [
    "C16_circShift",
    "C16_rotation_unique",
    "C16_circShift_negative"
   ],
   "note": "Any element type."
  },
  {
   "property": "C17",
   "status": "proved",
   "theorems": [
    "C17_normalise_sum",
    "C17_normalise_max",
    "C17_normalise_none",
    "C17_normalise_overloads_agree"
   ],
   "note": "Exact reals."
  },
  {
   "property": "C18",
   "status": "partial",
   "theorems": [
    "C18_alloc_safe_partial",
    "C18_alloc_safe_any_size",
    "C18_alloc_safe_refuted",
    "C18_zero_size_refuted"
   ],
   "note": "Proved for all histories holding at most 512*1024 elements; beyond that the vector of blocks reallocates and deletes the memory of all blocks (refuted). Element size 0 refuted."
  },
  {
   "property": "C19",
   "status": "partial",
   "theorems": [
    "C19_await_after_completion_partial",
    "C19_await_after_completion_windows",
    "C19_await_after_completion_refuted"
   ],
   "note": "All interleavings and numbers of rounds, for the Windows implementation and for pthreads without spurious wake-ups; refuted with spurious wake-ups, which POSIX allows."
  },
  {
   "property": "C20",
   "status": "partial",
   "theorems": [
    "C20_no_deadlock_partial",
    "C20_no_deadlock_refuted",
    "C20_destroy_without_await_deadlocks"
   ],
   "note": "As C19; bounded number of steps to return under every schedule; deadlock after a spurious wake-up refutes the full statement."
  },
  {
   "property": "C21",
   "status": "partial",
   "theorems": [
    "C21_key_range",
    "C21_key_meaning",
    "C21_zero_window_any",
    "C21_zero_window_refuted"
   ],
   "note": "Any arithmetic for the range, exact reals for the meaning; for all smoothing and median windows of at least one frame. A window of zero frames (average 0) is refuted: the first call writes outside an empty array."
  },
  {
   "property": "C22",
   "status": "partial",
   "theorems": [
    "C22_beats_increasing_partial",
    "C22_long_last_period",
    "C22_beats_refuted"
   ],
   "note": "Any arithmetic, periods >= 0 covering the df, provided the last period is shorter than the df plus one frame; otherwise (proved) the code reads before its array."
  },
  {
   "property": "C23",
   "status": "partial",
   "theorems": [
    "C23_beats_optimal_partial",
    "C23_beats_optimal_refuted"
   ],
   "note": "Exact reals, whole-frame periods >= 1, df >= 0, alpha in [0,1]: the beats are an optimal chain of those ending within the last period, except that a first beat in frame 0 is omitted (refutes the full statement)."
  },
  {
   "property": "C24",
   "status": "proved",
   "theorems": [
    "C24_viterbi_best_path"
   ],
   "note": "Exact reals; rectangular non-negative fit matrix not wider than the weight vector, at least two frames, beat_period covering 128 values per frame."
  },
  {
   "property": "C25",
   "status": "proved",
   "theorems": [
    "C25_buffered_audio"
   ],
   "note": "Any arithmetic; size_t overflow and failing malloc not modelled. The decimators keep their state over a reset, so the audio after a reset is the tail of the decimation of the whole stream."
  },
  {
   "property": "C26",
   "status": "proved",
   "theorems": [
    "C26_downbeats",
    "C26_no_audio"
   ],
   "note": "Exact reals; the transform is any function returning at least half a frame; beat times not negative."
  },
  {
   "property": "C27",
   "status": "proved",
   "theorems": [
    "C27_viterbi_most_probable",
    "C27_viterbi_any_arithmetic",
    "C27_viterbi_singular"
   ],
   "note": "Exact reals with minus infinity for log 0; also for any carrier whose addition is monotone in its first argument. The inversion is that of C101; with a singular covariance the state is 0 throughout."
  },
  {
   "property": "C28",
   "status": "proved",
   "theorems": [
    "C28_posteriors"
   ],
   "note": "Exact reals. Stronger than stated: the arrays hold exactly the posterior probabilities (sums over all state sequences) and loglik the log likelihood."
  },
  {
   "property": "C29",
   "status": "proved",
   "theorems": [
    "C29_baum_welch_stochastic",
    "C29_zero_occupancy_refuted"
   ],
   "note": "Exact reals. Rows of states with zero occupancy become zero (witness: a single observation)."
  },
  {
   "property": "C30",
   "status": "partial",
   "theorems": [
    "C30_fft_is_dft_partial",
    "C30_fft_inverse_is_inverse_dft_partial",
    "C30_constructed",
    "C30_every_size_refuted"
   ],
   "note": "Exact reals. Holds for every size up to 2^30 with any prime factors; above that the int index into the twiddle factors overflows, and the full statement is refuted for size 7^11, which fits an int."
  },
  {
   "property": "C31",
   "status": "partial",
   "theorems": [
    "C31_fft_inverse_partial"
   ],
   "note": "Exact reals, sizes up to 2^30 (see C30), both orders."
  },
  {
   "property": "C32",
   "status": "proved",
   "theorems": [
    "C32_construction",
    "C32_forward_is_dft",
    "C32_magnitude",
    "C32_inverse_is_inverse_dft",
    "C32_inverse_undoes_forward"
   ],
   "note": "Exact reals, every even int size; also the magnitude method and the inverse of an arbitrary half spectrum."
  },
  {
   "property": "C33",
   "status": "proved",
   "theorems": [
    "C33_constructed",
    "C33_forward_is_dct",
    "C33_inverse_is_idct",
    "C33_inverse_undoes_forward",
    "C33_forward_undoes_inverse",
    "C33_unitary_energy",
    "C33_unitary_inverse_undoes_forward",
    "C33_unitary_forward_undoes_inverse"
   ],
   "note": "Exact reals; from any state of the object reached by earlier calls; 4n fits an int."
  },
  {
   "property": "C34",
   "status": "proved",
   "theorems": [
    "C34_construction",
    "C34_time_frame",
    "C34_frequency_frame",
    "C34_reset",
    "C34_congruent",
    "C34_unwraps_unique",
    "C34_first_frame",
    "C34_follows"
   ],
   "note": "Exact reals; every even size an int can hold, every hop, any sequence of frames in either domain and resets."
  },
  {
   "property": "C35",
   "status": "partial",
   "theorems": [
    "C35_onsets",
    "C35_first",
    "C35_short",
    "C35_parabola",
    "C35_longer_refuted",
    "C35_data_refuted"
   ],
   "note": "Exact reals. Proved for every configuration with pre + post < length, every history of calls and 4 <= len <= configured length with data of at least the configured length, not all zero. Outside that range process(src, len) leaves its buffers: len above the configured length, or data shorter than it whatever len says (proved undefined). Missing: all-zero data (0/0)."
  },
  {
   "property": "C36",
   "status": "proved",
   "theorems": [
    "C36_autocorrelation_positive"
   ],
   "note": "Exact reals; the vectors may be of any length, source and destination do not overlap."
  },
  {
   "property": "C37",
   "status": "proved",
   "theorems": [
    "C37_cosine_value",
    "C37_cosine_range",
    "C37_cosine_symmetric",
    "C37_cosine_mismatch",
    "C37_cosine_proportional"
   ],
   "note": "Symmetry holds for arbitrary arithmetic with a commutative multiplication; the rest over exact reals."
  },
  {
   "property": "C38",
   "status": "partial",
   "theorems": [
    "C38_gaussian_nonneg",
    "C38_gaussian_is_divergence",
    "C38_gaussian_symmetric_partial",
    "C38_gaussian_identical_partial",
    "C38_gaussian_symmetric_refuted",
    "C38_gaussian_identical_refuted",
    "C38_distribution_symmetric",
    "C38_distribution_symmetrised_nonneg",
    "C38_distribution_nonneg_partial"
   ],
   "note": "Exact reals. The small constant added to the deviations makes exact symmetry and exact zero false (refuted with witnesses); the defect is bounded instead."
  },
  {
   "property": "C39",
   "status": "partial",
   "theorems": [
    "C39_partition",
    "C39_unique",
    "C39_segment_partial",
    "C39_types_partial",
    "C39_short",
    "C39_documented_types_refuted",
    "C39_long_undefined",
    "C39_long_refuted"
   ],
   "note": "Exact reals from the features to the frame types; int positions with overflow. The types are 1..n, not 0..n-1 as Segmenter.h says (refuted); len * hop above 2^31-1 overflows (refuted). PCA is a parameter that must return; C66_segment_partial has it from pca.c. Histogram length odd, or less than the number of frames. From samples on: C95."
  },
  {
   "property": "C40",
   "status": "partial",
   "theorems": [
    "C40_construction",
    "C40_parameters",
    "C40_range",
    "C40_kernel",
    "C40_no_kernel",
    "C40_product_partial",
    "C40_linear_partial",
    "C40_interleaved_refuted",
    "C40_interleaved_always_overruns",
    "C40_interleaved_no_kernel",
    "C40_interleaved_off_by_one",
    "C40_overloads_agree_refuted"
   ],
   "note": "Exact reals. The overload with separate arrays is proved for every configuration, history and frame. The claim is false for the interleaved overload: it writes one element past its array on every call once a kernel exists, and even with a longer array takes every bin one too low."
  },
  {
   "property": "C41",
   "status": "proved",
   "theorems": [
    "C41_window_shapes",
    "C41_hann_overlap",
    "C41_cut",
    "C41_cut_in_place",
    "C41_getWindowData",
    "C41_kaiser",
    "C41_sinc"
   ],
   "note": "Exact reals. Kaiser for length >= 2 (length 1 divides 0 by 0) and beta >= 0."
  },
  {
   "property": "C42",
   "status": "proved",
   "theorems": [
    "C42_least_squares",
    "C42_normal_equations",
    "C42_coefficient",
    "C42_exact",
    "C42_degenerate",
    "C42_rejects"
   ],
   "note": "Exact reals; every number of coefficients and points. The Gauss-Jordan pivot search, row exchanges and singularity test are modelled step by step; the determinant, which nothing reads, is not. PolyFit2 reports failure exactly when there are fewer different abscissae than coefficients."
  },
  {
   "property": "C43",
   "status": "partial",
   "theorems": [
    "C43_decimatorB_stream",
    "C43_halved_unique",
    "C43_decimatorB_unsupported",
    "C43_decimatorB_zero_refuted"
   ],
   "note": "Any carrier and operations. Everything proved except factor 0, where the constructor divides by zero before checking (refuted)."
  },
  {
   "property": "C44",
   "status": "proved",
   "theorems": [
    "C44_decimator_bounded",
    "C44_decimatorB_bounded",
    "C44_decimator_dc",
    "C44_decimatorB_dc"
   ],
   "note": "Exact real arithmetic on the decimal coefficient literals; gain bounds 3 (Decimator) and 2 per stage (DecimatorB)."
  },
  {
   "property": "C45",
   "status": "proved",
   "theorems": [
    "C45_gcd",
    "C45_factorial"
   ],
   "note": "gcd on 32-bit ints with remainder semantics; factorial over the reals."
  },
  {
   "property": "C46",
   "status": "proved",
   "theorems": [
    "C46_getMax_first_maximum",
    "C46_getFrameMinMax",
    "C46_empty"
   ],
   "note": "Exact reals (no NaN)."
  },
  {
   "property": "C47",
   "status": "proved",
   "theorems": [
    "C47_median"
   ],
   "note": "Exact reals; std::sort replaced by insertion sort."
  },
  {
   "property": "C48",
   "status": "proved",
   "theorems": [
    "C48_adaptiveThreshold"
   ],
   "note": "Exact reals."
  },
  {
   "property": "C49",
   "status": "proved",
   "theorems": [
    "C49_round"
   ],
   "note": "Exact reals."
  },
  {
   "property": "C50",
   "status": "proved",
   "theorems": [
    "C50_flags_under_lock"
   ],
   "note": "Every platform, with spurious wake-ups, sequentially consistent interleavings."
  },
  {
   "property": "C51",
   "status": "proved",
   "theorems": [
    "C51_key_strengths",
    "C51_best_key_strongest",
    "C51_before_process_refuted"
   ],
   "note": "Exact reals; after at least one process(). Before that the arrays read are uninitialised."
  },
  {
   "property": "C52",
   "status": "proved",
   "theorems": [
    "C52_periods_in_range",
    "C52_number_of_frames",
    "C52_short_input",
    "C52_beats_of_periods"
   ],
   "note": "Exact reals."
  },
  {
   "property": "C53",
   "status": "proved",
   "theorems": [
    "C53_two_passes",
    "C53_zero_phase"
   ],
   "note": "Exact reals."
  },
  {
   "property": "C54",
   "status": "partial",
   "theorems": [
    "C54_beatSD_range_partial",
    "C54_beatSD_count_refuted"
   ],
   "note": "Range proved; the documented number of values is refuted (it is the number of beats less two)."
  },
  {
   "property": "C55",
   "status": "proved",
   "theorems": [
    "C55_reestimation_no_worse"
   ],
   "note": "Exact reals, fixed state densities."
  },
  {
   "property": "C56",
   "status": "proved",
   "theorems": [
    "C56_hmm_init",
    "C56_hmm_train_stochastic",
    "C56_hmm_train_terminates"
   ],
   "note": "Exact reals, over the inversion of C101."
  },
  {
   "property": "C57",
   "status": "proved",
   "theorems": [
    "C57_means_and_covariance",
    "C57_gauss_loggauss"
   ],
   "note": "Exact reals."
  },
  {
   "property": "C58",
   "status": "partial",
   "theorems": [
    "C58_smoothing_calls",
    "C58_smoothing_first",
    "C58_none_after",
    "C58_equal_length",
    "C58_short_data_refuted",
    "C58_equal_length_refuted",
    "C58_uninitialised_refuted"
   ],
   "note": "Exact reals. The claim holds for pre + post < length and for post = 0. It is false of every other configuration: for pre, post >= 1 and length < pre + post memory outside the buffers is accessed; for pre, post >= 1 and length = pre + post the median at position pre lacks the first value; for pre = 0 and post >= length the medians are those of the next position and the last result depends on uninitialised memory. All-zero data (0/0) is the subject of C91."
  },
  {
   "property": "C59",
   "status": "proved",
   "theorems": [
    "C59_scale_free",
    "C59_smoothing_scale_free"
   ],
   "note": "Exact reals; any history of calls, 4 <= len <= configured length."
  },
  {
   "property": "C60",
   "status": "proved",
   "theorems": [
    "C60_alpha_norm",
    "C60_lp_norm",
    "C60_unique",
    "C60_normalise",
    "C60_normalise_nothing"
   ],
   "note": "Exact reals; orders >= 1."
  },
  {
   "property": "C61",
   "status": "proved",
   "theorems": [
    "C61_filters_fit",
    "C61_frequency",
    "C61_time_domain"
   ],
   "note": "Exact reals; overload with separate arrays."
  },
  {
   "property": "C62",
   "status": "proved",
   "theorems": [
    "C62_construction",
    "C62_construction_throws",
    "C62_spectrum",
    "C62_samples",
    "C62_ways_agree",
    "C62_level",
    "C62_meaning"
   ],
   "note": "Exact reals (the number of bins BPO * octaves is computed with ceil of a real number; rounding could add one bin, which is then not used)."
  },
  {
   "property": "C63",
   "status": "proved",
   "theorems": [
    "C63_distance",
    "C63_symmetric",
    "C63_clustering",
    "C63_any_arithmetic"
   ],
   "note": "Exact reals, the last for any arithmetic."
  },
  {
   "property": "C64",
   "status": "partial",
   "theorems": [
    "C64_histograms",
    "C64_norm_refuted"
   ],
   "note": "Exact reals. The counts are divided by the sum of squares, not by the norm: norm 1 is refuted."
  },
  {
   "property": "C65",
   "status": "proved",
   "theorems": [
    "C65_normalised",
    "C65_folded"
   ],
   "note": "Exact reals; frames of norm 0 (all values 1 - 2^-52) divide by 0 and are excluded."
  },
  {
   "property": "C66",
   "status": "proved",
   "theorems": [
    "C66_pca_components",
    "C66_double_test",
    "C66_no_columns_undefined",
    "C66_segment_partial"
   ],
   "note": "Exact reals apart from the convergence test, which is any test of relative accuracy eps (2^-52 is proved for 53-bit arithmetic without underflow). m = 0 writes e[-1]. C66_segment_partial puts this PCA into segment(): partial in that pca.c may exit."
  },
  {
   "property": "C67",
   "status": "proved",
   "theorems": [
    "C67_uncorrelated",
    "C67_distances"
   ],
   "note": "Exact reals."
  },
  {
   "property": "C68",
   "status": "partial",
   "theorems": [
    "C68_order_refuted"
   ],
   "note": "Refuted: tqli does not sort; for rows (2,0),(-2,0),(0,1),(0,-1) the first component is the one of smaller variance."
  },
  {
   "property": "C69",
   "status": "proved",
   "theorems": [
    "C69_values",
    "C69_polar_exists",
    "C69_unique",
    "C69_same_spectra"
   ],
   "note": "Exact reals; even frame lengths (odd ones throw in FFTReal, C34_construction)."
  },
  {
   "property": "C70",
   "status": "proved",
   "theorems": [
    "C70_whitened",
    "C70_decay",
    "C70_whitened_gain",
    "C70_zero_floor_undefined"
   ],
   "note": "Exact reals; floor 0 is excluded from the first three and shown undefined by the last."
  },
  {
   "property": "C71",
   "status": "proved",
   "theorems": [
    "C71_gain",
    "C71_phase",
    "C71_complex",
    "C71_broadband"
   ],
   "note": "Exact reals."
  },
  {
   "property": "C72",
   "status": "proved",
   "theorems": [
    "C72_values",
    "C72_transposed",
    "C72_steps",
    "C72_bounds",
    "C72_magnitude"
   ],
   "note": "Exact reals."
  },
  {
   "property": "C73",
   "status": "proved",
   "theorems": [
    "C73_values",
    "C73_transposed"
   ],
   "note": "Exact reals; times must fit a 64-bit long (see C75_defined_refuted)."
  },
  {
   "property": "C74",
   "status": "proved",
   "theorems": [
    "C74_gain",
    "C74_reversed",
    "C74_local",
    "C74_steady"
   ],
   "note": "Stated of the function C73_values proves process to return."
  },
  {
   "property": "C75",
   "status": "partial",
   "theorems": [
    "C75_constant_refuted",
    "C75_unsmoothed_refuted",
    "C75_defined_refuted"
   ],
   "note": "Refuted: both ends of any constant piece report change, width 0 amplifies by more than 1.6, and process converts an uninitialised double to long."
  },
  {
   "property": "C76",
   "status": "proved",
   "theorems": [
    "C76_times"
   ],
   "note": "Exact reals."
  },
  {
   "property": "C77",
   "status": "proved",
   "theorems": [
    "C77_normalized"
   ],
   "note": "Exact reals."
  },
  {
   "property": "C78",
   "status": "proved",
   "theorems": [
    "C78_spectrum",
    "C78_frame",
    "C78_constructed",
    "C78_same",
    "C78_time_freq",
    "C78_polarity",
    "C78_silence",
    "C78_power_refuted"
   ],
   "note": "Exact reals. With a log power other than 1 all bands must exceed 1: C78_power_refuted shows quiet input to be undefined (NaN) for fractional powers. The window is that of C41."
  },
  {
   "property": "C79",
   "status": "partial",
   "theorems": [
    "C79_gain",
    "C79_full_band",
    "C79_low_rate_refuted"
   ],
   "note": "True when no band is empty; refuted for every non-silent input at rates up to 11025 Hz, where the top filter lies beyond all bins and empty bands count as level 0."
  },
  {
   "property": "C80",
   "status": "proved",
   "theorems": [
    "C80_energy",
    "C80_determines",
    "C80_mirror"
   ],
   "note": "Of the coefficients C78 shows process to write."
  },
  {
   "property": "C81",
   "status": "proved",
   "theorems": [
    "C81_cover",
    "C81_shape"
   ],
   "note": "Exact reals."
  },
  {
   "property": "C82",
   "status": "proved",
   "theorems": [
    "C82_decimator_response",
    "C82_decimator_alias",
    "C82_other_factor_unfiltered",
    "C82_other_factor_alias"
   ],
   "note": "Exact real arithmetic on the decimal coefficient literals. The stop band of the filters is only 20 dB down (0.10005), as the table gives."
  },
  {
   "property": "C83",
   "status": "proved",
   "theorems": [
    "C83_decimatorB_response"
   ],
   "note": "Exact real arithmetic on the decimal coefficient literals."
  },
  {
   "property": "C84",
   "status": "proved",
   "theorems": [
    "C84_length",
    "C84_values",
    "C84_periodic",
    "C84_periodic_any",
    "C84_lowest_at_period"
   ],
   "note": "Exact reals; length and period for any arithmetic, so for IEEE doubles bit for bit."
  },
  {
   "property": "C85",
   "status": "proved",
   "theorems": [
    "C85_exact",
    "C85_nearest",
    "C85_round_trip",
    "C85_monotone",
    "C85_octave",
    "C85_round_trip_all_pitches_refuted"
   ],
   "note": "Exact reals, not float. Below pitch 0 the truncation makes the nearest-pitch claim false (refuted), which is why the statement excludes it."
  },
  {
   "property": "C86",
   "status": "partial",
   "theorems": [
    "C86_track",
    "C86_beats_increase",
    "C86_beats_within",
    "C86_beats_everywhere",
    "C86_any_arithmetic",
    "C86_every_lag_refuted",
    "C86_metre_overrun"
   ],
   "note": "Reals with infinities and NaN; beat periods exact. Proved for lag >= 3, windows of at least 4 lag + 3 that are not of the form 6p + 2 with p <= lag, filters of order >= 1, pre + post < lag. False in general: lag 2 always reads outside the correlation (refuted), and findMeter reads one value outside when the window is 6 periods + 2 (proved of the function; with the usual 512/128 that is a period of 85)."
  },
  {
   "property": "C87",
   "status": "proved",
   "theorems": [
    "C86_track",
    "C86_any_arithmetic"
   ],
   "note": "Under the conditions of C86."
  },
  {
   "property": "C88",
   "status": "proved",
   "theorems": [
    "C88_level",
    "C88_causal",
    "C88_causal_any_arithmetic"
   ],
   "note": "Under the conditions of C86; the last in any arithmetic for runs that return."
  },
  {
   "property": "C89",
   "status": "partial",
   "theorems": [
    "C89_reuse_refuted",
    "C89_reuse_any_arithmetic"
   ],
   "note": "Refuted for every pair of detection functions, the first longer than one block: Framer is not rewound, and a second call never returns normally (undefined if the second is shorter)."
  },
  {
   "property": "C90",
   "status": "partial",
   "theorems": [
    "C90_tracks_after_silence_refuted"
   ],
   "note": "Refuted: one silent window divides 0 by 0, the NaN stays in the smoothing filter and all tempi are those of a silent continuation."
  },
  {
   "property": "C91",
   "status": "partial",
   "theorems": [
    "C91_defined",
    "C91_smoothing_after_silence_refuted",
    "C91_onsets_after_silence_refuted"
   ],
   "note": "Every call is defined, but after a silent one all later results are blank (0 or NaN) and no onset is reported again, for every filter with at least two coefficients on both sides."
  },
  {
   "property": "C92",
   "status": "partial",
   "theorems": [
    "C92_extract",
    "C92_unique",
    "C92_several",
    "C92_block_alone_refuted",
    "C92_overlong",
    "C92_overlong_refuted",
    "C92_all_frames_refuted",
    "C92_last_sample"
   ],
   "note": "Exact reals. Refuted parts: where the rate is reduced the features depend on earlier blocks through the decimator and a block longer than a window is completed from uninitialised memory; a frame that ends with the block is left out."
  },
  {
   "property": "C93",
   "status": "proved",
   "theorems": [
    "C93_short",
    "C93_closed"
   ],
   "note": "Objects reached by calls of the constructor, initialise, extractFeatures and segment."
  },
  {
   "property": "C94",
   "status": "partial",
   "theorems": [
    "C94_initialise",
    "C94_rate",
    "C94_reinitialise_refuted",
    "C94_reinitialised_overrun"
   ],
   "note": "Refuted: initialised for a high rate and then for one that needs no reduction, the old decimator stays and reads beyond blocks of the new window length."
  },
  {
   "property": "C95",
   "status": "partial",
   "theorems": [
    "C95_analysis_partial",
    "C95_analysis_pca_partial"
   ],
   "note": "Exact reals. In the first theorem PCA is a parameter that must return; the second has that of pca.c, which may exit. Conditions on the settings as in C39."
  },
  {
   "property": "C96",
   "status": "partial",
   "theorems": [
    "C96_gain",
    "C96_nonneg",
    "C96_window",
    "C96_middle_weight_refuted"
   ],
   "note": "The window is applied after the halves of the frame were swapped, so its middle counts least (refuted)."
  },
  {
   "property": "C97",
   "status": "proved",
   "theorems": [
    "C97_filters",
    "C97_names",
    "C97_named"
   ],
   "note": "The two vectors must be different objects."
  },
  {
   "property": "C98",
   "status": "proved",
   "theorems": [
    "C98_reconstruction"
   ],
   "note": "Literals are the doubles nearest to the decimals (Flocq); the filtering, which the library leaves to its user, is exact."
  },
  {
   "property": "C99",
   "status": "proved",
   "theorems": [
    "C99_energy",
    "C99_biorthogonal_refuted"
   ],
   "note": "As C98. The refutation shows the restriction to orthogonal types is needed."
  }
 ]
}