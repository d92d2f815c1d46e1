# What `Print Assumptions` lists

Generated from the output of the `Print Assumptions` command that follows every theorem in `rocq/theories/Properties`.
Only axioms of the Coq standard library occur:

* `ClassicalDedekindReals.sig_forall_dec`
* `ClassicalDedekindReals.sig_not_dec`
* `Classical_Prop.classic`
* `FunctionalExtensionality.functional_extensionality_dep`

| Theorem | Axioms |
|---|---|
| `C01_filter_stream` | none (closed under the global context) |
| `C01_response_unique` | none (closed under the global context) |
| `C01_filter_cut_independent` | none (closed under the global context) |
| `C01_filter_rejects` | none (closed under the global context) |
| `C02_filter_reset_fresh` | none (closed under the global context) |
| `C03_filter_memory_safe_refuted` | none (closed under the global context) |
| `C03_filter_order0_always_UB` | none (closed under the global context) |
| `C03_filter_memory_safe_partial` | none (closed under the global context) |
| `C04_filtfilt_pure_refuted` | none (closed under the global context) |
| `C04_filtfilt_first_call_partial` | none (closed under the global context) |
| `C04_filtfilt_every_call_partial` | none (closed under the global context) |
| `C05_median_percentile` | none (closed under the global context) |
| `C05_median_percentile_double` | none (closed under the global context) |
| `C06_median_filter_centred` | none (closed under the global context) |
| `C06_median_filter_centred_double` | none (closed under the global context) |
| `C07_framer_covers` | none (closed under the global context) |
| `C08_framer_reuse_refuted` | none (closed under the global context) |
| `C08_framer_reuse_unsafe_refuted` | none (closed under the global context) |
| `C08_framer_reuse_reset_partial` | none (closed under the global context) |
| `C08_framer_reuse_continues_partial` | none (closed under the global context) |
| `C09_decimator_stream` | none (closed under the global context) |
| `C09_response_unique` | none (closed under the global context) |
| `C09_response_difference` | none (closed under the global context) |
| `C09_decimator_block_independent` | none (closed under the global context) |
| `C09_decimator_reset_fresh` | none (closed under the global context) |
| `C10_decimator_in_place_refuted` | none (closed under the global context) |
| `C10_decimator_in_place_partial` | none (closed under the global context) |
| `C10_decimator_factor1_partial` | none (closed under the global context) |
| `C101_invert` | sig_forall_dec, functional_extensionality_dep, classic |
| `C101_regular` | sig_forall_dec, functional_extensionality_dep, classic |
| `C101_unique` | sig_forall_dec, functional_extensionality_dep |
| `C102_never_exits` | sig_forall_dec, functional_extensionality_dep, classic |
| `C102_singular_reported_refuted` | sig_forall_dec, functional_extensionality_dep, classic |
| `C102_zero_determinant_partial` | sig_forall_dec, functional_extensionality_dep, classic |
| `C103_initial` | sig_not_dec, sig_forall_dec, functional_extensionality_dep |
| `C103_training` | sig_not_dec, sig_forall_dec, functional_extensionality_dep, classic |
| `C103_regular` | sig_forall_dec, functional_extensionality_dep, classic |
| `C103_inverse` | sig_forall_dec, functional_extensionality_dep, classic |
| `C104_constant_coefficient` | sig_not_dec, sig_forall_dec, functional_extensionality_dep, classic |
| `C104_same_frames` | sig_not_dec, sig_forall_dec, functional_extensionality_dep, classic |
| `C105_training` | sig_not_dec, sig_forall_dec, functional_extensionality_dep, classic |
| `C105_iterations` | sig_not_dec, sig_forall_dec, functional_extensionality_dep, classic |
| `C105_unique` | sig_not_dec, sig_forall_dec, functional_extensionality_dep, classic |
| `C106_fifty_iterations` | sig_not_dec, sig_forall_dec, functional_extensionality_dep, classic |
| `C106_stops_refuted` | sig_not_dec, sig_forall_dec, functional_extensionality_dep, classic |
| `C107_decimator_doubles` | sig_not_dec, sig_forall_dec, functional_extensionality_dep, classic |
| `C107_decimatorB_doubles` | sig_not_dec, sig_forall_dec, functional_extensionality_dep, classic |
| `C108_princarg_doubles_partial` | sig_not_dec, sig_forall_dec, functional_extensionality_dep, classic |
| `C108_range_refuted` | sig_not_dec, sig_forall_dec, functional_extensionality_dep, classic |
| `C108_large_refuted` | sig_not_dec, sig_forall_dec, functional_extensionality_dep, classic |
| `C109_unwrapping_doubles` | sig_not_dec, sig_forall_dec, functional_extensionality_dep, classic |
| `C110_forward` | sig_not_dec, sig_forall_dec, functional_extensionality_dep, classic |
| `C110_inverse` | sig_not_dec, sig_forall_dec, functional_extensionality_dep, classic |
| `C110_roundtrip` | sig_not_dec, sig_forall_dec, functional_extensionality_dep, classic |
| `C111_forward` | sig_not_dec, sig_forall_dec, functional_extensionality_dep, classic |
| `C111_magnitude` | sig_not_dec, sig_forall_dec, functional_extensionality_dep, classic |
| `C111_inverse` | sig_not_dec, sig_forall_dec, functional_extensionality_dep, classic |
| `C111_roundtrip` | sig_not_dec, sig_forall_dec, functional_extensionality_dep, classic |
| `C112_forward_partial` | sig_not_dec, sig_forall_dec, functional_extensionality_dep, classic |
| `C112_inverse` | sig_not_dec, sig_forall_dec, functional_extensionality_dep, classic |
| `C112_forward_unitary_partial` | sig_not_dec, sig_forall_dec, functional_extensionality_dep, classic |
| `C112_inverse_unitary` | sig_not_dec, sig_forall_dec, functional_extensionality_dep, classic |
| `C112_roundtrip_partial` | sig_not_dec, sig_forall_dec, functional_extensionality_dep, classic |
| `C112_history_refuted` | sig_not_dec, sig_forall_dec, functional_extensionality_dep, classic |
| `C113_sum` | sig_not_dec, sig_forall_dec, functional_extensionality_dep, classic |
| `C113_mean` | sig_not_dec, sig_forall_dec, functional_extensionality_dep, classic |
| `C113_mean_range` | sig_not_dec, sig_forall_dec, functional_extensionality_dep, classic |
| `C114_unit_sum_partial` | sig_not_dec, sig_forall_dec, functional_extensionality_dep, classic |
| `C114_zeros` | sig_not_dec, sig_forall_dec, functional_extensionality_dep, classic |
| `C114_mixed_refuted` | sig_not_dec, sig_forall_dec, functional_extensionality_dep, classic |
| `C114_unit_max` | sig_not_dec, sig_forall_dec, functional_extensionality_dep, classic |
| `C115_round_partial` | sig_not_dec, sig_forall_dec, functional_extensionality_dep, classic |
| `C115_half_refuted` | sig_not_dec, sig_forall_dec, functional_extensionality_dep, classic |
| `C115_large_refuted` | sig_not_dec, sig_forall_dec, functional_extensionality_dep, classic |
| `C116_threshold` | sig_not_dec, sig_forall_dec, functional_extensionality_dep, classic |
| `C117_factorial` | sig_not_dec, sig_forall_dec, functional_extensionality_dep, classic |
| `C117_infinite` | sig_not_dec, sig_forall_dec, functional_extensionality_dep, classic |
| `C117_negative` | sig_not_dec, sig_forall_dec, functional_extensionality_dep, classic |
| `C118_local` | sig_not_dec, sig_forall_dec, functional_extensionality_dep, classic |
| `C118_stable` | sig_not_dec, sig_forall_dec, functional_extensionality_dep, classic |
| `C119_resampler` | sig_not_dec, sig_forall_dec, functional_extensionality_dep, classic |
| `C11_C12_resampler_stream_partial` | none (closed under the global context) |
| `C11_interpolated_unique` | none (closed under the global context) |
| `C11_resampler_cut_independent` | none (closed under the global context) |
| `C12_process_vector_overload` | none (closed under the global context) |
| `C13_resample_partial` | none (closed under the global context) |
| `C11_C12_default_resampler_partial` | sig_not_dec, sig_forall_dec, functional_extensionality_dep, classic |
| `C13_default_resample_partial` | sig_not_dec, sig_forall_dec, functional_extensionality_dep, classic |
| `C11_resampler_all_rates_refuted` | sig_not_dec, sig_forall_dec, functional_extensionality_dep, classic |
| `C12_ceil_in_double` | sig_not_dec, sig_forall_dec, functional_extensionality_dep, classic |
| `C120_frames` | sig_not_dec, sig_forall_dec, functional_extensionality_dep, classic |
| `C120_any_state` | sig_not_dec, sig_forall_dec, functional_extensionality_dep, classic |
| `C120_new` | sig_not_dec, sig_forall_dec, functional_extensionality_dep, classic |
| `C121_accurate_partial` | sig_not_dec, sig_forall_dec, functional_extensionality_dep, classic |
| `C121_range_partial` | sig_not_dec, sig_forall_dec, functional_extensionality_dep, classic |
| `C121_sizes` | sig_not_dec, sig_forall_dec, functional_extensionality_dep, classic |
| `C121_negative_refuted` | sig_not_dec, sig_forall_dec, functional_extensionality_dep, classic |
| `C121_overflow_refuted` | sig_not_dec, sig_forall_dec, functional_extensionality_dep, classic |
| `C122_auto` | sig_not_dec, sig_forall_dec, functional_extensionality_dep, classic |
| `C123_median_partial` | sig_not_dec, sig_forall_dec, functional_extensionality_dep, classic |
| `C123_odd` | sig_not_dec, sig_forall_dec, functional_extensionality_dep, classic |
| `C123_overflow_refuted` | sig_not_dec, sig_forall_dec, functional_extensionality_dep, classic |
| `C14_princarg_partial` | sig_not_dec, sig_forall_dec, functional_extensionality_dep |
| `C14_princarg_unique` | sig_not_dec, sig_forall_dec, functional_extensionality_dep |
| `C14_princarg_interval_refuted` | sig_not_dec, sig_forall_dec, functional_extensionality_dep |
| `C17_normalise_sum` | sig_forall_dec, functional_extensionality_dep |
| `C17_normalise_max` | sig_forall_dec, functional_extensionality_dep |
| `C17_normalise_none` | none (closed under the global context) |
| `C17_normalise_overloads_agree` | sig_forall_dec, functional_extensionality_dep |
| `C46_getMax_first_maximum` | sig_forall_dec, functional_extensionality_dep |
| `C46_getFrameMinMax` | sig_forall_dec, functional_extensionality_dep |
| `C46_empty` | sig_forall_dec, functional_extensionality_dep |
| `C47_median` | sig_forall_dec, functional_extensionality_dep |
| `C48_adaptiveThreshold` | sig_forall_dec, functional_extensionality_dep |
| `C49_round` | sig_forall_dec, functional_extensionality_dep |
| `C45_factorial` | sig_forall_dec, functional_extensionality_dep |
| `C15_isPowerOfTwo` | none (closed under the global context) |
| `C15_nextPowerOfTwo` | none (closed under the global context) |
| `C15_nextPowerOfTwo_overflow` | none (closed under the global context) |
| `C15_previousPowerOfTwo` | none (closed under the global context) |
| `C15_nearestPowerOfTwo_partial` | none (closed under the global context) |
| `C15_nearestPowerOfTwo_overflow_refuted` | none (closed under the global context) |
| `C16_circShift` | none (closed under the global context) |
| `C16_rotation_unique` | none (closed under the global context) |
| `C16_circShift_negative` | none (closed under the global context) |
| `C45_gcd` | none (closed under the global context) |
| `C18_alloc_safe_partial` | none (closed under the global context) |
| `C18_alloc_safe_any_size` | none (closed under the global context) |
| `C18_alloc_safe_refuted` | none (closed under the global context) |
| `C18_zero_size_refuted` | none (closed under the global context) |
| `C19_await_after_completion_partial` | none (closed under the global context) |
| `C19_await_after_completion_windows` | none (closed under the global context) |
| `C19_await_after_completion_refuted` | none (closed under the global context) |
| `C20_no_deadlock_partial` | none (closed under the global context) |
| `C20_no_deadlock_refuted` | none (closed under the global context) |
| `C20_destroy_without_await_deadlocks` | none (closed under the global context) |
| `C50_flags_under_lock` | none (closed under the global context) |
| `C21_key_range` | none (closed under the global context) |
| `C21_key_meaning` | sig_not_dec, sig_forall_dec, functional_extensionality_dep |
| `C21_zero_window_refuted` | sig_not_dec, sig_forall_dec, functional_extensionality_dep |
| `C21_zero_window_any` | none (closed under the global context) |
| `C51_key_strengths` | sig_not_dec, sig_forall_dec, functional_extensionality_dep |
| `C51_best_key_strongest` | sig_not_dec, sig_forall_dec, functional_extensionality_dep |
| `C51_before_process_refuted` | sig_not_dec, sig_forall_dec, functional_extensionality_dep |
| `C22_beats_increasing_partial` | sig_forall_dec, functional_extensionality_dep |
| `C22_long_last_period` | sig_forall_dec, functional_extensionality_dep |
| `C22_beats_refuted` | sig_not_dec, sig_forall_dec, functional_extensionality_dep, classic |
| `C23_beats_optimal_partial` | sig_not_dec, sig_forall_dec, functional_extensionality_dep, classic |
| `C23_beats_optimal_refuted` | sig_not_dec, sig_forall_dec, functional_extensionality_dep, classic |
| `C24_viterbi_best_path` | sig_not_dec, sig_forall_dec, functional_extensionality_dep |
| `C52_periods_in_range` | sig_not_dec, sig_forall_dec, functional_extensionality_dep |
| `C52_number_of_frames` | none (closed under the global context) |
| `C52_short_input` | sig_not_dec, sig_forall_dec, functional_extensionality_dep |
| `C52_beats_of_periods` | sig_not_dec, sig_forall_dec, functional_extensionality_dep, classic |
| `C53_two_passes` | sig_forall_dec, functional_extensionality_dep |
| `C53_zero_phase` | sig_forall_dec, functional_extensionality_dep |
| `C25_buffered_audio` | none (closed under the global context) |
| `C26_downbeats` | sig_not_dec, sig_forall_dec, functional_extensionality_dep, classic |
| `C26_no_audio` | none (closed under the global context) |
| `C54_beatSD_range_partial` | sig_not_dec, sig_forall_dec, functional_extensionality_dep, classic |
| `C54_beatSD_count_refuted` | sig_not_dec, sig_forall_dec, functional_extensionality_dep, classic |
| `C27_viterbi_most_probable` | sig_not_dec, sig_forall_dec, functional_extensionality_dep, classic |
| `C27_viterbi_singular` | sig_not_dec, sig_forall_dec, functional_extensionality_dep, classic |
| `C27_viterbi_any_arithmetic` | none (closed under the global context) |
| `C28_posteriors` | sig_not_dec, sig_forall_dec, functional_extensionality_dep, classic |
| `C29_baum_welch_stochastic` | sig_forall_dec, functional_extensionality_dep |
| `C29_zero_occupancy_refuted` | sig_forall_dec, functional_extensionality_dep |
| `C55_reestimation_no_worse` | sig_not_dec, sig_forall_dec, functional_extensionality_dep, classic |
| `C56_hmm_init` | sig_not_dec, sig_forall_dec, functional_extensionality_dep |
| `C56_hmm_train_stochastic` | sig_not_dec, sig_forall_dec, functional_extensionality_dep, classic |
| `C56_hmm_train_terminates` | sig_not_dec, sig_forall_dec, functional_extensionality_dep, classic |
| `C57_means_and_covariance` | sig_forall_dec, functional_extensionality_dep |
| `C57_gauss_loggauss` | sig_not_dec, sig_forall_dec, functional_extensionality_dep, classic |
| `C30_fft_is_dft_partial` | sig_not_dec, sig_forall_dec, functional_extensionality_dep |
| `C30_fft_inverse_is_inverse_dft_partial` | sig_not_dec, sig_forall_dec, functional_extensionality_dep |
| `C30_constructed` | sig_not_dec, sig_forall_dec, functional_extensionality_dep |
| `C30_every_size_refuted` | sig_not_dec, sig_forall_dec, functional_extensionality_dep |
| `C31_fft_inverse_partial` | sig_not_dec, sig_forall_dec, functional_extensionality_dep |
| `C32_construction` | sig_not_dec, sig_forall_dec, functional_extensionality_dep |
| `C32_forward_is_dft` | sig_not_dec, sig_forall_dec, functional_extensionality_dep |
| `C32_magnitude` | sig_not_dec, sig_forall_dec, functional_extensionality_dep |
| `C32_inverse_is_inverse_dft` | sig_not_dec, sig_forall_dec, functional_extensionality_dep |
| `C32_inverse_undoes_forward` | sig_not_dec, sig_forall_dec, functional_extensionality_dep |
| `C33_constructed` | sig_not_dec, sig_forall_dec, functional_extensionality_dep |
| `C33_forward_is_dct` | sig_not_dec, sig_forall_dec, functional_extensionality_dep |
| `C33_inverse_is_idct` | sig_not_dec, sig_forall_dec, functional_extensionality_dep |
| `C33_inverse_undoes_forward` | sig_not_dec, sig_forall_dec, functional_extensionality_dep |
| `C33_forward_undoes_inverse` | sig_not_dec, sig_forall_dec, functional_extensionality_dep |
| `C33_unitary_energy` | sig_not_dec, sig_forall_dec, functional_extensionality_dep |
| `C33_unitary_inverse_undoes_forward` | sig_not_dec, sig_forall_dec, functional_extensionality_dep |
| `C33_unitary_forward_undoes_inverse` | sig_not_dec, sig_forall_dec, functional_extensionality_dep |
| `C34_construction` | sig_not_dec, sig_forall_dec, functional_extensionality_dep |
| `C34_time_frame` | sig_not_dec, sig_forall_dec, functional_extensionality_dep, classic |
| `C34_frequency_frame` | sig_not_dec, sig_forall_dec, functional_extensionality_dep, classic |
| `C34_reset` | sig_not_dec, sig_forall_dec, functional_extensionality_dep, classic |
| `C34_congruent` | sig_not_dec, sig_forall_dec, functional_extensionality_dep, classic |
| `C34_unwraps_unique` | sig_not_dec, sig_forall_dec, functional_extensionality_dep |
| `C34_first_frame` | sig_not_dec, sig_forall_dec, functional_extensionality_dep |
| `C34_follows` | sig_not_dec, sig_forall_dec, functional_extensionality_dep |
| `C58_smoothing_calls` | sig_not_dec, sig_forall_dec, functional_extensionality_dep, classic |
| `C58_smoothing_first` | sig_not_dec, sig_forall_dec, functional_extensionality_dep, classic |
| `C58_short_data_refuted` | sig_not_dec, sig_forall_dec, functional_extensionality_dep, classic |
| `C58_none_after` | sig_not_dec, sig_forall_dec, functional_extensionality_dep, classic |
| `C58_equal_length` | sig_not_dec, sig_forall_dec, functional_extensionality_dep, classic |
| `C58_equal_length_refuted` | sig_not_dec, sig_forall_dec, functional_extensionality_dep, classic |
| `C58_uninitialised_refuted` | sig_not_dec, sig_forall_dec, functional_extensionality_dep, classic |
| `C35_onsets` | sig_not_dec, sig_forall_dec, functional_extensionality_dep, classic |
| `C35_first` | sig_not_dec, sig_forall_dec, functional_extensionality_dep, classic |
| `C35_short` | sig_not_dec, sig_forall_dec, functional_extensionality_dep, classic |
| `C35_longer_refuted` | sig_not_dec, sig_forall_dec, functional_extensionality_dep, classic |
| `C35_data_refuted` | sig_not_dec, sig_forall_dec, functional_extensionality_dep, classic |
| `C35_parabola` | sig_forall_dec, functional_extensionality_dep |
| `C59_scale_free` | sig_not_dec, sig_forall_dec, functional_extensionality_dep, classic |
| `C59_smoothing_scale_free` | sig_not_dec, sig_forall_dec, functional_extensionality_dep, classic |
| `C60_alpha_norm` | sig_not_dec, sig_forall_dec, functional_extensionality_dep, classic |
| `C60_lp_norm` | sig_not_dec, sig_forall_dec, functional_extensionality_dep, classic |
| `C60_unique` | sig_forall_dec, functional_extensionality_dep |
| `C60_normalise` | sig_not_dec, sig_forall_dec, functional_extensionality_dep, classic |
| `C60_normalise_nothing` | sig_not_dec, sig_forall_dec, functional_extensionality_dep, classic |
| `C36_autocorrelation_positive` | sig_forall_dec, functional_extensionality_dep |
| `C37_cosine_value` | sig_not_dec, sig_forall_dec, functional_extensionality_dep |
| `C37_cosine_range` | sig_not_dec, sig_forall_dec, functional_extensionality_dep |
| `C37_cosine_symmetric` | none (closed under the global context) |
| `C37_cosine_mismatch` | none (closed under the global context) |
| `C37_cosine_proportional` | sig_not_dec, sig_forall_dec, functional_extensionality_dep |
| `C38_gaussian_nonneg` | sig_forall_dec, functional_extensionality_dep |
| `C38_gaussian_is_divergence` | sig_not_dec, sig_forall_dec, functional_extensionality_dep, classic |
| `C38_gaussian_symmetric_partial` | sig_forall_dec, functional_extensionality_dep |
| `C38_gaussian_identical_partial` | sig_forall_dec, functional_extensionality_dep |
| `C38_gaussian_symmetric_refuted` | sig_forall_dec, functional_extensionality_dep |
| `C38_gaussian_identical_refuted` | sig_forall_dec, functional_extensionality_dep |
| `C38_distribution_symmetric` | none (closed under the global context) |
| `C38_distribution_symmetrised_nonneg` | sig_not_dec, sig_forall_dec, functional_extensionality_dep, classic |
| `C38_distribution_nonneg_partial` | sig_not_dec, sig_forall_dec, functional_extensionality_dep, classic |
| `C39_partition` | none (closed under the global context) |
| `C39_unique` | none (closed under the global context) |
| `C39_segment_partial` | sig_not_dec, sig_forall_dec, functional_extensionality_dep, classic |
| `C39_types_partial` | sig_not_dec, sig_forall_dec, functional_extensionality_dep, classic |
| `C39_short` | sig_not_dec, sig_forall_dec, functional_extensionality_dep, classic |
| `C39_documented_types_refuted` | sig_not_dec, sig_forall_dec, functional_extensionality_dep, classic |
| `C39_long_undefined` | none (closed under the global context) |
| `C39_long_refuted` | none (closed under the global context) |
| `C63_distance` | sig_not_dec, sig_forall_dec, functional_extensionality_dep, classic |
| `C63_symmetric` | sig_not_dec, sig_forall_dec, functional_extensionality_dep, classic |
| `C63_clustering` | sig_not_dec, sig_forall_dec, functional_extensionality_dep, classic |
| `C63_any_arithmetic` | none (closed under the global context) |
| `C64_histograms` | sig_forall_dec, functional_extensionality_dep |
| `C64_norm_refuted` | sig_not_dec, sig_forall_dec, functional_extensionality_dep |
| `C65_normalised` | sig_not_dec, sig_forall_dec, functional_extensionality_dep, classic |
| `C65_folded` | sig_forall_dec, functional_extensionality_dep |
| `C40_construction` | sig_not_dec, sig_forall_dec, functional_extensionality_dep, classic |
| `C40_parameters` | sig_not_dec, sig_forall_dec, functional_extensionality_dep, classic |
| `C40_range` | sig_not_dec, sig_forall_dec, functional_extensionality_dep, classic |
| `C40_kernel` | sig_not_dec, sig_forall_dec, functional_extensionality_dep, classic |
| `C40_no_kernel` | sig_not_dec, sig_forall_dec, functional_extensionality_dep, classic |
| `C40_product_partial` | sig_not_dec, sig_forall_dec, functional_extensionality_dep, classic |
| `C40_linear_partial` | sig_not_dec, sig_forall_dec, functional_extensionality_dep, classic |
| `C40_interleaved_refuted` | sig_not_dec, sig_forall_dec, functional_extensionality_dep, classic |
| `C40_interleaved_always_overruns` | sig_not_dec, sig_forall_dec, functional_extensionality_dep, classic |
| `C40_interleaved_no_kernel` | sig_not_dec, sig_forall_dec, functional_extensionality_dep, classic |
| `C40_interleaved_off_by_one` | sig_not_dec, sig_forall_dec, functional_extensionality_dep, classic |
| `C40_overloads_agree_refuted` | sig_not_dec, sig_forall_dec, functional_extensionality_dep, classic |
| `C61_filters_fit` | sig_not_dec, sig_forall_dec, functional_extensionality_dep, classic |
| `C61_frequency` | sig_not_dec, sig_forall_dec, functional_extensionality_dep, classic |
| `C61_time_domain` | sig_not_dec, sig_forall_dec, functional_extensionality_dep, classic |
| `C62_construction` | sig_not_dec, sig_forall_dec, functional_extensionality_dep, classic |
| `C62_construction_throws` | sig_not_dec, sig_forall_dec, functional_extensionality_dep, classic |
| `C62_spectrum` | sig_not_dec, sig_forall_dec, functional_extensionality_dep, classic |
| `C62_samples` | sig_not_dec, sig_forall_dec, functional_extensionality_dep, classic |
| `C62_ways_agree` | sig_not_dec, sig_forall_dec, functional_extensionality_dep, classic |
| `C62_level` | sig_not_dec, sig_forall_dec, functional_extensionality_dep, classic |
| `C62_meaning` | sig_not_dec, sig_forall_dec, functional_extensionality_dep, classic |
| `C41_window_shapes` | sig_not_dec, sig_forall_dec, functional_extensionality_dep |
| `C41_hann_overlap` | sig_not_dec, sig_forall_dec, functional_extensionality_dep |
| `C41_cut` | sig_forall_dec |
| `C41_cut_in_place` | sig_forall_dec |
| `C41_getWindowData` | sig_forall_dec |
| `C41_kaiser` | sig_not_dec, sig_forall_dec, functional_extensionality_dep |
| `C41_sinc` | sig_not_dec, sig_forall_dec, functional_extensionality_dep |
| `C42_least_squares` | sig_not_dec, sig_forall_dec, functional_extensionality_dep |
| `C42_normal_equations` | sig_not_dec, sig_forall_dec, functional_extensionality_dep |
| `C42_coefficient` | sig_not_dec, sig_forall_dec, functional_extensionality_dep |
| `C42_exact` | sig_not_dec, sig_forall_dec, functional_extensionality_dep |
| `C42_degenerate` | sig_not_dec, sig_forall_dec, functional_extensionality_dep |
| `C42_rejects` | sig_not_dec, sig_forall_dec, functional_extensionality_dep |
| `C43_decimatorB_stream` | none (closed under the global context) |
| `C43_halved_unique` | none (closed under the global context) |
| `C43_decimatorB_unsupported` | none (closed under the global context) |
| `C43_decimatorB_zero_refuted` | none (closed under the global context) |
| `C44_decimator_bounded` | sig_forall_dec, functional_extensionality_dep |
| `C44_decimatorB_bounded` | sig_forall_dec, functional_extensionality_dep |
| `C44_decimator_dc` | sig_forall_dec, functional_extensionality_dep |
| `C44_decimatorB_dc` | sig_forall_dec, functional_extensionality_dep |
| `C66_pca_components` | sig_not_dec, sig_forall_dec, functional_extensionality_dep |
| `C66_double_test` | sig_not_dec, sig_forall_dec, functional_extensionality_dep, classic |
| `C66_no_columns_undefined` | sig_not_dec, sig_forall_dec, functional_extensionality_dep |
| `C66_segment_partial` | sig_not_dec, sig_forall_dec, functional_extensionality_dep, classic |
| `C67_uncorrelated` | sig_not_dec, sig_forall_dec, functional_extensionality_dep |
| `C67_distances` | sig_forall_dec, functional_extensionality_dep |
| `C68_order_refuted` | sig_not_dec, sig_forall_dec, functional_extensionality_dep |
| `C69_values` | sig_not_dec, sig_forall_dec, functional_extensionality_dep, classic |
| `C69_polar_exists` | sig_not_dec, sig_forall_dec, functional_extensionality_dep, classic |
| `C69_unique` | sig_not_dec, sig_forall_dec, functional_extensionality_dep, classic |
| `C69_same_spectra` | sig_not_dec, sig_forall_dec, functional_extensionality_dep, classic |
| `C70_whitened` | sig_not_dec, sig_forall_dec, functional_extensionality_dep, classic |
| `C70_decay` | sig_forall_dec, functional_extensionality_dep |
| `C70_whitened_gain` | sig_not_dec, sig_forall_dec, functional_extensionality_dep, classic |
| `C70_zero_floor_undefined` | sig_not_dec, sig_forall_dec, functional_extensionality_dep, classic |
| `C71_gain` | sig_not_dec, sig_forall_dec, functional_extensionality_dep, classic |
| `C71_phase` | sig_not_dec, sig_forall_dec, functional_extensionality_dep, classic |
| `C71_complex` | sig_not_dec, sig_forall_dec, functional_extensionality_dep, classic |
| `C71_broadband` | sig_not_dec, sig_forall_dec, functional_extensionality_dep, classic |
| `C72_values` | sig_not_dec, sig_forall_dec, functional_extensionality_dep |
| `C72_transposed` | sig_not_dec, sig_forall_dec, functional_extensionality_dep |
| `C72_steps` | sig_not_dec, sig_forall_dec, functional_extensionality_dep |
| `C72_bounds` | sig_not_dec, sig_forall_dec, functional_extensionality_dep |
| `C72_magnitude` | sig_not_dec, sig_forall_dec, functional_extensionality_dep |
| `C73_values` | sig_not_dec, sig_forall_dec, functional_extensionality_dep |
| `C73_transposed` | sig_not_dec, sig_forall_dec, functional_extensionality_dep |
| `C74_gain` | sig_not_dec, sig_forall_dec, functional_extensionality_dep |
| `C74_reversed` | sig_not_dec, sig_forall_dec, functional_extensionality_dep |
| `C74_local` | sig_not_dec, sig_forall_dec, functional_extensionality_dep |
| `C74_steady` | sig_not_dec, sig_forall_dec, functional_extensionality_dep |
| `C75_constant_refuted` | sig_not_dec, sig_forall_dec, functional_extensionality_dep |
| `C75_unsmoothed_refuted` | sig_not_dec, sig_forall_dec, functional_extensionality_dep |
| `C75_defined_refuted` | sig_not_dec, sig_forall_dec, functional_extensionality_dep |
| `C76_times` | sig_forall_dec, functional_extensionality_dep |
| `C77_normalized` | sig_forall_dec, functional_extensionality_dep |
| `C78_spectrum` | sig_not_dec, sig_forall_dec, functional_extensionality_dep, classic |
| `C78_frame` | sig_not_dec, sig_forall_dec, functional_extensionality_dep, classic |
| `C78_constructed` | sig_not_dec, sig_forall_dec, functional_extensionality_dep |
| `C78_same` | sig_not_dec, sig_forall_dec, functional_extensionality_dep, classic |
| `C78_time_freq` | sig_not_dec, sig_forall_dec, functional_extensionality_dep, classic |
| `C78_polarity` | sig_not_dec, sig_forall_dec, functional_extensionality_dep, classic |
| `C78_silence` | sig_not_dec, sig_forall_dec, functional_extensionality_dep, classic |
| `C78_power_refuted` | sig_not_dec, sig_forall_dec, functional_extensionality_dep, classic |
| `C79_gain` | sig_not_dec, sig_forall_dec, functional_extensionality_dep, classic |
| `C79_full_band` | sig_forall_dec, functional_extensionality_dep |
| `C79_low_rate_refuted` | sig_not_dec, sig_forall_dec, functional_extensionality_dep, classic |
| `C80_energy` | sig_not_dec, sig_forall_dec, functional_extensionality_dep, classic |
| `C80_determines` | sig_not_dec, sig_forall_dec, functional_extensionality_dep, classic |
| `C80_mirror` | sig_not_dec, sig_forall_dec, functional_extensionality_dep, classic |
| `C81_cover` | sig_forall_dec, functional_extensionality_dep |
| `C81_shape` | sig_forall_dec, functional_extensionality_dep |
| `C82_decimator_response` | sig_not_dec, sig_forall_dec, functional_extensionality_dep, classic |
| `C82_decimator_alias` | sig_not_dec, sig_forall_dec, functional_extensionality_dep, classic |
| `C82_other_factor_unfiltered` | sig_forall_dec, functional_extensionality_dep |
| `C82_other_factor_alias` | sig_not_dec, sig_forall_dec, functional_extensionality_dep |
| `C83_decimatorB_response` | sig_not_dec, sig_forall_dec, functional_extensionality_dep, classic |
| `C84_length` | none (closed under the global context) |
| `C84_values` | sig_not_dec, sig_forall_dec, functional_extensionality_dep |
| `C84_periodic` | sig_not_dec, sig_forall_dec, functional_extensionality_dep |
| `C84_periodic_any` | none (closed under the global context) |
| `C84_lowest_at_period` | sig_not_dec, sig_forall_dec, functional_extensionality_dep |
| `C85_exact` | sig_not_dec, sig_forall_dec, functional_extensionality_dep, classic |
| `C85_nearest` | sig_not_dec, sig_forall_dec, functional_extensionality_dep, classic |
| `C85_round_trip` | sig_not_dec, sig_forall_dec, functional_extensionality_dep, classic |
| `C85_monotone` | sig_not_dec, sig_forall_dec, functional_extensionality_dep, classic |
| `C85_octave` | sig_not_dec, sig_forall_dec, functional_extensionality_dep, classic |
| `C85_round_trip_all_pitches_refuted` | sig_not_dec, sig_forall_dec, functional_extensionality_dep, classic |
| `C86_track` | sig_not_dec, sig_forall_dec, functional_extensionality_dep, classic |
| `C86_beats_increase` | none (closed under the global context) |
| `C86_beats_within` | none (closed under the global context) |
| `C86_beats_everywhere` | none (closed under the global context) |
| `C86_any_arithmetic` | sig_forall_dec, functional_extensionality_dep |
| `C86_every_lag_refuted` | sig_not_dec, sig_forall_dec, functional_extensionality_dep, classic |
| `C86_metre_overrun` | sig_forall_dec, functional_extensionality_dep |
| `C88_level` | sig_not_dec, sig_forall_dec, functional_extensionality_dep, classic |
| `C88_causal` | sig_not_dec, sig_forall_dec, functional_extensionality_dep, classic |
| `C88_causal_any_arithmetic` | sig_forall_dec, functional_extensionality_dep |
| `C89_reuse_refuted` | sig_not_dec, sig_forall_dec, functional_extensionality_dep, classic |
| `C89_reuse_any_arithmetic` | sig_forall_dec, functional_extensionality_dep |
| `C90_tracks_after_silence_refuted` | sig_not_dec, sig_forall_dec, functional_extensionality_dep, classic |
| `C91_smoothing_after_silence_refuted` | sig_not_dec, sig_forall_dec, functional_extensionality_dep, classic |
| `C91_onsets_after_silence_refuted` | sig_not_dec, sig_forall_dec, functional_extensionality_dep, classic |
| `C91_defined` | sig_not_dec, sig_forall_dec, functional_extensionality_dep, classic |
| `C92_extract` | sig_not_dec, sig_forall_dec, functional_extensionality_dep, classic |
| `C92_unique` | sig_not_dec, sig_forall_dec, functional_extensionality_dep, classic |
| `C92_several` | sig_not_dec, sig_forall_dec, functional_extensionality_dep, classic |
| `C92_block_alone_refuted` | sig_not_dec, sig_forall_dec, functional_extensionality_dep, classic |
| `C92_overlong` | sig_not_dec, sig_forall_dec, functional_extensionality_dep, classic |
| `C92_overlong_refuted` | sig_not_dec, sig_forall_dec, functional_extensionality_dep, classic |
| `C92_all_frames_refuted` | sig_not_dec, sig_forall_dec, functional_extensionality_dep, classic |
| `C92_last_sample` | sig_not_dec, sig_forall_dec, functional_extensionality_dep, classic |
| `C93_short` | sig_not_dec, sig_forall_dec, functional_extensionality_dep, classic |
| `C93_closed` | sig_not_dec, sig_forall_dec, functional_extensionality_dep, classic |
| `C94_initialise` | sig_not_dec, sig_forall_dec, functional_extensionality_dep, classic |
| `C94_rate` | none (closed under the global context) |
| `C94_reinitialise_refuted` | sig_not_dec, sig_forall_dec, functional_extensionality_dep, classic |
| `C94_reinitialised_overrun` | sig_not_dec, sig_forall_dec, functional_extensionality_dep, classic |
| `C95_analysis_partial` | sig_not_dec, sig_forall_dec, functional_extensionality_dep, classic |
| `C95_analysis_pca_partial` | sig_not_dec, sig_forall_dec, functional_extensionality_dep, classic |
| `C96_gain` | sig_not_dec, sig_forall_dec, functional_extensionality_dep, classic |
| `C96_nonneg` | sig_not_dec, sig_forall_dec, functional_extensionality_dep, classic |
| `C96_window` | sig_not_dec, sig_forall_dec, functional_extensionality_dep, classic |
| `C96_middle_weight_refuted` | sig_not_dec, sig_forall_dec, functional_extensionality_dep |
| `C97_filters` | sig_not_dec, sig_forall_dec, functional_extensionality_dep, classic |
| `C97_names` | none (closed under the global context) |
| `C97_named` | none (closed under the global context) |
| `C98_reconstruction` | sig_not_dec, sig_forall_dec, functional_extensionality_dep, classic |
| `C99_energy` | sig_not_dec, sig_forall_dec, functional_extensionality_dep, classic |
| `C99_biorthogonal_refuted` | sig_not_dec, sig_forall_dec, functional_extensionality_dep, classic |
| `C100_gain` | sig_not_dec, sig_forall_dec, functional_extensionality_dep, classic |
| `C100_polynomials` | sig_not_dec, sig_forall_dec, functional_extensionality_dep, classic |
