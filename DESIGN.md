# Formal model of bilby (Rocq / Coq 8.16.1)

Source under study: `/repo` (bilby, pinned). It is read as text; nothing in it is executed.
Everything here lives in `rocq/theories`, built by `coq_makefile -f _CoqProject -o Makefile && make -j4` in `rocq/`.

## Layout

* `*_Model.v` - shallow model of the python functions, branch by branch, with a source citation on every definition.
* `*_Proofs.v` - specifications (independent of the model helpers) and proofs.
* `*_Props.v` - the property theorems named in `MANIFEST.json`, each closed by `exact`, followed by `Print Assumptions`, and non-vacuity examples.
* `seeded/LOG.jsonl` - mutation tests: a realistic bug was put in a scratch copy of the model and the build was run.

## Trusted base

* The Coq 8.16.1 kernel (and coqchk in the gate).
* Axioms: whatever `Print Assumptions` prints under each theorem. For discrete theorems this is "Closed under the global context". For theorems about real numbers it is a subset of the standard library's axioms of the reals and classical logic: `ClassicalDedekindReals.sig_not_dec`, `ClassicalDedekindReals.sig_forall_dec`, `FunctionalExtensionality.functional_extensionality_dep`, `Classical_Prop.classic`, and (through Coquelicot) `ClassicalEpsilon`/`Epsilon` style choice from the standard library where listed. No axiom is declared in this development.
* The reading of the python source: the model is tied to the code only by the citations.
* Numbers: python floats are modelled by exact reals (or integers / rationals) unless a definition says otherwise, so theorems describe the mathematical function the code implements and not rounding. Where rounding matters (for example `Categorical`) it is modelled explicitly.
* External functions (scipy special functions, the random generator, the file system, user callbacks) are parameters of the model; what is assumed of them is an explicit hypothesis of the theorem that uses it.

## What is modelled and what is not

Modelled: the functions cited in the `*_Model.v` files. Not modelled: plotting, logging, third-party samplers' internals, LAL waveforms, multiprocessing internals, pandas/numpy storage details, floating point rounding except where stated.

## Print Assumptions of every property theorem

The compiled `*_Props.v` files print this at build time.

* Closed under the global context (no axioms): C178_default, C178_user_refuted, C178_resume, C178_resume_refuted, C178_verbose, C178_wrapped, C98_arguments, C30_chain_is_list, C30_maximum, C30_samples_drop_last, C30_negative_index_refuted, C30_block_zero_fails, C30_setitem_maximum_refuted, C08_order, C08_complete, C08_unresolved_iff, C09_correct, C09_total, C09_order_independent, C39_sample, C11_full, C11_wrong, C11_none, C11_reset, C11_none_uses_reference_refuted, C11_partial_condition_refuted, C110_set_cosmology_ignored_refuted, C110_explicit, C110_dictionary_refuted, C110_stored, C86_frequency_array_refuted, C87_meta_data, C159_boundaries, C159_disjoint, C159_live_available, C159_refused, C159_rwalk_dynesty, C159_rwalk_dynesty_refuted, C159_registry, C157_any_interruption, C157_as_uninterrupted, C157_terminates, C157_no_regress, C157_maxcall_ignored, C157_maxcall_refuted, C158_total, C158_bounds, C158_early_resumed, C158_early_new, C221_emcee, C221_zeus, C221_kombine, C221_user, C221_burn_in, C221_negative_refuted, C221_numpy_refuted, C221_estimate, C221_empty_refuted, C221_resumed, C221_auto_burnin, C221_auto_burnin_resumed_refuted, C221_kombine_walkers, C149_window, C152_minimize, C152_minimize_gives_up_refuted, C147_ptemcee_samples, C147_ptemcee_aligned, C147_kombine_aligned, C147_emcee_order, C147_emcee_aligned, C147_emcee_permutation, C147_emcee_aligned_refuted, C147_kombine_walkers, C147_kombine_walkers_refuted, C148_refinement, C148_resume, C148_always_resumes_refuted, C153_file_complete, C153_signals, C153_file_equals_chain_refuted, C153_total_steps, C213_window, C213_rows, C213_bootstrap, C240_covered, C240_dnest4_refuted, C240_empty_refuted, C240_distinct, C19_old_or_new, C19_history, C19_two_writers_refuted, C20_previous_survives, C20_completed_save, C20_two_crashes_refuted, C20_overwrite_window_refuted, C20_encoder_error, C20_unknown_format, C20_fallback_name, C20_fallback_directory_refuted, C26_complete_somewhere, C26_permanent_files_kept, C26_finished, C26_restart_reads_partial_file_refuted, C49_saved_kwargs, C49_result_unchanged_refuted, C27_restored_on_return, C27_sequence_of_runs, C27_restored_on_error_refuted, C27_no_alarm_not_restored, C27_foreign_handler_fails, C50_checkpoints, C50_ignored_without_pool, C78_mean_order, C232_round_trip, C232_saved_by_constructor, C232_files, C232_save_again, C232_unevaluated_refuted, C232_never_saved, C232_read_errors, C232_evaluated, C232_kept, C232_name, C106_existing_and_unknown, C106_fixed_not_counted_refuted, C170_frame_text, C170_frame_text_refuted, C167_blocks, C167_restart, C167_progress, C167_completed, C167_other_block, C167_switch_back_refuted, C167_example, C168_snrs, C168_sky, C168_sky_range, C168_sky_only_range, C168_sky_refuted, C168_rows_alone, C168_rows_alone_refuted, C168_example, C67_plain_key, C67_round_trip, C67_refused, C67_sorted, C67_unchanged, C67_losses_refuted, C67_slash_refuted, C120_rows, C120_single_row, C120_mixed_rows_refuted, C76_cache_is_transparent, C76_uncached_is_exact, C76_raises, C76_cache_ignores_data, C76_new_data_refuted, C187_shared, C188_skipped, C188_value, C188_shape, C188_never_shape, C188_not_implemented, C188_blank_refuted, C189_channel, C111_error_refuted, C111_shapes, C112_order_refuted, C112_between_refuted, C113_round, C113_unfinished_refuted, C21_round_trip, C21_identity, C21_refused, C21_marker, C21_marker_refuted, C21_nested_prior_dict, C21_prior_dict_file, C21_missing_class, C21_missing_reference, C65_same_as_hook, C65_idempotent, C65_lists_refuted, C172_order, C172_round, C172_assert, C172_instances, C172_redraw, C174_wrapper, C174_names, C174_error, C68_setter, C73_originals_untouched, C73_parameters, C219_file_order, C219_buffers, C209_remove, C207_schedule, C207_retry, C207_trained, C207_verified, C207_unverified_refuted, C207_one_parameter_refuted, C206_parameters, C241_resumed, C241_setup, C241_fresh_refuted, C241_spacing, C241_killed, C241_unpicklable, C241_options_refuted, C226_live_points, C226_seed, C226_others, C226_dnest4_steps, C226_dnest4_refuted, C226_no_seed_refuted, C226_walkers_refuted, C226_nlives_refuted, C226_nestle, C226_polychord, C226_ptmcmc, C226_nessai_pool, C226_nessai_config, C229_reactive, C229_live_points, C229_again_refuted, C229_nessai, C229_cpnest, C229_cpnest_refuted, C229_proposals, C229_reuse_refuted, C229_reuse, C229_fake, C184_cached, C180_rows, C180_no_priors, C180_refused, C180_refused_lengths, C180_overwritten, C07_first_accepted, C07_terminates, C07_scalar, C07_scalar_terminates, C66_coordinatewise, C66_raises, C66_local, C165_kept, C165_added, C165_complete, C165_idempotent, C165_order, C165_order_refuted, C144_read_printed, C144_same_prior_iff, C144_print_injective, C144_apostrophe, C144_positional, C144_raw, C144_bracket, C145_file, C145_same_dictionary_iff, C146_dist_key, C146_dist_alone, C146_keys, C146_joint_after_distribution, C146_values, C146_order, C144_label_refuted, C144_backslash_refuted, C144_comma_refuted, C144_depth_refuted, C144_no_arguments_refuted, C145_decoded_refuted, C145_comment_refuted, C145_conversion_refuted, C146_spaces_refuted, C45_round_robin, C45_full_turn, C234_value, C234_implications, C234_missing_refuted, C234_members, C205_stop, C205_no_print_refuted, C205_print_stops, C203_pool, C230_schedule, C230_counters, C230_apart, C230_adapt, C230_stopped_refuted, C230_nsamples, C230_count, C212_steps, C212_single, C212_nuts_refuted, C209_tags, C212_given, C227_draws, C229_one_call, C230_last_adapted, C230_off, C230_stops, C221_zeus_user, C179_round_trip, C179_unknown, C179_named, C179_reader, C179_others, C179_old, C179_old_kept, C179_fallback_old_refuted, C179_fallback, C179_hidden_refuted, C179_fallback_place, C179_fallback_place_refuted, C179_from_pickle_refuted, C24_mcmc_rows, C24_priors_checked, C24_detects_refuted, C24_missing_key, C214_nodes, C135_cache, C135_cache_after_error_refuted, C136_npz, C136_name, C136_name_refuted, C154_items, C154_valid, C154_distinct, C154_plugin, C154_case, C154_listed, C154_inner_prefix_refuted, C154_capital_refuted, C156_seconds, C156_seconds_days, C25_partition, C25_likelihood_sees, C25_short_vector, C53_known_names, C53_plain, C53_alias, C53_own_seed, C53_npool, C48_scalar_assignments_refresh, C48_new_object, C48_assigned_frequency_array, C225_accepted, C225_values, C225_sampled, C225_method, C225_other, C225_conditions, C225_gp_function, C225_gp_method_refuted, C225_hyper_refuted, C225_hyper, C225_keyword_only_refuted, C225_positional_only_refuted, C191_optional, C192_dictionary, C227_redundant, C227_verified, C227_fixed_refuted, C227_array, C227_one_parameter_refuted, C227_frame, C227_by_name, C227_ptemcee, C201_discard_refuted, C201_setters, C99_transparent, C99_start, C99_grid_refuted, C99_edited_refuted, C99_same_model_refuted, C99_array_refuted, C100_received, C100_missing, C100_refused, C100_arguments_refuted, C100_errors, C99_example, C100_example
* `ClassicalDedekindReals.sig_forall_dec`: C177_delete_refuted, C175_multinest, C175_ptmcmc, C96_example, C08_unresolved_raises, C08_history, C08_update_refuted, C09_history, C38_joint, C38_history_free, C39_delta_array_refuted, C152_evaluate, C213_columns, C213_last_row_unused, C140_loop, C140_floats, C169_success, C169_fixed_raises, C169_distance, C169_twice, C169_reference, C169_no_priors, C169_failure_refuted, C169_example, C170_given, C170_detector_frame, C170_fallback_refuted, C170_again, C170_stale_refuted, C170_jitter_refuted, C120_terminates, C112_contiguous, C172_length_refuted, C73_sum_after_updates, C73_excluded_point, C73_rebinding_refuted, C73_setter_refuted, C242_unconstrained, C184_one, C184_missing, C184_many_refuted, C184_stale_refuted, C07_keys_unchanged_refuted, C10_factor_fixed, C10_first_use, C10_no_constraint, C66_short_refuted, C205_maximum_refuted, C215_defaults, C206_steps, C136_npz_loses_nodes_refuted, C155_reused_iff, C155_reused, C155_sampled, C155_clean_sticky, C155_priors_ignored, C155_other_formats, C155_failure_recovered, C155_unknown_format, C156_sampled, C156_injection, C156_injection_idempotent, C155_same_priors_refuted, C25_other_fixed_refuted, C239_lengths
* `Classical_Prop.classic`: C106_guarded_growth_bbh, C106_guarded_growth_bns
* `ClassicalDedekindReals.sig_forall_dec`, `FunctionalExtensionality.functional_extensionality_dep`: C177_same, C177_delete, C177_time, C177_killed_viz, C177_killed_dump, C177_killed_time_refuted, C177_twice, C175_polychord, C175_single_refuted, C175_ultranest, C175_ultranest_mask, C176_move, C176_error, C176_box, C176_uniform, C95_coefficients, C95_nodes, C95_cubic, C95_ends, C95_example, C97_curve, C97_example, C09_stale_cache_refuted, C38_history_refuted, C12_simplex, C108_limits, C108_corresponding_prior, C109_unit_changes_limits_refuted, C109_range_reversed_refuted, C109_corresponding_unit_refuted, C87_raises_iff, C87_constructor, C87_failed_append_refuted, C87_tolerance, C87_start_times_refuted, C87_unset_type_error, C87_insert, C160_rejection, C160_nonempty, C161_diff, C161_diff_reversible, C161_diff_linear, C161_live_rows, C161_current_point_removed_refuted, C161_normalised, C149_stop, C149_discard, C149_samples, C149_ignore_keys_refuted, C149_no_autocorrelation, C149_minimum_stable, C149_stays_stable_refuted, C151_infinite, C151_exact, C151_bounds, C151_error_odd, C151_error_even, C151_error_zero_if_exact_refuted, C152_wrap, C152_periodic_proposals_refuted, C153_burn_in, C153_not_burned_in_detected_refuted, C199_kept, C199_rising, C199_overlap_refuted, C199_family, C199_lambda, C199_equal_refuted, C199_wrap_refuted, C213_thermodynamic_odd, C213_thermodynamic_even, C213_two_chains_refuted, C46_thermodynamic_bounds, C77_raises, C77_terminates, C77_agreement, C77_exact_on_quadratics, C77_flat_derivative_refuted, C78_symmetric, C78_parameters_left_displaced, C78_positive_definite, C78_last_optimisation, C78_best_optimisation_refuted, C78_mean_order_refuted, C63_evaluate, C63_repeated_points, C63_fixed_parameter, C63_sample_points, C61_error, C61_values, C60_column, C60_column_refuted, C140_broadcast_refuted, C141_polytrope_check, C141_spectral_check, C141_lambda, C141_rows, C141_pca, C79_raises, C79_hermitian, C79_linear, C79_outside_band, C79_norm, C80_inner_product, C80_self, C80_bins, C80_cut_offs_refuted, C93_file, C93_own_file, C93_dictionary_refuted, C93_small_densities_refuted, C93_example, C88_noise_cached, C34_component_masses_to_symmetric_mass_ratio, C34_component_masses_to_mass_ratio, C34_total_mass_and_mass_ratio, C34_total_mass_and_mass_ratio_inverse, C34_chirp_mass_unique, C36_symmetric_antisymmetric, C36_symmetric_antisymmetric_back, C107_input_changed_refuted, C107_second_call_refuted, C104_aligned_range, C104_aligned_range_refuted, C170_detector_time, C170_jitter, C170_rows, C170_example, C215_start, C215_start_bounds, C118_normalised, C119_pixel_probability, C119_map_probability_refuted, C120_square, C120_distance, C120_redraw_refuted, C189_loads, C189_boundary_refuted, C189_observatory, C189_one_frame, C190_decides, C190_fits, C190_rounding_refuted, C190_masses, C190_no_raise_refuted, C190_within, C190_default_start, C222_window_refuted, C13_rescale_zero, C13_even_grid_kept, C13_resampled, C13_uneven_grid_refuted, C14_rescale_law, C14_spike_mass, C14_rescale_monotone, C14_cdf, C14_stale_height_refuted, C14_zero_height_prob_refuted, C111_dictionary, C111_incomplete_refuted, C114_one_sample, C114_several, C114_missed_refuted, C117_mode_probability, C117_density, C117_weights_refuted, C172_weights, C171_missing, C219_restore, C219_own_order, C219_order_refuted, C219_defaults, C219_taper_refuted, C218_points, C218_waveform, C209_separator_refuted, C209_default, C209_gwA_refuted, C209_reach_refuted, C209_length, C209_empty_refuted, C206_reverse, C206_reverse_de, C206_reverse_de_refuted, C206_jump_refuted, C217_bounds, C217_tuple_bounds_refuted, C217_symmetry_refuted, C242_value, C242_ends, C242_never, C242_first_dropped, C242_one_draw_refuted, C183_prior_volume, C183_dimension, C181_weight, C181_nothing_shared, C181_by_label, C181_missing_label, C181_same, C181_compose, C06_product, C06_defined, C06_prob_rows, C07_sound, C10_follows_edits_refuted, C164_characterised, C164_equivalence, C164_reflexive, C164_array_refuted, C164_frozen_refuted, C165_copy, C165_constraints, C165_copy_refuted, C166_range, C166_ends, C166_monotone, C166_reflected, C166_scaled, C166_uniform, C166_all_keys, C166_integer_refuted, C162_prob, C162_normalised, C162_rescale, C162_drawn_supported, C162_top_refuted, C163_defined, C163_monotone, C163_top_refuted, C163_categorical_refuted, C41_z_range, C44_documented_draw_refuted, C234_validate, C234_more_draws, C205_percentage_refuted, C205_maximum, C203_places, C203_columns, C203_lists, C203_count, C203_no_zero_refuted, C203_count_refuted, C236_attribute, C236_never, C236_one, C236_second_refuted, C236_bounds, C236_test, C236_test_refuted, C236_empty_refuted, C210_names, C209_default_weights, C219_without_prior, C219_no_mass, C201_rows, C201_infinite, C205_percentage, C206_adaptive_steps, C123_bins, C125_edges, C125_outside, C125_linear, C124_last_bin_refuted, C124_linear_ratio_refuted, C126_iterations, C126_worse_refuted, C231_modes, C23_uninterrupted, C23_resumed, C23_checkpoints, C23_any_history, C23_equal_refuted, C23_stale_file_refuted, C51_keep_iff, C51_largest_kept, C51_scale_invariant, C51_two_steps, C131_in_bounds, C131_cubic, C131_quartic_refuted, C131_nodes, C131_continuous, C131_array_agrees, C131_wraps_refuted, C132_covered, C132_edge_refuted, C132_time_grid, C134_unique, C135_choose, C135_select_keeps, C135_select_exact, C135_gap_refuted, C135_no_gap, C136_load, C136_round_trip, C136_selected_stable, C156_evidence, C156_number_refuted, C54_points, C54_returns_iff, C54_constraints, C54_sentinel, C58_matches, C58_missing_raises, C58_duplicates_refuted, C15_reflect_range, C15_reflect_identity, C15_reflect_period, C15_reflect_even, C15_reflect_fibres, C15_reflect_contraction, C29_mcmc_periodic, C29_mcmc_reflective, C40_quantile_monotone, C40_median_is_quantile, C40_interval_contains_median, C40_interval_nested, C40_mean_outside_refuted, C18_time_array, C18_frequency_array_even, C18_time_truncation, C18_illegal_rejected, C18_read_back, C48_stale_time_array_refuted, C48_stale_frequency_array_refuted, C48_refused_array_kept_refuted, C239_total, C239_order, C196_scale, C196_length, C196_zero, C196_kpc_refuted, C196_unit, C196_linear, C196_component, C194_unique, C82_time_data_replace_all, C82_window_factor, C83_accepted, C83_check_frequency, C83_documented_order_refuted, C83_psd_segment_refuted, C233_value, C233_errors, C233_lower_upper_refuted, C233_order, C233_units, C233_swapped_refuted, C202_tau, C202_floor, C202_thin, C202_count, C202_rows, C202_count_refuted, C202_overflow_refuted, C201_sources, C202_lookup, C201_discard, C201_stale_refuted, C201_settled, C28_fixed_walk, C28_moves, C28_above_threshold_refuted, C55_build, C55_no_accept_raises, C55_serve, C55_history, C55_strictly_above_refuted, C56_answer, C56_terminates, C56_endless, C56_short_limit, C57_estimate_range, C57_estimate_converges, C57_estimate_stuck, C57_walks, C224_bounds, C224_internal, C224_converges, C224_fixed, C224_failure, C224_rebuild, C224_few_live_points_refuted
* `ClassicalDedekindReals.sig_forall_dec`, `ClassicalDedekindReals.sig_not_dec`, `FunctionalExtensionality.functional_extensionality_dep`: C176_balance_flat, C98_file_round_trip, C98_outside, C98_parameters_refuted, C31_swap_exchanges, C31_swap_rejected, C31_swap_keeps_current, C31_next_step_start, C31_swaps_have_no_effect, C31_swapped_state_used_refuted, C85_cache, C85_degrees, C85_vertex_on_ellipsoid, C85_elevation_along_normal, C86_queries, C86_asd_squared_is_psd, C86_wrong_length, C86_at_nodes, C86_constructor, C86_noise, C86_noise_after_reassignment_refuted, C161_scale, C161_duplicates_live, C150_bound, C150_affine, C150_textbook, C150_short, C198_range, C198_shortened_refuted, C198_warned, C200_tov, C200_outwards, C200_riccati, C200_start, C200_centre, C47_adapted_ladder, C47_equal_ratios_fixed, C79_cauchy_schwarz, C79_snr_at_most_data_norm, C79_snr_of_pure_signal, C79_snr_scale_invariant, C79_snr_nan, C79_example, C80_normalised, C80_psd_from_freq_series, C238_missing, C94_reconstruction, C89_arrival, C90_missing_factor, C90_labels, C90_example, C34_symmetric_mass_ratio_to_mass_ratio, C34_symmetric_mass_ratio_domain, C36_tides_roundtrip, C36_tides_roundtrip_back, C36_tides_inverse_defined_iff, C36_common_eos, C215_waveform, C215_answered, C215_errors, C215_none, C215_refused, C215_stray_refuted, C215_dropped_refuted, C120_outside_refuted, C75_downsampling, C75_function_prior_reused, C75_function_prior_refuted, C187_closed, C186_bin, C186_energy, C186_time_energy, C186_strain, C186_unit_variance_refuted, C222_one, C222_noise, C222_zero_noise, C222_no_power, C222_two, C222_signal, C222_network, C222_interrupted_refuted, C115_covariance_given, C115_correlation_given, C115_roundtrip, C115_sigmas_alone_refuted, C116_covariance, C116_repeated_refuted, C218_coefficient, C218_inner, C218_single, C218_leak_refuted, C220_band, C220_full_length, C220_positive, C128_window, C128_partition, C128_overlap_refuted, C129_band, C129_affine_band, C129_exact, C209_phase, C209_phase_refuted, C207_gmm, C207_one_parameter, C207_kde_refuted, C33_matches_program, C217_added, C217_accepted, C217_modes, C217_single, C217_several, C217_refused, C217_means_refuted, C217_failure_refuted, C183_one, C183_two, C183_two_refuted, C183_occam, C41_density_symmetric, C42_range, C42_phase_undone, C42_polarisation_undone, C42_both_undone, C42_quadrupole_invariant, C42_jump, C42_delta_phase, C44_uniform_never_moves, C204_one, C204_view, C204_again_refuted, C209_reversal, C217_elements, C217_ragged, C220_unshortened, C235_quadratic_weights, C215_accepted, C124_inner_products, C124_constant_ratio, C124_band_end_refuted, C231_value, C231_given, C231_time, C231_linear, C231_real_refuted, C24_best_run_kept, C24_rows, C235_data, C235_inner, C235_single, C235_top_refuted, C235_beyond, C235_quadratic, C237_probability, C237_total, C237_fails, C237_jitter, C237_phase, C133_linear, C133_quadratic, C228_same, C228_inject, C228_outside, C228_early_refuted, C17_round_trip, C17_odd_loses_sample, C17_parseval, C17_tone_bin, C17_labels, C18_frequency_array_odd, C223_values, C223_whitened, C223_time, C223_scale, C223_odd_refuted, C239_likelihood, C239_network_refuted, C195_scale, C195_refused, C191_models, C191_sequence_models, C191_spins, C191_grid, C191_modulus, C191_failure, C191_none, C192_stray, C192_used, C192_default, C192_stray_sequence, C193_fiducial_bbh, C193_fiducial_bns_refuted, C193_binned, C193_consistent, C194_nodes, C194_precomputed, C194_caught_refuted, C81_mask, C81_maximum_frequency, C81_frequency_domain_strain, C81_from_time_domain, C82_time_domain, C82_assigned, C82_round_trip, C84_injection, C81_second_data_set_refuted, C81_append_refuted, C81_sticky_maximum_refuted, C82_stale_time_data_refuted, C83_notch_list_refused_refuted
* `ClassicalDedekindReals.sig_forall_dec`, `Classical_Prop.classic`, `FunctionalExtensionality.functional_extensionality_dep`: C173_walk, C173_walk_back, C173_walk_equal, C173_evolution, C173_norm, C173_flat, C171_boundaries, C171_odd_place, C171_refuted, C171_idempotent, C209_gwA, C209_gwA_reach, C06_order, C06_order_unconstrained, C209_polarisation, C29_apply_boundaries, C29_never_refused
* `ClassicalDedekindReals.sig_forall_dec`, `ClassicalDedekindReals.sig_not_dec`, `Classical_Prop.classic`, `FunctionalExtensionality.functional_extensionality_dep`: C175_nested, C175_nessai, C176_balance_refuted, C121_constant, C121_used_by_spline, C122_at_file_frequency, C122_flat_file, C95_smooth, C95_node_factors, C95_factor, C96_complete_call, C96_history, C96_forgotten_refuted, C96_constructor, C98_models_removed, C98_precomputed, C98_generated, C98_range_refuted, C98_example, C216_few, C216_agree, C216_levels, C216_lenient, C216_unknown, C216_nested, C216_nan_refuted, C216_mcmc, C216_other, C216_error, C216_evidence_refuted, C12_element, C12_uniform, C85_triangle_orientation, C85_triangle_refuted, C160_weights, C160_neff, C160_neff_shift, C160_neff_equal, C161_ball, C161_volumetric, C198_law, C198_unique, C198_increasing, C198_polytrope, C198_xmax, C199_table, C200_k2, C200_newtonian, C197_unflagged, C197_built, C197_nodes, C197_low, C197_monotone_refuted, C197_leading, C197_warned, C197_causal, C197_causal_refuted, C213_nan, C213_bounds, C213_ensembles, C213_scale_refuted, C213_stored, C46_stepping_stone_jensen, C46_stepping_stone_bounds, C46_constant_likelihood, C46_exact_for_constant_refuted, C46_stepping_stone_consistent, C46_combined_between, C46_combined_is_mean, C46_combined_err_no_gain, C47_gap_direction, C47_order_with_hottest_refuted, C47_initial_ladder, C77_derivative_nearby, C78_second_derivative_nearby, C78_exact_on_quadratics, C74_Gaussian_samples, C74_Truncated_samples, C74_Half_samples, C74_LogNormal_samples, C74_Gaussian_cdf, C74_Truncated_cdf, C74_Half_cdf, C74_LogNormal_cdf, C74_erf_bijective, C74_ln_prob, C74_relations, C74_negative_sigma_refuted, C68_normalised, C22_value, C22_order, C22_not_parameters, C22_evidence, C22_evidence_from_marginal, C22_shift, C22_evidence_bounds, C22_errors, C22_second_call_refuted, C64_value, C64_constant, C64_scalar_step, C64_errors, C64_decreasing_nan, C60_kept, C60_source, C60_comoving_refuted, C60_spin_in_plane, C60_spin_aligned, C60_spin_magnitude, C60_angle, C60_phase, C61_roundtrip, C62_chi_eff, C62_chi_p, C62_aligned, C62_precessing, C62_error, C62_azimuth, C139_kept, C137_determined, C137_lambda_2_alone_refuted, C137_symmetric_refuted, C137_scalar_love_refuted, C137_delta_alone, C138_none, C138_both, C138_lambda_1_alone, C138_tilde_pair, C138_tilde_alone, C138_symmetric, C138_eos, C138_antisymmetric_alone_refuted, C142_values, C142_reference_frequency_refuted, C142_tilde, C142_specific, C141_triangle, C143_value, C143_monotone, C143_equal_mass, C143_equal_mass_refuted, C143_negative_refuted, C143_automatic, C37_outcome, C37_consistent, C37_refuted, C59_complete, C59_error, C238_correlated, C238_back, C238_twice, C238_sign_refuted, C238_face_on, C238_sky, C91_mean_over_phase, C91_phase_free, C91_range, C91_reconstruction, C91_sign_refuted, C91_example, C92_mean_over_distance, C92_reconstruction, C92_weak_template_refuted, C92_example, C94_mean_over_curves, C94_time_distance_refuted, C94_index_left_refuted, C94_example, C88_gaussian, C88_maximum, C88_detectors_add, C88_basic_agrees, C88_example, C89_value, C89_label_refuted, C89_example, C90_weights, C90_four_seconds, C90_refuted, C34_component_masses_to_chirp_mass, C34_chirp_mass_and_mass_ratio, C34_chirp_mass_and_mass_ratio_inverse, C34_chirp_mass_and_total_mass, C35_mass_1_and_chirp_mass, C35_chirp_mass_and_primary_mass, C35_mass_2_and_chirp_mass, C35_cubic_root, C35_mass_2_and_chirp_mass_refuted, C106_ratios_refuted, C107_weight, C107_already_flat, C101_jacobian, C101_uniform_in_components, C102_cdf_is_the_integral, C102_cdf_increasing, C102_cdf_not_clipped_refuted, C102_rescale_law, C102_equal_mass_not_inverse_refuted, C102_hypergeometric_series, C102_series_instance, C103_aligned_spin_density, C103_magnitude_given_aligned, C103_magnitude_marginal_uniform, C103_in_plane_given_aligned, C104_in_plane_normalised, C104_in_plane_rescale, C104_in_plane_rescale_inverse, C104_in_plane_cdf_above_refuted, C105_chirp_mass_limits, C105_minimum_component_mass, C105_limits_attained, C118_one_sample, C118_first_sample_refuted, C118_two_samples_refuted, C118_measure_refuted, C75_product_of_averages, C75_sampling_prior_is_neutral, C75_no_support, C75_zero_over_zero, C75_evidences, C75_any_sequence_of_updates, C187_three, C187_steps, C187_arms_refuted, C187_east_refuted, C185_power, C185_tight, C185_monotone, C185_raises, C185_rounded_up_refuted, C185_added, C185_energy, C185_wraps, C185_never_too_long, C185_meta_time, C185_matched_filter_refuted, C13_density_normalised, C13_cdf, C13_rescale, C13_cdf_error, C13_rescale_not_inverse_of_mass_refuted, C173_stretch, C173_stretch_back, C173_eigen, C173_eigen_1d, C68_product_of_densities, C68_sampled_sigma_wins, C68_least_squares, C68_best_sigma, C68_independent_data, C68_order_and_signs, C68_zero_sigma_is_nan, C69_product_of_pmf, C69_normalised, C69_best_rate, C69_bad_rates, C69_zero_rate_refuted, C70_product_of_densities, C70_normalised, C70_best_mean, C70_bad_means, C71_scale_equivariant, C71_decreasing_in_residuals, C71_even, C71_raises_iff, C71_cauchy, C72_pmf, C72_normalised, C72_best_probabilities, C72_noise_is_uniform, C72_wrong_length_raises, C72_outside_simplex, C72_outside_simplex_refuted, C220_below_nyquist, C127_derivative, C127_default_maximum, C127_condition_monotone, C127_search, C127_bands, C127_reload, C130_integers, C130_monotone, C206_independent, C207_fallback, C208_sequential, C208_single, C208_one_each, C208_support, C208_rule, C206_frame, C206_inside, C206_outside_refuted, C32_detailed_balance, C32_stationary, C32_stationary_steps, C32_never_leaves_support, C32_wrong_log_factor_refuted, C33_swap_detailed_balance, C33_round_stationary, C242_rounded, C242_agree, C242_zero_refuted, C182_columns, C182_polar, C182_complex_left_refuted, C182_clash_refuted, C06_ln_prob, C06_ln_prob_rows, C06_constraint_bypass_refuted, C06_bypass_array_differs_refuted, C06_order_dependent_factor_refuted, C162_last_category_refuted, C162_ln_prob, C163_broken_line, C163_convex, C163_linear, C01_Uniform, C01_PowerLaw, C01_PowerLaw_zero_minimum, C01_LogUniform, C01_SymmetricLogUniform, C01_Exponential, C01_Logistic, C01_Cauchy, C01_FermiDirac, C01_Triangular, C01_densities_normalised, C02_Uniform, C02_PowerLaw, C02_PowerLaw_zero_minimum, C02_LogUniform, C02_SymmetricLogUniform, C02_Triangular, C02_Cosine, C02_Sine, C02_Exponential, C02_FermiDirac, C03_Uniform, C03_PowerLaw, C03_PowerLaw_zero_minimum, C03_PowerLaw_negative_refuted, C03_SymmetricLogUniform, C03_Exponential, C03_Logistic, C03_Cauchy, C03_Triangular, C04_Cosine_mass, C04_Sine_mass, C04_Cosine_normalised_iff, C04_Sine_normalised_iff, C04_Cosine_default, C04_Sine_default, C04_truncated_refuted, C05_Uniform, C05_PowerLaw, C05_LogUniform, C05_Exponential, C05_Cauchy, C05_FermiDirac, C05_SymmetricLogUniform_in_support, C05_SymmetricLogUniform_refuted, C41_z_density, C41_reverse, C41_log_factor, C43_scale_bounded_below, C43_direction, C43_frozen, C204_keep, C204_bias_refuted, C203_ladder, C203_snr_refuted, C211_gaussian, C211_poisson, C211_exponential, C211_student, C211_keys, C211_sampled_refuted, C211_poisson_refuted, C211_kwargs_refuted, C210_gaussian, C210_others, C210_constant, C210_default_range, C210_powerlaw_refuted, C210_beta_refuted, C211_poisson_zero, C123_phase_grows, C51_evidence, C51_identity, C51_constant_factor, C52_original_overwritten, C52_second_call, C52_explicit_old, C52_repeat_refuted, C24_log_mean, C24_error, C24_keep_fractions, C24_error_positive_refuted, C214_data, C214_binaries, C214_fails, C214_undetermined_refuted, C214_two_files, C214_length_refuted, C214_given, C214_unchecked, C237_share, C132_resolution, C16_kish_bounds, C16_kish_equal_weights, C16_kish_shift, C16_kish_order, C16_kish_zero_weight, C16_kish_all_zero, C195_energy, C195_reflect, C195_shape, C195_peak_refuted

## Per-property plan and status

### C01 Closed-form priors: rescale is the exact inverse transform of prob (proved)

Model: each prior's `rescale`/`prob` as a Coq function on R (numpy `**`, `log`, `exp` as Coq reals functions, with an explicit power function that agrees with numpy at base 0). Spec: `is_RInt prob (rescale u) (rescale v) (v-u)` from Coquelicot; proof by the fundamental theorem with an explicit antiderivative.

Theorems: `C01_Uniform`, `C01_PowerLaw`, `C01_PowerLaw_zero_minimum`, `C01_LogUniform`, `C01_SymmetricLogUniform`, `C01_Exponential`, `C01_Logistic`, `C01_Cauchy`, `C01_FermiDirac`, `C01_Triangular`, `C01_densities_normalised`

Note: PowerLaw with minimum 0 is covered for alpha > -1 and u > 0 (the density is not Riemann integrable at 0 for alpha < 0).

### C02 Samples never leave the declared support (proved)

Same model; order reasoning on reals.

Theorems: `C02_Uniform`, `C02_PowerLaw`, `C02_PowerLaw_zero_minimum`, `C02_LogUniform`, `C02_SymmetricLogUniform`, `C02_Triangular`, `C02_Cosine`, `C02_Sine`, `C02_Exponential`, `C02_FermiDirac`

### C03 cdf is the integral of prob and the left inverse of rescale (proved)

Same model; cdf compared with the Riemann integral of prob.

Theorems: `C03_Uniform`, `C03_PowerLaw`, `C03_PowerLaw_zero_minimum`, `C03_PowerLaw_negative_refuted`, `C03_SymmetricLogUniform`, `C03_Exponential`, `C03_Logistic`, `C03_Cauchy`, `C03_Triangular`

Note: FermiDirac has no cdf method; for PowerLaw the claim is for positive arguments and the failure for negative arguments is proved.

### C04 Cosine and Sine densities are normalised only on the default range (proved)

Same model; integral of prob computed and compared with 1; refutation theorem for proper sub-ranges.

Theorems: `C04_Cosine_mass`, `C04_Sine_mass`, `C04_Cosine_normalised_iff`, `C04_Sine_normalised_iff`, `C04_Cosine_default`, `C04_Sine_default`, `C04_truncated_refuted`

### C05 ln_prob is the logarithm of prob (proved)

Values are extended reals (finite or -inf); ln_prob compared with the extended log of prob; refutation for SymmetricLogUniform.

Theorems: `C05_Uniform`, `C05_PowerLaw`, `C05_LogUniform`, `C05_Exponential`, `C05_Cauchy`, `C05_FermiDirac`, `C05_SymmetricLogUniform_in_support`, `C05_SymmetricLogUniform_refuted`

Note: Proved for Uniform, PowerLaw, LogUniform, Exponential, Cauchy, FermiDirac; the documented violation of SymmetricLogUniform is proved at every point outside its support.

### C06 Joint prior probability is the product of the individual ones, in any order (proved)

Dictionaries as association lists, per-key densities as real-valued functions; permutation invariance by induction over Permutation.

Theorems: `C06_product`, `C06_defined`, `C06_order`, `C06_order_unconstrained`, `C06_ln_prob`, `C06_prob_rows`, `C06_ln_prob_rows`, `C06_constraint_bypass_refuted`, `C06_bypass_array_differs_refuted`, `C06_order_dependent_factor_refuted`

### C07 Constrained sampling returns exactly the requested number of valid samples (proved)

The draw stream is a function nat -> batch; the while loop runs on fuel; theorem about every terminating run, plus equality with the filter of the stream.

Theorems: `C07_sound`, `C07_first_accepted`, `C07_terminates`, `C07_scalar`, `C07_scalar_terminates`, `C07_keys_unchanged_refuted`

### C08 Conditional priors are resolved in dependency order (proved)

The resolution loop as a fuel-free recursion over the list of unresolved keys; spec is a topological order of the dependency relation.

Theorems: `C08_order`, `C08_complete`, `C08_unresolved_iff`, `C08_unresolved_raises`, `C08_history`, `C08_update_refuted`

### C09 Conditional rescale index cache (proved)

State machine with cached key list and indexes.

Theorems: `C09_correct`, `C09_history`, `C09_total`, `C09_order_independent`, `C09_stale_cache_refuted`

### C10 Constraint normalisation factor cache (proved)

State machine with a cache keyed by key tuple.

Theorems: `C10_factor_fixed`, `C10_first_use`, `C10_no_constraint`, `C10_follows_edits_refuted`

### C11 Conditional prior state machine (proved)

State machine over calls, induction over histories.

Theorems: `C11_full`, `C11_wrong`, `C11_none`, `C11_reset`, `C11_none_uses_reference_refuted`, `C11_partial_condition_refuted`

### C12 Dirichlet priors are uniform on the simplex (proved)

Recursion over elements with Beta(1,b) quantile function in closed form.

Theorems: `C12_simplex`, `C12_element`, `C12_uniform`

### C13 Interpolated prior is a normalised piecewise linear density (proved)

Lists of nodes; trapezoid cumulative sums; linear interpolation as in scipy.interp1d.

Theorems: `C13_density_normalised`, `C13_cdf`, `C13_rescale`, `C13_rescale_zero`, `C13_cdf_error`, `C13_rescale_not_inverse_of_mass_refuted`, `C13_even_grid_kept`, `C13_resampled`, `C13_uneven_grid_refuted`

### C14 Slab-and-spike prior quantiles (proved)

Slab given by any increasing bijective rescale/cdf pair (hypotheses), spike logic as in the code.

Theorems: `C14_rescale_law`, `C14_spike_mass`, `C14_rescale_monotone`, `C14_cdf`, `C14_stale_height_refuted`, `C14_zero_height_prob_refuted`

### C15 Reflection of unit-cube points (proved)

Real floor and modulo.

Theorems: `C15_reflect_range`, `C15_reflect_identity`, `C15_reflect_period`, `C15_reflect_even`, `C15_reflect_fibres`, `C15_reflect_contraction`

### C16 Kish effective sample size is between one and the number of samples (proved)

Lists of reals, Cauchy-Schwarz by induction.

Theorems: `C16_kish_bounds`, `C16_kish_equal_weights`, `C16_kish_shift`, `C16_kish_order`, `C16_kish_zero_weight`, `C16_kish_all_zero`

### C17 FFT round trip (proved)

Series_Model: rsum, angle, rfft, irfft, nfft, infft. Orthogonality from a telescoping kernel identity.

Theorems: `C17_round_trip`, `C17_odd_loses_sample`, `C17_parseval`, `C17_tone_bin`, `C17_labels`

Note: Exact real arithmetic; rfft and irfft are modelled by their defining sums, not by the fast algorithm.

### C18 Time and frequency array shapes (proved)

Series_Model: round_even, trunc, legal, linspace.

Theorems: `C18_time_array`, `C18_frequency_array_even`, `C18_frequency_array_odd`, `C18_time_truncation`, `C18_illegal_rejected`, `C18_read_back`

Note: Exact real arithmetic; np.round is half-to-even, int() truncates. Reading back assumes values with at most 14 decimals (the rounding the code applies).

### C19 Crash-safe state dump (proved)

Files_Model.safe_file_dump.

Theorems: `C19_old_or_new`, `C19_history`, `C19_two_writers_refuted`

Note: Prefix model of the call sequence; rename within a directory is assumed atomic and writes to reach the disk in order (the code does not fsync).

### C20 Saving a result survives one crash but not two (proved)

Files_Model.save_to_file, move_old_file, fallback_name.

Theorems: `C20_previous_survives`, `C20_completed_save`, `C20_two_crashes_refuted`, `C20_overwrite_window_refuted`, `C20_encoder_error`, `C20_unknown_format`, `C20_fallback_name`, `C20_fallback_directory_refuted`

Note: Same crash model as C19. The content of json/hdf5 text is abstract bytes.

### C21 JSON encoding round trip (proved)

Json_Model.encode, hook, decode, prior_dict_json; the expected result is the independent function norm.

Theorems: `C21_round_trip`, `C21_identity`, `C21_refused`, `C21_marker`, `C21_marker_refuted`, `C21_nested_prior_dict`, `C21_prior_dict_file`, `C21_missing_class`, `C21_missing_reference`

Note: json.dumps and json.loads are inverse on JSON trees; floats are abstract; an array is given by its tolist(), so dtype and empty shapes are not tracked.

### C22 Grid marginalisation does not depend on the order of parameters (proved)

Grid_Model.marginalize_single, marg_loop, marginalize; the specification integral is an iterated trapezoid rule over assignments of names.

Theorems: `C22_value`, `C22_order`, `C22_not_parameters`, `C22_evidence`, `C22_evidence_from_marginal`, `C22_shift`, `C22_evidence_bounds`, `C22_errors`, `C22_second_call_refuted`

Note: Exact real arithmetic; logs are finite, -inf or nan. Arrays are a shape and a function of the index tuple; np.apply_along_axis is applied entry by entry. Axes of length zero are excluded.

### C23 Resumed reweighting (proved)

Result_Model: get_weights, prior_loop with its list of saved states, killed_many.

Theorems: `C23_uninterrupted`, `C23_resumed`, `C23_checkpoints`, `C23_any_history`, `C23_equal_refuted`, `C23_stale_file_refuted`

Note: Finite real log values; np.savetxt is one atomic step, and the resume file belongs to a posterior with the same number of rows. The process pool is a map.

### C24 Combining nested sampling runs (proved)

Result_Model: combine_lnZ, combine_err, select, check_consistent_priors; reuses the log-mean-exp lemmas of Evidence_Proofs.

Theorems: `C24_log_mean`, `C24_error`, `C24_best_run_kept`, `C24_keep_fractions`, `C24_rows`, `C24_mcmc_rows`, `C24_error_positive_refuted`, `C24_priors_checked`, `C24_detects_refuted`, `C24_missing_key`

Note: Exact real arithmetic; uniform numbers are arbitrary lists in [0,1). pandas concatenation is list concatenation; shuffle is not modelled.

### C25 Sampler splits parameters into searched, fixed and constraint keys (proved)

Sampler_Model.initialise, call.

Theorems: `C25_partition`, `C25_other_fixed_refuted`, `C25_likelihood_sees`, `C25_short_vector`

Note: A prior is represented by the four facts _initialise_parameters inspects; 'bilby's prior classes' is the predicate sane. Real parameter values.

### C26 Temporary-directory hand-over never loses data (proved)

Files_Model.hand_over, setup_run.

Theorems: `C26_complete_somewhere`, `C26_permanent_files_kept`, `C26_finished`, `C26_restart_reads_partial_file_refuted`

Note: Directories as sets of files; links, subdirectory creation and MPI are not modelled.

### C27 Signal handlers are restored only on normal return (proved)

Files_Model.wrapped.

Theorems: `C27_restored_on_return`, `C27_sequence_of_runs`, `C27_restored_on_error_refuted`, `C27_no_alarm_not_restored`, `C27_foreign_handler_fails`

Note: Handlers are abstract; signal.signal's refusal of None and the Windows AttributeError are read from the Python documentation.

### C28 Random-walk proposals respect the likelihood threshold (proved)

Walk_Model.fixed_step, fixed_rwalk: a fold over a list of proposal functions.

Theorems: `C28_fixed_walk`, `C28_moves`, `C28_above_threshold_refuted`

Note: Proposals are arbitrary functions of the current point (one per step), so every random stream and live-point set is covered; exact real arithmetic, finite likelihoods.

### C29 Boundary handling keeps proposals in the unit cube (proved)

Reals with floor; per-coordinate function.

Theorems: `C29_apply_boundaries`, `C29_never_refused`, `C29_mcmc_periodic`, `C29_mcmc_reflective`

### C30 Markov chain storage behaves like a growing list (proved)

Chain_Model: samples are an abstract type, a row of zeros is a parameter; numpy negative wrap-around is modelled.

Theorems: `C30_chain_is_list`, `C30_maximum`, `C30_samples_drop_last`, `C30_negative_index_refuted`, `C30_block_zero_fails`, `C30_setitem_maximum_refuted`

Note: Refinement of the block-allocated array to a list, by induction over operation lists. Out-of-range negative indices and stale maximum are refuted separately.

### C31 Accepted temperature swaps are not used by the next step (proved)

Chain_Model: chains are lists (justified by C30), proposals are arbitrary functions of the stored chain, current sample and random numbers.

Theorems: `C31_swap_exchanges`, `C31_swap_rejected`, `C31_swap_keeps_current`, `C31_next_step_start`, `C31_swaps_have_no_effect`, `C31_swapped_state_used_refuted`

Note: Swap leaves (beta, current_sample) of every chain fixed; noninterference by induction over runs, for proposals that do not read the stored chain. The branch of _get_sample_to_swap for converged chains that stopped, and ensemble_step, are not modelled.

### C32 Metropolis-Hastings acceptance satisfies detailed balance (proved)

Mcmc_Model: non-finite log prior/likelihood are None; expectation over proposal and uniform draw.

Theorems: `C32_detailed_balance`, `C32_stationary`, `C32_stationary_steps`, `C32_never_leaves_support`, `C32_wrong_log_factor_refuted`

Note: Finite state spaces; the uniform draw is integrated (Coquelicot RInt). Proposal correctness of log_factor is a hypothesis, shown necessary by a refutation.

### C33 Parallel-tempering swap satisfies detailed balance (proved)

Mcmc_Model.swap_next; C33_matches_program ties it to Chain_Model.swap_pair.

Theorems: `C33_swap_detailed_balance`, `C33_round_stationary`, `C33_matches_program`

Note: Finite state spaces, finite log likelihoods; whole round over any ladder by induction. C31 shows the program does not carry the exchanged samples into the next step.

### C34 Mass parameter conversions are mutually inverse (proved)

Real arithmetic with Rpower.

Theorems: `C34_component_masses_to_chirp_mass`, `C34_component_masses_to_symmetric_mass_ratio`, `C34_component_masses_to_mass_ratio`, `C34_chirp_mass_and_mass_ratio`, `C34_chirp_mass_and_mass_ratio_inverse`, `C34_total_mass_and_mass_ratio`, `C34_total_mass_and_mass_ratio_inverse`, `C34_symmetric_mass_ratio_to_mass_ratio`, `C34_symmetric_mass_ratio_domain`, `C34_chirp_mass_and_total_mass`, `C34_chirp_mass_unique`

### C35 Mass ratio from one mass and the chirp mass (proved)

Cardano formula over reals with sqrt and Rpower cube roots; square root modelled partially (error on negative argument).

Theorems: `C35_mass_1_and_chirp_mass`, `C35_chirp_mass_and_primary_mass`, `C35_mass_2_and_chirp_mass`, `C35_cubic_root`, `C35_mass_2_and_chirp_mass_refuted`

### C36 Tidal parameter conversions are mutually inverse (proved)

Field identities.

Theorems: `C36_tides_roundtrip`, `C36_tides_roundtrip_back`, `C36_tides_inverse_defined_iff`, `C36_common_eos`, `C36_symmetric_antisymmetric`, `C36_symmetric_antisymmetric_back`

### C37 Generating component masses (proved)

GwGen_Model.generate_component_masses over association-list dictionaries with a KeyError monad; every branch of the code is a branch of the model.

Theorems: `C37_outcome`, `C37_consistent`, `C37_refuted`

Note: Exact real arithmetic, one sample; nan and infinities are one undefined value. Arrays act element by element.

### C38 Conditional joint probability (proved)

State machine of CondDict_Model; the joint density is specified by an inductive relation.

Theorems: `C38_joint`, `C38_history_free`, `C38_history_refuted`

### C39 Conditional sampling uses one consistent draw (proved)

State machine of CondDict_Model; random numbers are an arbitrary function of the key.

Theorems: `C39_sample`, `C39_delta_array_refuted`

### C40 Credible intervals around the median (proved)

Sorting and linear interpolation of order statistics over the reals.

Theorems: `C40_quantile_monotone`, `C40_median_is_quantile`, `C40_interval_contains_median`, `C40_interval_nested`, `C40_mean_outside_refuted`

### C41 The stretch move draws the stretch factor and reports the log factor that make it reversible (proved)

Propose_Model; Coquelicot integral for the law of z.

Theorems: `C41_z_range`, `C41_z_density`, `C41_density_symmetric`, `C41_reverse`, `C41_log_factor`

Note: One ray at a time: the n-dimensional volume element enters as r^(ndim-1).

### C42 Phase and polarisation proposals are reversible symmetries (proved)

Propose_Model; rmod is numpy's mod.

Theorems: `C42_range`, `C42_phase_undone`, `C42_polarisation_undone`, `C42_both_undone`, `C42_quadrupole_invariant`, `C42_jump`, `C42_delta_phase`

Note: Angles are reals; sign(cos theta_jn) is an arbitrary factor. Applying prior boundaries afterwards is not part of these theorems.

### C43 The adaptive Gaussian scale stays positive and freezes (proved)

Propose_Model; state machine over accept/reject histories.

Theorems: `C43_scale_bounded_below`, `C43_direction`, `C43_frozen`

Note: Exponent 0.2 as 2/10 over the reals.

### C44 UniformProposal never proposes a new point (proved)

Propose_Model; object identity modelled by tagging Python and numpy booleans.

Theorems: `C44_uniform_never_moves`, `C44_documented_draw_refuted`

Note: Rests on numpy's isinf returning a numpy boolean, so `is False` fails; boundary folding is not applied.

### C45 The proposal cycle visits its entries round robin (proved)

Propose_Model; induction on the number of draws.

Theorems: `C45_round_robin`, `C45_full_turn`

Note: The random construction of the entry list is not modelled; the cycle runs over any given list.

### C46 Evidence estimates are bounded, telescoping and averaged correctly, but miss the range below the hottest chain (proved)

Evidence_Model; Jensen proved from 1+x <= exp x.

Theorems: `C46_stepping_stone_jensen`, `C46_stepping_stone_bounds`, `C46_thermodynamic_bounds`, `C46_constant_likelihood`, `C46_exact_for_constant_refuted`, `C46_stepping_stone_consistent`, `C46_combined_between`, `C46_combined_is_mean`, `C46_combined_err_no_gain`

Note: Finite log likelihoods, exact reals. Bootstrap errors and plots are not modelled. Consistency of stepping stone takes the exact expectation ratios as hypothesis.

### C47 Temperature adaptation keeps all rungs except the hottest ordered (proved)

Evidence_Model; induction along the ladder.

Theorems: `C47_adapted_ladder`, `C47_equal_ratios_fixed`, `C47_gap_direction`, `C47_order_with_hottest_refuted`, `C47_initial_ladder`

Note: Acceptance ratios are arbitrary reals (the code passes the within-chain ratio); overtaking the hottest rung is refuted by a witness with default t0 and nu.

### C48 Cached arrays follow duration and sampling frequency, but not each other (proved)

Series_Model.cstep: state machine with the two cache flags. A duration or sampling frequency of 0 counts as unset; negative values are not excluded.

Theorems: `C48_scalar_assignments_refresh`, `C48_new_object`, `C48_assigned_frequency_array`, `C48_stale_time_array_refuted`, `C48_stale_frequency_array_refuted`, `C48_refused_array_kept_refuted`

Note: Arrays are abstract values in the positive theorems; the refutations use the real array functions.

### C49 Saving a result replaces its callable sampler arguments (proved)

Files_Model.replace_callables.

Theorems: `C49_saved_kwargs`, `C49_result_unchanged_refuted`

Note: str() is an arbitrary function of the dictionary.

### C50 A termination signal checkpoints once, or is ignored when a parallel run has no open pool (proved)

Files_Model.on_signal.

Theorems: `C50_checkpoints`, `C50_ignored_without_pool`

Note: Checkpoint and exit are counters; sys.exit may be caught, which is how later signals can arrive.

### C51 Reweighting by rejection sampling (proved)

Result_Model: rejection_sample, reweight.

Theorems: `C51_keep_iff`, `C51_largest_kept`, `C51_scale_invariant`, `C51_evidence`, `C51_identity`, `C51_constant_factor`, `C51_two_steps`

Note: Exact real arithmetic, no overflow; the nested-sample variant and conversion functions are not modelled.

### C52 Reweighting changes the result that was passed in (proved)

Result_Model.reweight over a heap of frames.

Theorems: `C52_original_overwritten`, `C52_second_call`, `C52_explicit_old`, `C52_repeat_refuted`

Note: Aliasing is modelled by a heap of data frames; meta_data and priors, which are aliased in the same way, are not.

### C55 Cached points of the autocorrelation walk are served in order, once, at or above the threshold (proved)

Walk_Model.act_walk, build_cache, serve.

Theorems: `C55_build`, `C55_no_accept_raises`, `C55_serve`, `C55_history`, `C55_strictly_above_refuted`

Note: As C28. The autocorrelation time is an arbitrary natural number; the queue of a pool is one list per construction.

### C56 The acceptance-tracking walk returns a consistent point, and stops unless proposals keep leaving the cube (proved)

Walk_Model.track_step, track, track_answer; executions are step counts without bound.

Theorems: `C56_answer`, `C56_terminates`, `C56_endless`, `C56_short_limit`

Note: As C28. The random replacement is an arbitrary point of the cube.

### C57 Adaptation of the walk length (proved)

Walk_Model.estimate_nmcmc, update_walks.

Theorems: `C57_estimate_range`, `C57_estimate_converges`, `C57_estimate_stuck`, `C57_walks`

Note: Exact real arithmetic; np.ceil is the least integer at or above.

### C53 Keyword arguments handed to a sampler (proved)

Sampler_Model.set_kwargs over association-list dictionaries; translation is a fold.

Theorems: `C53_known_names`, `C53_plain`, `C53_alias`, `C53_own_seed`, `C53_npool`

Note: Values are arbitrary. Sampler-specific extra steps (dynesty's rstate, walks default) are not modelled.

### C54 Initial points from the prior (proved)

Sampler_Model.initial_points: loop with fuel over a stream; theorems quantify over all fuel.

Theorems: `C54_points`, `C54_returns_iff`, `C54_constraints`, `C54_sentinel`

Note: Likelihood and prior are functions of the vector (a stateful likelihood is not modelled); draws are an arbitrary stream.

### C58 Reordered likelihoods match their samples (proved)

Sampler_Model.reorder_loglikelihoods.

Theorems: `C58_matches`, `C58_missing_raises`, `C58_duplicates_refuted`

Note: Real entries compared exactly, as numpy does for finite doubles.

### C59 Completing the mass parameters (proved)

GwGen_Model.generate_mass_parameters.

Theorems: `C59_complete`, `C59_error`

Note: As C37.

### C60 Conversion to waveform parameters keeps what was given (proved)

GwGen_Model.convert_to_lal_bbh, one definition per block of the function.

Theorems: `C60_kept`, `C60_source`, `C60_comoving_refuted`, `C60_spin_in_plane`, `C60_spin_aligned`, `C60_spin_magnitude`, `C60_angle`, `C60_phase`, `C60_column`, `C60_column_refuted`

Note: As C37; the cosmology is an arbitrary function. Value claims assume that no key other than the four masses ends in _source. When chi and its in-plane part are both zero the model stores nan; with python floats the code raises ZeroDivisionError there (239-242).

### C61 Source-frame parameters invert the redshifting (proved)

GwGen_Model.generate_source_frame_parameters.

Theorems: `C61_error`, `C61_values`, `C61_roundtrip`

Note: As C60.

### C62 Effective spins (proved)

GwGen_Model.generate_spin_parameters.

Theorems: `C62_chi_eff`, `C62_chi_p`, `C62_aligned`, `C62_precessing`, `C62_error`, `C62_azimuth`

Note: lalsimulation is an arbitrary function. Signed zeros are not distinguished; fmod is modelled by mod where both agree.

### C63 The grid holds the likelihood at its own points (proved)

Grid_Model.evaluate_recursion: nested folds over the points with the dictionary of parameters as state.

Theorems: `C63_evaluate`, `C63_repeated_points`, `C63_fixed_parameter`, `C63_sample_points`

Note: The likelihood depends on the parameter values only, not on the order of the dictionary, and does not change them.

### C64 logtrapzexp is the trapezoid rule in logarithms (proved)

Grid_Model.logtrapzexp, logsumexp.

Theorems: `C64_value`, `C64_constant`, `C64_scalar_step`, `C64_errors`, `C64_decreasing_nan`

Note: Exact real arithmetic, no overflow.

### C65 Decoding loaded metadata (proved)

Json_Model.rdecode over the same hook.

Theorems: `C65_same_as_hook`, `C65_idempotent`, `C65_lists_refuted`

Note: Recursion is bounded by a fuel argument; the theorems hold for all sufficiently large fuel. Repeated keys in a JSON object are excluded.

### C66 Rescaling the unit cube works coordinate by coordinate (proved)

PriorDict_Model.PriorDict_rescale: zip of keys and coordinates.

Theorems: `C66_coordinatewise`, `C66_raises`, `C66_local`, `C66_short_refuted`

Note: Priors with scalar values; joint priors return lists and are treated separately.

### C67 HDF5 result files keep every value at its place (proved)

Hdf5_Model.save_item, put, load; paths are lists of components.

Theorems: `C67_plain_key`, `C67_round_trip`, `C67_refused`, `C67_sorted`, `C67_unchanged`, `C67_losses_refuted`, `C67_slash_refuted`

Note: h5py is modelled as a tree of groups and datasets with members listed by name; numbers abstract; arrays one-dimensional; bytes objects inside lists and text columns of data frames are not modelled.

### C68 Gaussian likelihood (proved)

Lik_Model.gaussian; the integral uses GaussInt.v (Leibniz rule proof of the Gaussian integral).

Theorems: `C68_normalised`, `C68_product_of_densities`, `C68_sampled_sigma_wins`, `C68_least_squares`, `C68_best_sigma`, `C68_independent_data`, `C68_order_and_signs`, `C68_zero_sigma_is_nan`, `C68_setter`

Note: Exact real arithmetic. Residuals are given by data and model values; how the model function gets its arguments is not modelled.

### C69 Poisson likelihood (proved)

Lik_Model.poisson.

Theorems: `C69_product_of_pmf`, `C69_normalised`, `C69_best_rate`, `C69_bad_rates`, `C69_zero_rate_refuted`

Note: As C68; gammaln(y+1) is the logarithm of the factorial. Rate and data arrays have equal length.

### C70 Exponential likelihood (proved)

Lik_Model.exponential.

Theorems: `C70_product_of_densities`, `C70_normalised`, `C70_best_mean`, `C70_bad_means`

Note: As C68.

### C71 Student's t likelihood (proved)

Lik_Model.student.

Theorems: `C71_scale_equivariant`, `C71_decreasing_in_residuals`, `C71_even`, `C71_raises_iff`, `C71_cauchy`

Note: As C68; gammaln is an arbitrary function, for the Cauchy case with its true values at 1 and 1/2.

### C72 Multinomial likelihood (proved)

Lik_Model.multinomial; the specification sums over an explicit duplicate-free list of all count vectors.

Theorems: `C72_pmf`, `C72_normalised`, `C72_best_probabilities`, `C72_noise_is_uniform`, `C72_wrong_length_raises`, `C72_outside_simplex`, `C72_outside_simplex_refuted`

Note: As C69. Broadcasting of length-one data is not modelled.

### C73 Joint likelihood shares its parameters (proved)

Lik_Model.joint_init, set_likelihoods, params_update, params_rebind over a heap of dictionaries.

Theorems: `C73_originals_untouched`, `C73_parameters`, `C73_sum_after_updates`, `C73_excluded_point`, `C73_rebinding_refuted`, `C73_setter_refuted`

Note: Dictionaries live in a heap; a likelihood is a reference and functions of the dictionary's content. Other attributes of a part are constant.

### C74 Gaussian family of priors (proved)

GaussPrior_Model, against the specifications density_cdf and inverse_transform of PriorSpec.v.

Theorems: `C74_Gaussian_samples`, `C74_Truncated_samples`, `C74_Half_samples`, `C74_LogNormal_samples`, `C74_Gaussian_cdf`, `C74_Truncated_cdf`, `C74_Half_cdf`, `C74_LogNormal_cdf`, `C74_erf_bijective`, `C74_ln_prob`, `C74_relations`, `C74_negative_sigma_refuted`

Note: erf is the integral of exp(-t^2); erfinv is any function inverting it (there is exactly one, C74_erf_bijective). Scalar arguments; bounds of TruncatedGaussian: finite minimum, finite or infinite maximum.

### C75 Hyperparameter likelihood (proved)

Hyper_Model.init, ratio, weights, log_likelihood_ratio.

Theorems: `C75_downsampling`, `C75_product_of_averages`, `C75_sampling_prior_is_neutral`, `C75_no_support`, `C75_zero_over_zero`, `C75_function_prior_reused`, `C75_evidences`, `C75_any_sequence_of_updates`, `C75_function_prior_refuted`

Note: Exact real arithmetic with inf and nan; DataFrame.sample is any choice of rows without replacement; the population density is evaluated row by row, its values given as arrays; non-negative densities. Rows are abstract; missing columns are not modelled.

### C76 Caching of population models (proved)

Hyper_Model.prob over an explicit cache; the specification `expected` has none.

Theorems: `C76_cache_is_transparent`, `C76_uncached_is_exact`, `C76_raises`, `C76_cache_ignores_data`, `C76_new_data_refuted`

Note: Parameter equality is any test that implies identity; probabilities are an arbitrary type with multiplication. The cache has one entry per position of the function list. Inference of argument names is not modelled.

### C77 Numerical derivatives (proved)

Fisher_Model.derivatives; fvals[i] and bvals[i] are tracked through the additions and subtractions of the steps.

Theorems: `C77_raises`, `C77_terminates`, `C77_agreement`, `C77_derivative_nearby`, `C77_exact_on_quadratics`, `C77_flat_derivative_refuted`

Note: Exact real arithmetic, float arrays as input (an integer array would truncate the steps); fuel counts loop iterations.

### C78 Fisher matrix (proved)

Fisher_Model.FIM in a state monad over likelihood.parameters.

Theorems: `C78_symmetric`, `C78_second_derivative_nearby`, `C78_exact_on_quadratics`, `C78_parameters_left_displaced`, `C78_positive_definite`, `C78_last_optimisation`, `C78_best_optimisation_refuted`, `C78_mean_order`, `C78_mean_order_refuted`

Note: Exact real arithmetic; scipy.linalg.inv, the eigenvalues, minimize and the normal draws are given. The smallest eigenvalue enters by the inequality it satisfies for symmetric matrices.

### C79 Noise-weighted inner product and signal-to-noise ratios (proved)

GwInner_Model.nwip, matched_filter_snr, with np.inf as a value of the PSD and the principal complex square root.

Theorems: `C79_raises`, `C79_hermitian`, `C79_linear`, `C79_outside_band`, `C79_norm`, `C79_cauchy_schwarz`, `C79_snr_at_most_data_norm`, `C79_snr_of_pure_signal`, `C79_snr_scale_invariant`, `C79_snr_nan`, `C79_example`

Note: Exact complex arithmetic (pairs of reals); numpy's stretching of length-1 arrays is not modelled; a PSD value of zero is excluded where positivity is needed.

### C80 Overlap of two signals (proved)

GwInner_Model.overlap.

Theorems: `C80_inner_product`, `C80_normalised`, `C80_self`, `C80_bins`, `C80_cut_offs_refuted`, `C80_psd_from_freq_series`

Note: As C79; cut-offs are non-negative (python's negative slice bounds are not modelled).

### C81 Frequency mask and frequency-domain strain (proved)

Strain_Model.get_mask, get_max, get_fd over the array cache of Series_Model.

Theorems: `C81_mask`, `C81_maximum_frequency`, `C81_frequency_domain_strain`, `C81_from_time_domain`, `C81_second_data_set_refuted`, `C81_append_refuted`, `C81_sticky_maximum_refuted`

Note: Exact arithmetic; the Tukey window is any function returning as many values as asked; the number of samples is even and sampling frequency and duration have at most 14 decimals (as C18). False for a second data set: C81_second_data_set_refuted.

### C82 Time-domain strain (proved)

Strain_Model.get_td and the set_from_... functions.

Theorems: `C82_time_domain`, `C82_assigned`, `C82_round_trip`, `C82_time_data_replace_all`, `C82_stale_time_data_refuted`, `C82_window_factor`

Note: As C81; C82_round_trip needs the window with alpha=0 to be all ones.

### C83 Notches and the data of a PSD (proved)

Strain_Model.mk_notches, notch_arg, psd_data.

Theorems: `C83_accepted`, `C83_check_frequency`, `C83_notch_list_refused_refuted`, `C83_documented_order_refuted`, `C83_psd_segment_refuted`

Note: Infinite notch edges are not modelled.

### C84 Injection into strain data (proved)

Strain_Model.inject.

Theorems: `C84_injection`

Note: As C81; the signal is an arbitrary array (get_detector_response is not modelled).

### C85 Detector geometry (proved)

Det_Model.geo with its four flags, vertex_position, triangle.

Theorems: `C85_cache`, `C85_degrees`, `C85_vertex_on_ellipsoid`, `C85_elevation_along_normal`, `C85_triangle_orientation`, `C85_triangle_refuted`

Note: calculate_arm and detector_tensor are compiled code and stay arbitrary functions; exact arithmetic.

### C86 Power spectral density object (proved)

Det_Model.psd with its interpolation and cache, noise_bin.

Theorems: `C86_queries`, `C86_asd_squared_is_psd`, `C86_wrong_length`, `C86_at_nodes`, `C86_constructor`, `C86_frequency_array_refuted`, `C86_noise`, `C86_noise_after_reassignment_refuted`

Note: Frequencies increase (scipy sorts others); densities are non-negative where roots are taken; in-place changes of the queried array are not modelled.

### C87 Lists of interferometers (proved)

Det_Model.check, lstep, build, meta.

Theorems: `C87_raises_iff`, `C87_constructor`, `C87_failed_append_refuted`, `C87_tolerance`, `C87_start_times_refuted`, `C87_unset_type_error`, `C87_insert`, `C87_meta_data`

Note: A detector is reduced to its three attributes; += and item assignment, which skip the check, are not modelled.

### C88 Gaussian gravitational-wave likelihood (proved)

GwLik_Model.inner, ll_ratio, calc_noise, lstep, basic_ll.

Theorems: `C88_gaussian`, `C88_maximum`, `C88_detectors_add`, `C88_basic_agrees`, `C88_noise_cached`, `C88_example`

Note: Exact arithmetic; arrays as functions of the bin index, linked to C79 by inner_nwip; an infinite density drops the bin.

### C89 Time marginalisation (proved)

GwLik_Model.d_inner_h_tc, time_marg, tc_label.

Theorems: `C89_value`, `C89_arrival`, `C89_label_refuted`, `C89_example`

Note: Antenna response and delay are those of the segment start, as in the code; step 2/sampling_frequency written as T/(n-1); positive or infinite densities in all bins.

### C90 Reconstruction of the arrival time (proved)

GwLik_Model.rec_fft, rec_time, rec_weight.

Theorems: `C90_missing_factor`, `C90_weights`, `C90_four_seconds`, `C90_refuted`, `C90_labels`, `C90_example`

Note: Neither phase nor distance marginalised; the final interpolated draw is C16's Interped and not repeated.

### C91 Phase marginalisation (proved)

GwLik_Model.ln_i0, base_ll, phase_weight.

Theorems: `C91_mean_over_phase`, `C91_phase_free`, `C91_range`, `C91_reconstruction`, `C91_sign_refuted`, `C91_example`

Note: scipy's i0e is taken at its mathematical value, the integral.

### C92 Distance marginalisation (proved)

GwLik_Model.dist_entry, bounded, dist_weight.

Theorems: `C92_mean_over_distance`, `C92_reconstruction`, `C92_weak_template_refuted`, `C92_example`

Note: The spline is an arbitrary function, exact at the point by hypothesis; distances positive (a prior reaching zero makes the table nan).

### C93 Choice of the distance table (proved)

GwLik_Model.test_table, setup_table.

Theorems: `C93_file`, `C93_own_file`, `C93_dictionary_refuted`, `C93_small_densities_refuted`, `C93_example`

Note: Arrays of different lengths raise; length-one broadcasting and unreadable files are left out.

### C94 Calibration marginalisation (proved)

GwLik_Model.cal_marg, recalibrate, cal_post.

Theorems: `C94_mean_over_curves`, `C94_time_distance_refuted`, `C94_index_left_refuted`, `C94_reconstruction`, `C94_example`

Note: One time in range with several curves (broadcasting the other way) is left out.

### C95 Calibration spline (proved)

Calib_Model.solves, previous, spline, factor; the proofs of Calib_Proofs.

Theorems: `C95_coefficients`, `C95_nodes`, `C95_smooth`, `C95_cubic`, `C95_ends`, `C95_node_factors`, `C95_factor`, `C95_example`

Note: Exact arithmetic; np.linalg.solve returns the solution, which is shown to exist and be unique.

### C96 Parameters kept by the calibration spline (proved)

Calib_Model.cspline, set_params, get_factor, crun.

Theorems: `C96_complete_call`, `C96_history`, `C96_forgotten_refuted`, `C96_constructor`, `C96_example`

Note: Keys containing the prefix have it in front; every call passes frequencies > 0.

### C97 Precomputed calibration curves (proved)

Calib_Model.precomputed.

Theorems: `C97_curve`, `C97_example`

Note: Grids compare as real lists; index values are integers (others are truncated).

### C98 Calibration lookup tables (proved)

Calib_Model.write_file, read_file, build_one, build_loop, build.

Theorems: `C98_file_round_trip`, `C98_outside`, `C98_parameters_refuted`, `C98_arguments`, `C98_models_removed`, `C98_precomputed`, `C98_generated`, `C98_range_refuted`, `C98_example`

Note: scipy's cubic interpolation is exact at its nodes and np.angle an argument, by hypothesis; the h5 container keeps arrays; prior sampling is an arbitrary function.

### C99 Cache of the waveform generator (proved)

WfGen_Model.cached, strain, step over Series_Model's arrays.

Theorems: `C99_transparent`, `C99_start`, `C99_grid_refuted`, `C99_edited_refuted`, `C99_same_model_refuted`, `C99_array_refuted`, `C99_example`

Note: Source models, conversion and Fourier transforms are arbitrary functions, failing or not; parameter values have a decidable equality (arrays as parameters, whose == raises, are left out).

### C100 Parameters of the waveform generator (proved)

WfGen_Model.set_parameters, new_wg.

Theorems: `C100_received`, `C100_missing`, `C100_refused`, `C100_arguments_refuted`, `C100_errors`, `C100_example`

Note: See C99; reassigning the source models (source_parameter_keys stay) is not modelled.

### C101 Chirp mass and mass ratio uniform in component masses (proved)

GwPrior_Model.UICChirpMass_prob, MR_prob; GwMass_Model's conversion.

Theorems: `C101_jacobian`, `C101_uniform_in_components`

Note: The hypergeometric function enters through its derivative identity, a hypothesis proved for the series on (0,1) (C102).

### C102 Mass-ratio prior of component-uniform masses (proved)

GwPrior_Model.MR_integral, MR_cdf, MR_prob, MR_rescale; Hyp2f1.

Theorems: `C102_cdf_is_the_integral`, `C102_cdf_increasing`, `C102_cdf_not_clipped_refuted`, `C102_rescale_law`, `C102_equal_mass_not_inverse_refuted`, `C102_hypergeometric_series`, `C102_series_instance`

Note: The identity is proved for the Gauss series below mass ratio 1 (C102_hypergeometric_series); scipy's value at larger ratios and the cubic interpolant of rescale are hypotheses.

### C103 Aligned and in-plane spins (proved)

GwPrior_Model.AlignedSpin_integrand, ChiMag_prob, InPlane_prob.

Theorems: `C103_aligned_spin_density`, `C103_magnitude_given_aligned`, `C103_magnitude_marginal_uniform`, `C103_in_plane_given_aligned`

Note: The numerical integral on a grid of AlignedSpin is taken exact, from any positive lower end below |chi|.

### C104 In-plane spin prior and aligned range (proved)

GwPrior_Model.InPlane_cdf, InPlane_rescale, AlignedSpin_range.

Theorems: `C104_in_plane_normalised`, `C104_in_plane_rescale`, `C104_in_plane_rescale_inverse`, `C104_in_plane_cdf_above_refuted`, `C104_aligned_range`, `C104_aligned_range_refuted`

Note: Exact arithmetic.

### C105 Mass limits of binary prior dictionaries (proved)

GwPrior_Model.minimum_chirp_mass, maximum_chirp_mass, minimum_component_mass.

Theorems: `C105_chirp_mass_limits`, `C105_minimum_component_mass`, `C105_limits_attained`

Note: A prior's range is its [minimum, maximum]; masses positive.

### C106 Redundancy test of prior dictionaries (proved)

GwPrior_Model.bbh_test_redundancy, bns_test_redundancy.

Theorems: `C106_guarded_growth_bbh`, `C106_guarded_growth_bns`, `C106_existing_and_unknown`, `C106_fixed_not_counted_refuted`, `C106_ratios_refuted`

Note: Entries are sampled, fixed or constraints; the key names of the source.

### C107 Conversion to flat in component masses (proved)

GwPrior_Model.convert_to_flat, flat_weight.

Theorems: `C107_weight`, `C107_already_flat`, `C107_input_changed_refuted`, `C107_second_call_refuted`

Note: Resampling by the weights is not repeated (C42).

### C108 Limits of cosmological priors (proved)

Cosmo_Model.set_limit, set_minimum, set_maximum, construct, get_corresponding_prior.

Theorems: `C108_limits`, `C108_corresponding_prior`

Note: Distances zero at redshift zero and increasing, z_at_value their exact inverse, by hypothesis; the table is represented by the redshift interval it spans.

### C109 Units of cosmological priors (proved)

Cosmo_Model.construct.

Theorems: `C109_unit_changes_limits_refuted`, `C109_range_reversed_refuted`, `C109_corresponding_unit_refuted`

Note: Same representation as C108.

### C110 Default cosmology (proved)

Cosmo_Model.get_cosmology, set_cosmology.

Theorems: `C110_set_cosmology_ignored_refuted`, `C110_explicit`, `C110_dictionary_refuted`, `C110_stored`

Note: Cosmology objects are abstract.

### C111 Log prior with joint distributions (proved)

Joint_Model.put, filled, offer, joint_ln_prob, dict_ln_prob.

Theorems: `C111_dictionary`, `C111_incomplete_refuted`, `C111_error_refuted`, `C111_shapes`

Note: Values are numbers or arrays of a length; the distributions' densities are arbitrary functions. Sums are in exact arithmetic, or symbolic for arrays.

### C112 Rescaling with joint distributions (proved)

Joint_Model.rescale_results, dict_rescale.

Theorems: `C112_contiguous`, `C112_order_refuted`, `C112_between_refuted`

Note: One joint distribution; its rescaling is an arbitrary function.

### C113 Drawing joint parameters (proved)

Joint_Model.joint_sample, sample_calls.

Theorems: `C113_round`, `C113_unfinished_refuted`

Note: The distribution's draws are an arbitrary function of draw number, size and name.

### C114 Bounds of joint distributions (proved)

Joint_Model.outbounds.

Theorems: `C114_one_sample`, `C114_several`, `C114_missed_refuted`

Note: Exact comparisons; the reshape of _check_samp is left out.

### C115 Parameters of a Gaussian mode (proved)

Joint_Model.add_mode.

Theorems: `C115_covariance_given`, `C115_correlation_given`, `C115_roundtrip`, `C115_sigmas_alone_refuted`

Note: Matrices as functions of indices; the symmetry and definiteness checks that raise are left out.

### C116 Covariance of rescaled Gaussian numbers (proved)

Joint_Model.mvg_rescale; left inverses are right inverses (Joint_Proofs.left_right).

Theorems: `C116_covariance`, `C116_repeated_refuted`

Note: numpy's eig by its contract (unit eigenvectors, positive eigenvalues); erfinv's standard normal law is not repeated.

### C117 Weights of Gaussian modes (proved)

Joint_Model.pick_mode, cumweights, mvg_prob.

Theorems: `C117_mode_probability`, `C117_density`, `C117_weights_refuted`

Note: The mode densities are arbitrary functions; logaddexp as addition of densities.

### C118 Density of sky-map priors (proved)

HealPix_Model.check_norm, hp_ln_prob, row_ln_prob.

Theorems: `C118_normalised`, `C118_one_sample`, `C118_first_sample_refuted`, `C118_two_samples_refuted`, `C118_measure_refuted`

Note: healpy's ang2pix is an arbitrary function; the map is a table of non-negative numbers.

### C119 Pixels of rescaled sky-map samples (proved)

HealPix_Model.cumtrap, YY, inverse_cdf, pyround, rescale_pixel.

Theorems: `C119_pixel_probability`, `C119_map_probability_refuted`

Note: Positive maps; the ends of the interval (ties of Python's round) are left open, the tie rule is lemma pyround_tie.

### C120 Points and distances of sky-map samples (proved)

HealPix_Model.check_in_pixel, draw_from_pixel, distance_icdf, draw_distance, rescale_rows.

Theorems: `C120_terminates`, `C120_square`, `C120_outside_refuted`, `C120_rows`, `C120_single_row`, `C120_mixed_rows_refuted`, `C120_distance`, `C120_redraw_refuted`

Note: Recursion by depth; the random numbers are an arbitrary stream.

### C121 Constant-uncertainty calibration priors (proved)

CalPrior_Model.loop, constant_uncertainty_spline with Calib_Model.get_factor.

Theorems: `C121_constant`, `C121_used_by_spline`

Note: Gaussian and DeltaFunction as tags; the spline's linear solver is an arbitrary function (not used at nodes).

### C122 Calibration priors from an envelope (proved)

CalPrior_Model.from_envelope_file.

Theorems: `C122_at_file_frequency`, `C122_flat_file`

Note: scipy's spline is an arbitrary function that interpolates, or keeps constants, by hypothesis.

### C123 Relative-binning bins (proved)

Relbin_Model.d_alpha, d_phi, first_ge, collect_edges, bins.

Theorems: `C123_phase_grows`, `C123_bins`

Note: Exact reals; positions instead of indices into the frequency array.

### C124 Relative-binning inner products (proved)

Relbin_Model.a0, a1, b0, b1, r0, r1, d_inner_h, h_inner_h, summary.

Theorems: `C124_inner_products`, `C124_constant_ratio`, `C124_last_bin_refuted`, `C124_linear_ratio_refuted`, `C124_band_end_refuted`

Note: One detector, whose band starts at the first edge; exact reals.

### C125 Relative-binning full waveform (proved)

Relbin_Model.ratio_at, full_waveform.

Theorems: `C125_edges`, `C125_outside`, `C125_linear`

Note: One detector; the fiducial waveform is not zero at edges.

### C126 Search for fiducial parameters (proved)

Relbin_Model.maximise.

Theorems: `C126_iterations`, `C126_worse_refuted`

Note: The optimiser is an arbitrary sequence of likelihood values.

### C127 Multi-banding: frequency bands (proved)

Mband_Model.tau, dtaudf, fmax_default, above, bisect, find_start, more_bands.

Theorems: `C127_derivative`, `C127_default_maximum`, `C127_condition_monotone`, `C127_search`, `C127_bands`, `C127_reload`

Note: Exact reals; loops take a number of allowed steps, shown to suffice for the bisection.

### C128 Multi-banding: windows (proved)

Mband_Model.window.

Theorems: `C128_window`, `C128_partition`, `C128_overlap_refuted`

Note: Exact reals.

### C129 Multi-banding: optimal SNR by linear interpolation (proved)

Mband_Model.window_over_psd, sum_start, sum_end, coeffs, band_power.

Theorems: `C129_band`, `C129_affine_band`, `C129_exact`

Note: Exact reals; one detector; the linear coefficients (Fourier transforms) and the IFFT-FFT variant are not modelled.

### C130 Multi-banding: numbers of samples (proved)

Mband_Model.round_up2, Nb, Mb, Ke.

Theorems: `C130_integers`, `C130_monotone`

Note: Exact logarithm.

### C131 ROQ: interpolation in time (proved)

Roq_Model.closest, in_bounds, interp5, dinnerh, dinnerh_arr.

Theorems: `C131_in_bounds`, `C131_cubic`, `C131_quartic_refuted`, `C131_nodes`, `C131_continuous`, `C131_array_agrees`, `C131_wraps_refuted`

Note: Exact reals; real and imaginary parts are interpolated alike, one is modelled.

### C132 ROQ: the time samples cover the prior (proved)

Roq_Model.n_samples, resolution, start_idx, end_idx, tc_number, tc_delta, tc_time.

Theorems: `C132_resolution`, `C132_covered`, `C132_edge_refuted`, `C132_time_grid`

Note: Exact reals; the resolution asked for (Simpson's rule over the spectrum) is arbitrary.

### C133 ROQ: weights reproduce the inner products (proved)

Roq_Model.fill, ifft, weights_loop, d_inner_h, weights_quadratic, optimal_snr_squared.

Theorems: `C133_linear`, `C133_quadratic`

Note: numpy.fft.ifft by its defining sum; one detector; the multi-banded bases are not modelled.

### C134 ROQ: unique frequency nodes (proved)

Roq_Model.unique_nodes.

Theorems: `C134_unique`

Note: np.unique by insertion; exact reals.

### C135 ROQ: choice of the basis (proved)

Roq_Model.select_idxs, choose, verify, update, read.

Theorems: `C135_choose`, `C135_select_keeps`, `C135_select_exact`, `C135_gap_refuted`, `C135_no_gap`, `C135_cache`, `C135_cache_after_error_refuted`

Note: Exact reals; parameter_conversion is part of the parameters.

### C136 ROQ: saving and loading weights (proved)

Roq_Model.hdf5_save, hdf5_load, npz_save, npz_load, save_name, load_format.

Theorems: `C136_load`, `C136_round_trip`, `C136_selected_stable`, `C136_npz`, `C136_npz_loses_nodes_refuted`, `C136_name`, `C136_name_refuted`

Note: HDF5 groups as numbered data sets; one kind of basis at a time.

### C137 Neutron stars: when the tidal deformabilities are produced (proved)

GwBns_Model.tilde_step, chain_step, eos_step, symmetric_step, convert_to_lal_bns.

Theorems: `C137_determined`, `C137_lambda_2_alone_refuted`, `C137_symmetric_refuted`, `C137_scalar_love_refuted`, `C137_delta_alone`

Note: One sample; the code's dictionary may hold nan, modelled by None; cosmology arbitrary.

### C138 Neutron stars: values of the tidal deformabilities (proved)

GwBns_Model.mass_scaled, set2, generate_tidal_parameters.

Theorems: `C138_none`, `C138_both`, `C138_lambda_1_alone`, `C138_tilde_pair`, `C138_tilde_alone`, `C138_symmetric`, `C138_eos`, `C138_antisymmetric_alone_refuted`

Note: Exact reals; one sample.

### C139 Neutron stars: what the conversion keeps (proved)

GwBns_Model.convert_to_lal_bns.

Theorems: `C139_kept`

Note: One sample; values by look-up.

### C140 Equation of state: arrays of samples (proved)

GwBns_Model.eos_columns, expand_step, restore_step, zip_rows.

Theorems: `C140_loop`, `C140_floats`, `C140_broadcast_refuted`

Note: lalsimulation arbitrary; a nan among the inputs gives nan.

### C141 Equation of state: viability and value (proved)

GwBns_Model.family_check, spectral_lambdas, piecewise_lambdas, lambda_from_mass, log_pressures, pca_to_spectral.

Theorems: `C141_polytrope_check`, `C141_spectral_check`, `C141_lambda`, `C141_rows`, `C141_pca`, `C141_triangle`

Note: lalsimulation arbitrary; exact reals.

### C142 Neutron stars: generating all or some parameters (proved)

GwBns_Model.generate_all_bns, apply_defaults, fill_from_fixed, generate_specific.

Theorems: `C142_values`, `C142_reference_frequency_refuted`, `C142_tilde`, `C142_specific`

Note: Without likelihood; steps for masses, spins and source frame as modelled.

### C143 Binary Love relations (proved)

GwBns_Model.love_fit, love_mean, love_std, love_manual, love_automatic.

Theorems: `C143_value`, `C143_monotone`, `C143_equal_mass`, `C143_equal_mass_refuted`, `C143_negative_refuted`, `C143_automatic`

Note: Normal quantile arbitrary where not stated; exact reals.

### C144 A printed prior can be read (proved)

PriorText_Model.print, repr_str, split_repr, parse, read, from_repr.

Theorems: `C144_read_printed`, `C144_same_prior_iff`, `C144_print_injective`, `C144_apostrophe`, `C144_positional`, `C144_raw`, `C144_bracket`, `C144_label_refuted`, `C144_backslash_refuted`, `C144_comma_refuted`, `C144_depth_refuted`, `C144_no_arguments_refuted`

Note: ASCII strings; python's eval of a literal is a parameter; constructors keep their arguments.

### C145 Prior files round trip (proved)

PriorText_Model.write_file, decode, lines, read_line, read_file, from_file.

Theorems: `C145_file`, `C145_same_dictionary_iff`, `C145_decoded_refuted`, `C145_comment_refuted`, `C145_conversion_refuted`

Note: ASCII strings; numeric escapes are not modelled; universal newlines are not modelled.

### C146 Reading dictionaries with joint priors (proved)

PriorText_Model.load_step, from_dictionary, dist_key, joint_kwargs.

Theorems: `C146_dist_key`, `C146_dist_alone`, `C146_keys`, `C146_joint_after_distribution`, `C146_values`, `C146_order`, `C146_spaces_refuted`

Note: Values that are dictionaries are not modelled; reading a distribution is a parameter.

### C147 Ensemble samplers: samples and their log likelihoods (proved)

Ensemble_Model.emcee_samples, emcee_loglikes, kombine_samples, kombine_walkers, ptemcee_samples, pyslice.

Theorems: `C147_ptemcee_samples`, `C147_ptemcee_aligned`, `C147_kombine_aligned`, `C147_emcee_order`, `C147_emcee_aligned`, `C147_emcee_permutation`, `C147_emcee_aligned_refuted`, `C147_kombine_walkers`, `C147_kombine_walkers_refuted`

Note: Chains and blobs as stored by the external samplers; blobs of a step are the likelihoods of its positions.

### C148 ptemcee: stored chains survive growth, checkpoints and restarts (proved)

Ensemble_Model.record, step, run, fresh.

Theorems: `C148_refinement`, `C148_resume`, `C148_always_resumes_refuted`

Note: A row is everything stored for one check; the sampler object itself is external.

### C149 ptemcee: when a run stops and what it returns (proved)

Ensemble_Model.check_iteration, tau_of, mean_tau, window, discard_of, minimum_stable.

Theorems: `C149_stop`, `C149_discard`, `C149_samples`, `C149_ignore_keys_refuted`, `C149_no_autocorrelation`, `C149_window`, `C149_minimum_stable`, `C149_stays_stable_refuted`

Note: Autocorrelation times and gradients are arbitrary (external); exact reals; inf and nan by None.

### C150 ptemcee: the Gelman-Rubin statistic (proved)

Ensemble_Model.gr_W, gr_B, gr_Vhat, gr_Q.

Theorems: `C150_bound`, `C150_affine`, `C150_textbook`, `C150_short`

Note: One parameter; exact reals; the maximum over parameters is taken outside.

### C151 ptemcee: evidence and its error (proved)

Ensemble_Model.finite_pairs, every_other, ln_evidence, ln_evidence_err.

Theorems: `C151_infinite`, `C151_exact`, `C151_bounds`, `C151_error_odd`, `C151_error_even`, `C151_error_zero_if_exact_refuted`

Note: Exact reals; mean log likelihoods arbitrary.

### C152 ptemcee: periodic parameters, evaluation and starting points (proved)

Ensemble_Model.wrap_periodic, evaluate, minimize_loop.

Theorems: `C152_wrap`, `C152_periodic_proposals_refuted`, `C152_evaluate`, `C152_minimize`, `C152_minimize_gives_up_refuted`

Note: Prior, likelihood and minimiser arbitrary.

### C153 emcee: checkpoints, chain file and burn-in (proved)

Ensemble_Model.erestart, estep, erun, remaining, set_nburn, get_nburn, check_nburn.

Theorems: `C153_file_complete`, `C153_signals`, `C153_file_equals_chain_refuted`, `C153_total_steps`, `C153_burn_in`, `C153_not_burned_in_detected_refuted`

Note: A kill between a step and its line in the file is not modelled.

### C154 Every listed sampler can be looked up (proved)

Run_Model.strip, keys, items, valid, getitem, get_sampler_class.

Theorems: `C154_items`, `C154_valid`, `C154_distinct`, `C154_plugin`, `C154_case`, `C154_listed`, `C154_inner_prefix_refuted`, `C154_capital_refuted`

Note: Entry points are a dictionary; loading one (importing its module) is not modelled.

### C155 When run_sampler samples and when it reuses a result (proved)

Run_Model.check_cached, save, convert, fresh, finish, run, calls, relaunch.

Theorems: `C155_reused_iff`, `C155_reused`, `C155_sampled`, `C155_clean_sticky`, `C155_priors_ignored`, `C155_other_formats`, `C155_failure_recovered`, `C155_unknown_format`, `C155_same_priors_refuted`

Note: Stored results, meta data and their equality arbitrary; the sampler is an oracle. Plotting and exit codes not modelled.

### C156 Derived fields of the result of run_sampler (proved)

Run_Model.verify_use_ratio, evidences, time_seconds, seconds_attr, run, calls.

Theorems: `C156_evidence`, `C156_sampled`, `C156_injection`, `C156_injection_idempotent`, `C156_seconds`, `C156_seconds_days`, `C156_number_refuted`

Note: Times are whole seconds; evidences integers (the laws used are those of a group).

### C157 dynesty runs survive interruption (proved)

Dynesty_Model.run_nested, finalize, run_without, turn, start, process, process_run, history.

Theorems: `C157_any_interruption`, `C157_as_uninterrupted`, `C157_terminates`, `C157_no_regress`, `C157_maxcall_ignored`, `C157_maxcall_refuted`

Note: dynesty's own iteration, the effect of adding and removing live points, and the stopping rule are arbitrary functions; only its call counter is assumed to grow.

### C158 Sampling time of dynesty adds up (proved)

Dynesty_Model.update_time, write_time, read_time, time_process, time_history.

Theorems: `C158_total`, `C158_bounds`, `C158_early_resumed`, `C158_early_new`

Note: Clock readings are integers.

### C159 dynesty set-up is consistent (proved)

Dynesty_Model.boundaries, set_bound, set_sample, set_sampling_method, walk_proposals.

Theorems: `C159_boundaries`, `C159_disjoint`, `C159_live_available`, `C159_refused`, `C159_rwalk_dynesty`, `C159_rwalk_dynesty_refuted`, `C159_registry`

Note: dynesty's method registry is a list of overwritten names.

### C160 Posterior and effective number from dynesty's weights (proved)

Dynesty_Model.weights, keep_mask, masked, logneff, neffsamples.

Theorems: `C160_weights`, `C160_rejection`, `C160_nonempty`, `C160_neff`, `C160_neff_shift`, `C160_neff_equal`

Note: Draws are given; their distribution is not modelled.

### C161 Proposals of dynesty's random walks (proved)

Dynesty_Model.propose_diff, diff_scale, live_for_walk, ball_point, propose_volumetric, normalised.

Theorems: `C161_diff`, `C161_diff_reversible`, `C161_diff_linear`, `C161_scale`, `C161_live_rows`, `C161_duplicates_live`, `C161_current_point_removed_refuted`, `C161_ball`, `C161_volumetric`, `C161_normalised`

Note: Draws are given; folding at the boundaries is a separate property.

### C162 The categorical prior (proved)

PriorMisc_Model.cat_offset, cat_max, categories, cat_rescale, cat_prob, cat_ln_prob.

Theorems: `C162_prob`, `C162_normalised`, `C162_last_category_refuted`, `C162_ln_prob`, `C162_rescale`, `C162_drawn_supported`, `C162_top_refuted`

Note: Reals, except that the rounding of n - 1 + 1e-15 to double precision is modelled; the rounding of the product in rescale is not.

### C163 The cdf a prior inherits (proved)

PriorMisc_Model.cdf_table, generic_cdf.

Theorems: `C163_defined`, `C163_monotone`, `C163_broken_line`, `C163_convex`, `C163_linear`, `C163_top_refuted`, `C163_categorical_refuted`

Note: The density is a function of one real; scipy's interp1d and cumulative_trapezoid by their definitions.

### C164 Equality of priors (proved)

PriorMisc_Model.arg_eq, prior_eq.

Theorems: `C164_characterised`, `C164_equivalence`, `C164_reflexive`, `C164_array_refuted`, `C164_frozen_refuted`

Note: Arguments are numbers, texts, None, one-dimensional arrays, frozen distributions and priors; a text or None against an array is compared element by element, as numpy does.

### C165 Filling and copying prior dictionaries (proved)

PriorMisc_Model.convert_floats, fill_step, fill_from, pd_copy, evaluate_constraints.

Theorems: `C165_kept`, `C165_added`, `C165_complete`, `C165_idempotent`, `C165_order`, `C165_copy`, `C165_constraints`, `C165_order_refuted`, `C165_copy_refuted`

Note: Redundancy rule and default priors arbitrary; the set of missing keys is any duplicate-free order of it.

### C166 Injection credible levels (proved)

PriorMisc_Model.credible_level, credible_level_equal, all_levels.

Theorems: `C166_range`, `C166_ends`, `C166_monotone`, `C166_reflected`, `C166_scaled`, `C166_uniform`, `C166_all_keys`, `C166_integer_refuted`

Note: Sums exact.

### C167 Reconstructing marginalised parameters in blocks, with restarts (proved)

GwRecon_Model.pass, passes, column_of, whole, start_cache, killed, reconstruct, file_after.

Theorems: `C167_blocks`, `C167_restart`, `C167_progress`, `C167_completed`, `C167_other_block`, `C167_switch_back_refuted`, `C167_example`

Note: Drawing for a row is an arbitrary function of row and seed; a pool computes the same; the cache file is replaced atomically (C19).

### C168 Computed columns belong to their rows (proved)

GwRecon_Model.by_position, by_label, sky_column, snr_column, update, evaluate.

Theorems: `C168_snrs`, `C168_sky`, `C168_sky_range`, `C168_sky_only_range`, `C168_sky_refuted`, `C168_rows_alone`, `C168_rows_alone_refuted`, `C168_example`

Note: Labels are natural numbers; pandas alignment by its documented rule.

### C169 Marginalisation and the caller's priors (proved)

GwRecon_Model.copy_priors, check_set, time_step, phase_step, dist_step, construct.

Theorems: `C169_success`, `C169_fixed_raises`, `C169_distance`, `C169_twice`, `C169_reference`, `C169_no_priors`, `C169_failure_refuted`, `C169_example`

Note: Priors by kind; a PriorDict is passed; lookup tables and calibration marginalisation are separate properties.

### C170 Sky frame and reference time (proved)

GwRecon_Model.get_sky, store, evaluation, frame_of_text, text_of_frame.

Theorems: `C170_given`, `C170_detector_time`, `C170_detector_frame`, `C170_fallback_refuted`, `C170_again`, `C170_jitter`, `C170_rows`, `C170_stale_refuted`, `C170_jitter_refuted`, `C170_frame_text`, `C170_frame_text_refuted`, `C170_example`

Note: Conversion to the sky and delay are arbitrary functions; exact reals.

### C171 Boundaries of jump proposals (proved)

Jump_Model.reflect1, wrap1, keys_with, move, apply_boundaries.

Theorems: `C171_boundaries`, `C171_odd_place`, `C171_refuted`, `C171_idempotent`, `C171_missing`

Note: Priors by boundary, minimum and maximum; exact reals.

### C172 The proposal cycle (proved)

Jump_Model.instantiate, weights, update_cycle, new_cycle, set_length, call, session.

Theorems: `C172_order`, `C172_round`, `C172_assert`, `C172_instances`, `C172_weights`, `C172_length_refuted`, `C172_redraw`

Note: Proposals arbitrary; numpy's choice by given draws.

### C173 Ensemble jump proposals and their log_j (proved)

Jump_Model.ensemble_walk, ensemble_stretch, differential_evolution, ensemble_eigenvector, eigen_1d, norm_jump, draw_flat.

Theorems: `C173_walk`, `C173_walk_back`, `C173_walk_equal`, `C173_stretch`, `C173_stretch_back`, `C173_evolution`, `C173_eigen`, `C173_eigen_1d`, `C173_norm`, `C173_flat`

Note: Draws are given; no boundaries (see C171).

### C174 Jump proposals within cpnest (proved)

Jump_Model.from_live, update_live, get_sample.

Theorems: `C174_wrapper`, `C174_names`, `C174_error`

Note: Names and values of a live point as lists.

### C175 What adapters read back from the samplers (proved)

Adapters_Model.read_polychord, read_multinest, read_ptmcmc, nested_samples, ultranest_mask, ultranest_result, nessai_weights.

Theorems: `C175_polychord`, `C175_multinest`, `C175_ptmcmc`, `C175_single_refuted`, `C175_ultranest`, `C175_ultranest_mask`, `C175_nested`, `C175_nessai`

Note: The files are as the samplers document them; numpy.loadtxt by its shape rule.

### C176 DNest4's moves (proved)

Adapters_Model.width, center, wrap, perturb.

Theorems: `C176_move`, `C176_error`, `C176_box`, `C176_uniform`, `C176_balance_refuted`, `C176_balance_flat`

Note: Random numbers are given; exact reals.

### C177 Runs in temporary directories (proved)

Adapters_Model.setup, step, steps, finish, whole, killed, copytree.

Theorems: `C177_same`, `C177_delete_refuted`, `C177_delete`, `C177_time`, `C177_killed_viz`, `C177_killed_dump`, `C177_killed_time_refuted`, `C177_twice`

Note: Files by name and content; the sampler does not touch sampling_time.dat; copies are atomic.

### C178 Directories and options passed to MultiNest, Ultranest and DNest4 (proved)

Adapters_Model.run_directory, ultranest_translate, ultranest_wrapped, multinest_wrapped.

Theorems: `C178_default`, `C178_user_refuted`, `C178_resume`, `C178_resume_refuted`, `C178_verbose`, `C178_wrapped`

Note: Only the keywords named.

### C179 Result files: names, formats, fall-back (proved)

ResFile_Model.splitext, result_file_name, determine, reader_of, read_in, list_entry, save, fallback, from_pickle.

Theorems: `C179_round_trip`, `C179_unknown`, `C179_named`, `C179_reader`, `C179_others`, `C179_old`, `C179_old_kept`, `C179_fallback_old_refuted`, `C179_fallback`, `C179_hidden_refuted`, `C179_fallback_place`, `C179_fallback_place_refuted`, `C179_from_pickle_refuted`

Note: Contents of files are formats; pickles are written whole (C19); file names are texts.

### C180 The posterior table made from samples (proved)

Post_Model.data_frame, add_fixed, set_column, samples_to_posterior.

Theorems: `C180_rows`, `C180_no_priors`, `C180_refused`, `C180_refused_lengths`, `C180_overwritten`

Note: No conversion function; ln_prob works row by row; distinct search keys.

### C181 Weights for a new prior (proved)

Post_Model.shared, row_values, weight_loop, weights_by_new_prior.

Theorems: `C181_weight`, `C181_nothing_shared`, `C181_by_label`, `C181_missing_label`, `C181_same`, `C181_compose`

Note: Priors are functions of their own parameter; exact reals; constraints evaluate to zero or one.

### C182 The posterior samples file (proved)

Post_Model.split_complex, posterior_file.

Theorems: `C182_columns`, `C182_polar`, `C182_complex_left_refuted`, `C182_clash_refuted`

Note: The text of the file is not modelled, only its columns.

### C183 Volumes, Occam factor and dimensionality (proved)

Post_Model.cov, volume1, volume2, prior_volume, dimensionality.

Theorems: `C183_one`, `C183_two`, `C183_two_refuted`, `C183_prior_volume`, `C183_occam`, `C183_dimension`

Note: The determinant is modelled for one and two parameters.

### C184 The posterior density of new samples (proved)

Post_Model.kstep, kde_points, posterior_probability.

Theorems: `C184_one`, `C184_missing`, `C184_many_refuted`, `C184_cached`, `C184_stale_refuted`

Note: The estimate is an arbitrary function of table and point; scipy's rule for the shape of points.

### C185 Safe durations and injection into a time series (proved)

Ifo_Model.safe_duration, np_roll, project, inject_series, ifo_optimal_snr_squared, ifo_matched_filter_snr.

Theorems: `C185_power`, `C185_tight`, `C185_monotone`, `C185_raises`, `C185_rounded_up_refuted`, `C185_added`, `C185_energy`, `C185_wraps`, `C185_never_too_long`, `C185_meta_time`, `C185_matched_filter_refuted`

Note: lalsimulation's chirp time, the polarisations and antenna responses are given; gwpy's inject adds series on the same times; numpy's stretching of length-one arrays left out.

### C186 Whitening (proved)

Ifo_Model.psd_array, asd_array, whiten, whitened_time_series.

Theorems: `C186_bin`, `C186_energy`, `C186_time_energy`, `C186_strain`, `C186_unit_variance_refuted`

Note: Exact reals; the amplitude array is the root of the power array, as cached by PowerSpectralDensity.

### C187 Triangular interferometers (proved)

Ifo_Model.triangle, three.

Theorems: `C187_three`, `C187_steps`, `C187_closed`, `C187_arms_refuted`, `C187_east_refuted`, `C187_shared`

Note: Exact reals; the curvature of the Earth enters only as in the code.

### C188 Detector files (proved)

Ifo_Model.read_param, read_params, load_ifo, get_empty.

Theorems: `C188_skipped`, `C188_value`, `C188_shape`, `C188_never_shape`, `C188_not_implemented`, `C188_blank_refuted`

Note: eval and the two constructors are arbitrary functions; lower-casing of ASCII letters.

### C189 Loading from a cache file or channel name (proved)

Ifo_Model.load_cache, channel_det.

Theorems: `C189_loads`, `C189_boundary_refuted`, `C189_observatory`, `C189_one_frame`, `C189_channel`

Note: lal's CacheEntry is an arbitrary parser; reading the data and the spectral density succeed.

### C190 The check of the signal duration (proved)

Ifo_Model.check_duration, time_to_merger, time_within, fake_noise_start.

Theorems: `C190_decides`, `C190_fits`, `C190_rounding_refuted`, `C190_masses`, `C190_no_raise_refuted`, `C190_within`, `C190_default_start`

Note: The conversion and lalsimulation's time are arbitrary functions; np.round by halves to even on reals.

### C191 Binary waveforms on the frequency grid (proved)

Source_Model.base_waveform, fit, mask, shift, on_failure, make_system.

Theorems: `C191_models`, `C191_sequence_models`, `C191_spins`, `C191_optional`, `C191_grid`, `C191_modulus`, `C191_failure`, `C191_none`

Note: lalsimulation, the spin transformation and the LAL constants are arbitrary functions and numbers; arrays are lists.

### C192 Waveform arguments (proved)

Source_Model.set_waveform_dictionary, report_unused, format, base_waveform, base_sequence.

Theorems: `C192_dictionary`, `C192_stray`, `C192_used`, `C192_default`, `C192_stray_sequence`

Note: Which names lalsimulation has an insertion function for is an arbitrary predicate; LAL dictionaries are association lists.

### C193 Relative binning waveforms (proved)

Source_Model.bbh_relative, bns_relative, to_frequencies, base_sequence.

Theorems: `C193_fiducial_bbh`, `C193_fiducial_bns_refuted`, `C193_binned`, `C193_consistent`

Note: lalsimulation is arbitrary; its two interfaces agree only in C193_consistent, where this is a hypothesis.

### C194 Reduced order quadrature waveforms (proved)

Source_Model.unique, inverse, roq_nodes, base_roq.

Theorems: `C194_unique`, `C194_nodes`, `C194_precomputed`, `C194_caught_refuted`

Note: np.unique by insertion; lalsimulation is arbitrary.

### C195 The sine-Gaussian (proved)

Source_Model.sinegaussian; the Gaussian integral of GaussInt.

Theorems: `C195_energy`, `C195_reflect`, `C195_shape`, `C195_scale`, `C195_refused`, `C195_peak_refuted`

Note: Exact reals; one frequency at a time.

### C196 Supernova models (proved)

Source_Model.supernova, supernova_pca.

Theorems: `C196_scale`, `C196_length`, `C196_zero`, `C196_kpc_refuted`, `C196_unit`, `C196_linear`, `C196_component`

Note: The numbers of the file are given; the file reading is not modelled.

### C197 Tabulated equations of state (proved)

Eos_Model.tabular, look_up, enthalpies, check_monotonicity, check_causality, remove_leading_zero.

Theorems: `C197_unflagged`, `C197_built`, `C197_nodes`, `C197_low`, `C197_monotone_refuted`, `C197_leading`, `C197_warned`, `C197_causal`, `C197_causal_refuted`

Note: scipy's splines are arbitrary functions that pass through their nodes (two nodes: a line, for the sound speed); exact reals.

### C198 Spectral decomposition of an equation of state (proved)

Eos_Model.poly, adiabatic, mu, energy_density, determine_xmax, a_of_x.

Theorems: `C198_law`, `C198_unique`, `C198_increasing`, `C198_polytrope`, `C198_xmax`, `C198_range`, `C198_shortened_refuted`, `C198_warned`

Note: Exact integrals for scipy's quadrature; exact reals.

### C199 Joined tables and families of stars (proved)

Eos_Model.break_point, stitch, spectral_rows, stars, finish, pack, build, from_mass, lambda_from_mass.

Theorems: `C199_kept`, `C199_rising`, `C199_overlap_refuted`, `C199_table`, `C199_family`, `C199_lambda`, `C199_equal_refuted`, `C199_wrap_refuted`

Note: The integrator, the maximum of the parabola and the spline (through its nodes) are arbitrary; exact reals.

### C200 Stellar structure and the Love number (proved)

Eos_Model.tov_eqns, centre, start, calc_k2, k2_numerator, k2_denominator.

Theorems: `C200_tov`, `C200_outwards`, `C200_riccati`, `C200_start`, `C200_centre`, `C200_k2`, `C200_newtonian`

Note: The right-hand side, the start and the final formula; the ODE solver itself is not modelled.

### C201 Burn-in of an MCMC chain (proved)

Tau_Model.minimum_index, sources, z_index, set_proposal, set_adapt, step, run.

Theorems: `C201_rows`, `C201_infinite`, `C201_sources`, `C201_discard`, `C201_discard_refuted`, `C201_setters`, `C201_stale_refuted`, `C201_settled`

Note: emcee's estimate is an arbitrary function; reals for floats; the number of columns is that of the first point.

### C202 Autocorrelation time, thinning and number of samples of a chain (proved)

Tau_Model.calc_tau, tau, tau_nocache, thin, nsamples, samples, slice_rows.

Theorems: `C202_tau`, `C202_floor`, `C202_thin`, `C202_count`, `C202_rows`, `C202_count_refuted`, `C202_overflow_refuted`, `C202_lookup`

Note: emcee's estimate is an arbitrary function; hypotheses: fixed_discard >= 0 and positive autocorr_c, thin_by_nact and min_tau.

### C203 Temperature ladder and set of samplers (proved)

PtSamp_Model.get_initial_betas, setup, set_sampler_list, step_pool, tempered_lists, calculate_nsamples, all_samples.

Theorems: `C203_ladder`, `C203_places`, `C203_pool`, `C203_columns`, `C203_lists`, `C203_count`, `C203_no_zero_refuted`, `C203_snr_refuted`, `C203_count_refuted`

Note: The inside of a sampler is an arbitrary type; counts and samples of a sampler are arbitrary functions.

### C204 Rejection of hot samples to zero temperature (proved)

PtSamp_Model.to_zero, weights, rows_between, to_zero_again.

Theorems: `C204_keep`, `C204_one`, `C204_view`, `C204_again_refuted`, `C204_bias_refuted`

Note: The shared memory is a parameter of the model (true for pandas before version 3).

### C205 Starting and stopping bilby_mcmc (proved)

PtSamp_Model.draw, rejection_percentage, neg_log_post, minimises.

Theorems: `C205_stop`, `C205_no_print_refuted`, `C205_print_stops`, `C205_percentage_refuted`, `C205_maximum`, `C205_maximum_refuted`, `C205_percentage`

Note: The counts per round and the times of printing are arbitrary; the optimiser is taken to find a global minimum.

### C206 Proposals move what they may and can be undone (proved)

McProp_Model.parameters, apply_boundaries, call, fixed_gaussian, adaptive_gaussian, differential_evolution, independent, fixed_jump, fisher, stretch.

Theorems: `C206_reverse`, `C206_reverse_de`, `C206_reverse_de_refuted`, `C206_independent`, `C206_parameters`, `C206_frame`, `C206_jump_refuted`, `C206_inside`, `C206_outside_refuted`, `C206_steps`, `C206_adaptive_steps`

Note: Random numbers are arbitrary arguments; reals for floats; KeyError and ZeroDivisionError are None.

### C207 Proposals that learn a density (proved)

McProp_Model.refit, dens_step, dens_run, refits, fails, kde_draws, gmm_draws, fallback_use.

Theorems: `C207_schedule`, `C207_retry`, `C207_trained`, `C207_verified`, `C207_unverified_refuted`, `C207_gmm`, `C207_one_parameter`, `C207_one_parameter_refuted`, `C207_kde_refuted`, `C207_fallback`

Note: The fitted density is an arbitrary type; an attempt raises in the fit, after it, or completes with the result of the comparison; exact standard deviations.

### C208 Ensemble steps (proved)

McProp_Model.member_step, step_at, ensemble_loop, ensemble_step, propose_point.

Theorems: `C208_sequential`, `C208_single`, `C208_one_each`, `C208_support`, `C208_rule`

Note: Log likelihood and log prior are arbitrary functions into the reals with -infinity; the draws of partner, z and u are arguments.

### C209 Proposal cycles from a string (proved)

McCycle_Model.default_requests, gwA_requests, build_all, remove_proposals_using_string, get_proposals, cycle_length, phase_key, phase_propose.

Theorems: `C209_remove`, `C209_separator_refuted`, `C209_default`, `C209_gwA`, `C209_gwA_refuted`, `C209_gwA_reach`, `C209_reach_refuted`, `C209_length`, `C209_empty_refuted`, `C209_phase`, `C209_phase_refuted`, `C209_tags`, `C209_default_weights`, `C209_polarisation`, `C209_reversal`

Note: The list of requested proposals and weights; the questions to the priors are flags or membership tests; shuffling of the cycle is not modelled.

### C210 Priors handed to PyMC (proved)

Pymc_Model.prior_map, set_prior, pymc_logp.

Theorems: `C210_gaussian`, `C210_others`, `C210_constant`, `C210_default_range`, `C210_powerlaw_refuted`, `C210_beta_refuted`, `C210_names`

Note: PyMC's distributions are their documented densities; gammaln is an arbitrary function; tensors are reals; multivariate priors are not modelled.

### C211 Likelihoods handed to PyMC (proved)

Pymc_Model.pymc_gaussian, pymc_poisson, pymc_exponential, pymc_student.

Theorems: `C211_gaussian`, `C211_poisson`, `C211_exponential`, `C211_student`, `C211_keys`, `C211_sampled_refuted`, `C211_poisson_refuted`, `C211_kwargs_refuted`, `C211_poisson_zero`

Note: PyMC's distributions are their documented densities; the function of the likelihood is arbitrary on dictionaries.

### C212 Step methods of PyMC (proved)

Pymc_Model.nuts_kwargs, get_nuts_args, method_args, steps.

Theorems: `C212_steps`, `C212_single`, `C212_nuts_refuted`, `C212_given`

Note: Arguments are an arbitrary type; PyMC itself is not modelled.

### C213 Samples and errors of the evidence of bilby_mcmc (proved)

Evid2_Model.thermo, rows, columns, idxs, resample, stone, over_ensembles, evidence.

Theorems: `C213_thermodynamic_odd`, `C213_thermodynamic_even`, `C213_two_chains_refuted`, `C213_window`, `C213_rows`, `C213_columns`, `C213_nan`, `C213_bootstrap`, `C213_last_row_unused`, `C213_bounds`, `C213_ensembles`, `C213_scale_refuted`, `C213_stored`

Note: Log likelihoods, burn-ins and tau are given; the random integers are arbitrary in their ranges; exact reals.

### C214 What the checks of a ROQ likelihood guarantee (proved)

RoqCheck_Model.perform_roq_params_check, merge, init_check, verify_numbers, single_basis, nodes_after; limits from GwPrior_Model.

Theorems: `C214_data`, `C214_binaries`, `C214_fails`, `C214_undetermined_refuted`, `C214_two_files`, `C214_length_refuted`, `C214_given`, `C214_unchecked`, `C214_nodes`

Note: Files are what they say of their band and length; prior limits as in C105; exact reals.

### C215 The gwsignal binary black hole model (proved)

Gwsig_Model.gwsignal, start_frequency, extra_args, gw_failure.

Theorems: `C215_waveform`, `C215_answered`, `C215_errors`, `C215_none`, `C215_refused`, `C215_start`, `C215_start_bounds`, `C215_stray_refuted`, `C215_dropped_refuted`, `C215_defaults`, `C215_accepted`

Note: The generator, its domain and the spin transform are arbitrary; exact complex numbers; units as the names say.

### C216 Combining a list of results (proved)

Combine_Model.combine_results with check_priors, same_data, as_runs, combined_lnZ; Result_Model for the evidences and rows.

Theorems: `C216_few`, `C216_agree`, `C216_levels`, `C216_lenient`, `C216_unknown`, `C216_nested`, `C216_nan_refuted`, `C216_mcmc`, `C216_other`, `C216_error`, `C216_evidence_refuted`

Note: Log evidences, errors and noise evidences are finite or nan; results are records, rows and priors of any type; exact reals.

### C217 Building a multivariate Gaussian prior (proved)

Mvg_Model.base_init, mvg_init, add_mode and the record of a distribution.

Theorems: `C217_bounds`, `C217_tuple_bounds_refuted`, `C217_added`, `C217_accepted`, `C217_modes`, `C217_single`, `C217_several`, `C217_refused`, `C217_means_refuted`, `C217_symmetry_refuted`, `C217_failure_refuted`, `C217_elements`, `C217_ragged`

Note: Names, bounds and matrices are lists of reals; the eigenvalues and scipy's acceptance of a matrix are arbitrary functions of it; exact reals.

### C218 Linear coefficients of the multi-band likelihood (proved)

Mband2_Model; transforms from Series_Model with Dft_Proofs.

Theorems: `C218_points`, `C218_waveform`, `C218_coefficient`, `C218_inner`, `C218_single`, `C218_leak_refuted`

Note: Discrete Fourier transforms are exact sums over complex numbers; the bands are given.

### C219 Saved multi-band weights, defaults and buffers (proved)

MbSave_Model.weights, setup_from_weights, set_attr, time_offset, delta_f_end, write, evaluations.

Theorems: `C219_restore`, `C219_own_order`, `C219_file_order`, `C219_order_refuted`, `C219_defaults`, `C219_taper_refuted`, `C219_buffers`, `C219_without_prior`, `C219_no_mass`

Note: Attributes are a dictionary of numbers, booleans and arrays of any type; files return the members in some order.

### C220 The quadratic term of the multi-band likelihood (proved)

Mband3_Model.wth, later_band, later_bands, full_inv_psd, optimal_snr_squared; transforms from Series_Model.

Theorems: `C220_band`, `C220_full_length`, `C220_below_nyquist`, `C220_positive`, `C220_unshortened`

Note: Discrete Fourier transforms are exact sums; the bands are given, with 0 < Ks <= Ke < M/2 and N a multiple of M, which _setup_integers gives.

### C221 Arguments, burn-in and steps of the ensemble samplers (proved)

EnsKw_Model with Sampler_Model.set_kwargs.

Theorems: `C221_emcee`, `C221_zeus`, `C221_kombine`, `C221_user`, `C221_burn_in`, `C221_negative_refuted`, `C221_numpy_refuted`, `C221_estimate`, `C221_empty_refuted`, `C221_resumed`, `C221_auto_burnin`, `C221_auto_burnin_resumed_refuted`, `C221_kombine_walkers`, `C221_zeus_user`

Note: Argument values are an arbitrary type; the samplers themselves and the autocorrelation estimate are given; the version of emcee is a flag.

### C222 Injecting a signal into a detector and a network (proved)

Inject_Model; inner products from GwInner_Model.

Theorems: `C222_one`, `C222_noise`, `C222_zero_noise`, `C222_no_power`, `C222_two`, `C222_signal`, `C222_network`, `C222_interrupted_refuted`, `C222_window_refuted`

Note: Antenna responses and waveform generators are arbitrary functions, possibly failing; complex and real numbers are exact; matched filter of a powerless signal is nan.

### C223 Simulated noise belongs to its spectral density (proved)

SimNoise_Model.white_noise, noise_realisation; transforms from Series_Model.

Theorems: `C223_values`, `C223_whitened`, `C223_time`, `C223_scale`, `C223_odd_refuted`

Note: The draws are arbitrary numbers; the curve is an interpolated function, 0 outside its range as get_noise_realisation makes it; exact reals.

### C224 Length of the random walks of the dynesty sampler (proved)

Walks_Model.update_user and runs of it.

Theorems: `C224_bounds`, `C224_internal`, `C224_converges`, `C224_fixed`, `C224_failure`, `C224_rebuild`, `C224_few_live_points_refuted`

Note: Acceptances and rejections per call are arbitrary; numbers are exact reals.

### C225 Parameters inferred from a function and the calls made with them (proved)

Sig_Model.bind (Python calls), infer, function_keys, evaluate, update_conditions, gp_value, hyper_value.

Theorems: `C225_accepted`, `C225_values`, `C225_sampled`, `C225_method`, `C225_other`, `C225_conditions`, `C225_gp_function`, `C225_gp_method_refuted`, `C225_hyper_refuted`, `C225_hyper`, `C225_keyword_only_refuted`, `C225_positional_only_refuted`

Note: Python's binding of arguments to a signature is modelled from the language reference; values are an arbitrary type; functions are known by their signatures.

### C226 Settings under the names of each sampler (proved)

Names_Model: the rules of the seven adapters on top of Sampler_Model.translate and verify, and nestle_kwargs, polychord_setup, ptmcmc_init/run, nessai_kwargs.

Theorems: `C226_live_points`, `C226_seed`, `C226_others`, `C226_dnest4_steps`, `C226_dnest4_refuted`, `C226_no_seed_refuted`, `C226_walkers_refuted`, `C226_nlives_refuted`, `C226_nestle`, `C226_polychord`, `C226_ptmcmc`, `C226_nessai_pool`, `C226_nessai_config`

Note: Values are an arbitrary type with a truth value; the contents of nessai's configuration file are an oracle.

### C227 Refused sampling sets and given starting points (proved)

Start_Model.has_redundant (over GwPrior_Model's tests), verify_parameters, set_pos0, get_pos0.

Theorems: `C227_draws`, `C227_redundant`, `C227_verified`, `C227_fixed_refuted`, `C227_array`, `C227_one_parameter_refuted`, `C227_frame`, `C227_by_name`, `C227_ptemcee`

Note: Arrays are a shape and the elements in row order; elements are an arbitrary type.

### C228 Detector data saved as text and read again (proved)

SaveData_Model.save_data, load_data on the detectors of Inject_Model.

Theorems: `C228_same`, `C228_inject`, `C228_outside`, `C228_early_refuted`

Note: Interpolation of the curve is any function exact at its own points; the text holds every number exactly (savetxt writes 18 digits after the point); the rounding of the duration recovered from the frequencies is left out.

### C229 How the settings of ultranest, nessai and cpnest reach their calls (proved)

NestKw_Model: pick, ultranest_prepare, ultranest_run, ultranest_init, nessai_split, cpnest_construct, resolve, fake_run.

Theorems: `C229_reactive`, `C229_live_points`, `C229_again_refuted`, `C229_nessai`, `C229_cpnest`, `C229_cpnest_refuted`, `C229_proposals`, `C229_reuse_refuted`, `C229_reuse`, `C229_fake`, `C229_one_call`

Note: Values are an arbitrary type with a test for None; the constructor of cpnest is known by the settings it takes; whether a row of the posterior is a view that the fake sampler changes is left out.

### C230 Schedule of parallel-tempered ensembles in bilby-mcmc (proved)

PtSteps_Model.step_all_chains, calls, nsamples, requests, rejection_sampling_count.

Theorems: `C230_schedule`, `C230_counters`, `C230_apart`, `C230_adapt`, `C230_stopped_refuted`, `C230_nsamples`, `C230_count`, `C230_last_adapted`, `C230_off`, `C230_stops`

Note: Positions of the primary chain are an arbitrary (for the schedule nondecreasing) list; what the steps, moves and swaps do to the chains is in C31, C33, C203 and C207; L2steps is at least 1.

### C231 Response of a detector to the polarizations of a signal (proved)

Resp_Model.antenna_response, respond, get_detector_response.

Theorems: `C231_value`, `C231_given`, `C231_time`, `C231_linear`, `C231_modes`, `C231_real_refuted`

Note: Antenna patterns, time delay and calibration factor are arbitrary functions; exact complex numbers; arrays of length 1, which numpy stretches, are left out.

### C232 A grid saved to a file, read again, and asked without a likelihood (proved)

GridFile_Model.init, init_saving, get_lnl, get_dictionary, move_old_file, save_to_file, read.

Theorems: `C232_round_trip`, `C232_saved_by_constructor`, `C232_files`, `C232_save_again`, `C232_unevaluated_refuted`, `C232_never_saved`, `C232_read_errors`, `C232_evaluated`, `C232_kept`, `C232_name`

Note: Values of prior and likelihood on the points are arbitrary functions (their computation is C63); decoding of priors is assumed to invert the encoding where the theorem says so; array elements survive json exactly.

### C233 Median and error bar of one parameter (proved)

Summ_Model.percentile, get_summary.

Theorems: `C233_value`, `C233_errors`, `C233_lower_upper_refuted`, `C233_order`, `C233_units`, `C233_swapped_refuted`

Note: np.percentile is linear interpolation of the sorted samples (Samples_Model.quantile, C40); formatting is an arbitrary function; exact reals.

### C234 Groups of sampled parameters, and the check of a prior against the length of the data (proved)

Pset_Model.non_fixed_keys, PARAMETER_SETS, is_nonempty_intersection, validate_prior.

Theorems: `C234_value`, `C234_implications`, `C234_missing_refuted`, `C234_members`, `C234_validate`, `C234_more_draws`

Note: Prior dictionaries by the kind of each entry; the times to merger of the draws are given numbers without nan.

### C235 Weights of a multi-banded reduced order basis (proved)

RoqMb_Model.whitened, shifted_band, shifted_data, linear_multiband, inverse_psd, quadratic_band, quadratic_multiband.

Theorems: `C235_quadratic_weights`, `C235_data`, `C235_inner`, `C235_single`, `C235_top_refuted`, `C235_beyond`, `C235_quadratic`

Note: Exact complex numbers; the duration of the data is taken to be a whole number of band durations and the numbers of samples int(2 fhigh Tb) to divide that of the data, as in the bases; file format and choice of basis elements left out (C49).

### C236 Multivariate Gaussian priors and PyMC (proved)

PymcMv_Model.test_value, lower_of, upper_of, register, variables, enter, multivariate_normal_prior, set_priors.

Theorems: `C236_attribute`, `C236_never`, `C236_one`, `C236_second_refuted`, `C236_bounds`, `C236_test`, `C236_test_refuted`, `C236_empty_refuted`

Note: PyMC itself is a set of named variables that refuses a name used twice; exact reals.

### C237 Arrival times drawn by a reduced order likelihood (proved)

RoqTime_Model.at_time, times_of, time_posterior, time_marginalized.

Theorems: `C237_probability`, `C237_total`, `C237_fails`, `C237_share`, `C237_jitter`, `C237_phase`

Note: Exact reals (no underflow); the distance-marginalised likelihood, ln I0 and the prior are arbitrary functions, the prior not negative and zero outside its range; calibration marginalisation left out; the choice of the random generator is by the probabilities given.

### C238 Jump proposals for the sky, the polarisation and the phase (proved)

GwJump_Model.shift, sky_sigma, sky_jump, corr_move, corr_jump, pol_jump, with the boundaries of Jump_Model.

Theorems: `C238_correlated`, `C238_back`, `C238_twice`, `C238_sign_refuted`, `C238_face_on`, `C238_sky`, `C238_missing`

Note: Exact reals; random numbers are arguments; the signal is that of a dominant quadrupole: combinations of cos and sin of 2 psi times combinations of cos and sin of 2 phase.

### C239 Signal-to-noise ratios of the detectors and the network (proved)

SnrSum_Model.array_add, iadd_array, iadd, total, of_detector, snrs_as_sample, log_likelihood_ratio.

Theorems: `C239_total`, `C239_order`, `C239_lengths`, `C239_likelihood`, `C239_network_refuted`

Note: Exact numbers; the inner products of a detector are given (C40), arrays are one-dimensional; a detector without any signal in its band is left out, where the code divides by zero.

### C240 The outputs a sampler announces (proved)

ExpOut_Model.join, sampler_name, abbreviation, expected, written.

Theorems: `C240_covered`, `C240_dnest4_refuted`, `C240_empty_refuted`, `C240_distinct`

Note: Paths are compared by the names between slashes; settings that name another directory, links, the names . and .., and files of plots are left out.

### C241 Checkpoints and resuming of bilby-mcmc (proved)

McResume_Model.set_convergence_inputs, read_current_state, init_ptsampler, setup_chain_set, write_current_state, due, check_point, rounds.

Theorems: `C241_resumed`, `C241_setup`, `C241_fresh_refuted`, `C241_spacing`, `C241_killed`, `C241_unpicklable`, `C241_options_refuted`

Note: Chains, inputs and options are arbitrary values; dill restores what it saved; clock in whole ticks which may run at any speed, the modification time of the file taken from the same clock; kills during a write are C19.

### C242 The estimated normalisation of a constrained prior (proved)

NormEst_Model.collect, estimate, mean, std, decimals, factor.

Theorems: `C242_value`, `C242_ends`, `C242_never`, `C242_first_dropped`, `C242_unconstrained`, `C242_one_draw_refuted`, `C242_rounded`, `C242_agree`, `C242_zero_refuted`

Note: Draws by whether they satisfy the constraints; exact reals; np.round is some multiple of the last digit at most half of it away.

## Findings: places where the code does not do what its documentation or a user would expect

1. `SymmetricLogUniform.ln_prob` (analytical.py 344-356) ignores the prior range: it is finite where `prob` is 0, so a sampler using ln_prob accepts points outside the support (C05).
2. `Cosine.prob` / `Sine.prob` (analytical.py 415, 469) are not renormalised when the range is truncated, while `rescale` and `cdf` are (C04).
3. `PowerLaw.cdf` (analytical.py 156-165) is wrong for negative arguments: for alpha=1 it returns 1 two units below the support, and nan for alpha=-1 (C03).
4. `mass_2_and_chirp_mass_to_mass_ratio` (gw/conversion.py) returns nan for every mass ratio below 1/3 although the inverse problem has a solution (C35).
5. `lambda_tilde_delta_lambda_tilde_to_lambda_1_lambda_2` (gw/conversion.py) divides by zero at symmetric mass ratio 4823/249158 (C36).
6. `PriorDict.check_ln_prob` (dict.py 561-577) returns +inf without evaluating the constraints when the summed ln_prob of a scalar sample is +inf; the array branch does evaluate them (C06).
7. `PriorDict.prob` (dict.py 521): the constraint normalisation is estimated separately for each ordered key tuple, so two orders of the same sample get different probabilities (C06).
8. `PriorDict.sample_subset_constrained` (dict.py 451-453) deletes constraint keys from the caller's list (C07); `sample_subset_constrained_as_array` relies on this for size > 1 and raises KeyError for size None or 1.
9. `PriorDict._cached_normalizations` is keyed only on the key tuple and never invalidated: editing a constraint leaves the old factor in use (C10).
10. `ConditionalPriorDict` re-resolves in `__setitem__`/`__delitem__` only; `update`, `pop`, `setdefault` of dict leave `_resolved` and the order stale (C08).
11. `ConditionalPriorDict._update_rescale_keys` (dict.py 857-863) does not refresh the index list after the evaluation order changed: unit values are handed to the wrong priors (C09).
12. `ConditionalPriorDict.prob/ln_prob` silently use stale `least_recently_sampled` values for required variables missing from the sample (C38); `prob({})` raises TypeError.
13. `DeltaFunction.least_recently_sampled` becomes an array after `sample(n)`; later scalar rescale/prob calls of dependent priors return arrays (C39).
14. `ConditionalPrior.update_conditions` documents that the reference parameters are used when no variables are given; the parameters of the last evaluation are used (C11).
15. `Interped.cdf/rescale` (interpolated.py 164-174) interpolate the cumulative values linearly while `prob` is piecewise linear, so samples follow a piecewise constant density and not `prob` (C13).
16. `Interped._update_instance` (interpolated.py 159-162) replaces the supplied abscissae by an evenly spaced grid of the same length: tables that are not evenly spaced lose narrow features; the supplied maximum need not be the maximum of the prior (C13).
17. `Interped.rescale(0)` is nan when the first two ordinates are zero (C13).
18. `SlabSpikePrior`: `inverse_cdf_below_spike` is computed only in `__init__`; after changing spike_height or spike_location `rescale` is not monotone and not the quantile function (C14).
19. `SlabSpikePrior.prob/ln_prob` are infinite at the spike even for spike_height=0, the default, contrary to the docstring 'the prior is just the slab' (C14).
20. `SlabSpikePrior.cdf` excludes the spike's mass at the spike itself (C14).
21. bilby_mcmc/chain.py 126-130 and sampler.py 860-861, 1269: an accepted temperature swap writes chain[-1] but not current_sample, from which the next step starts; swaps never influence later moves of history-free proposals (C31_swaps_have_no_effect, C31_swapped_state_used_refuted).
22. bilby_mcmc/chain.py 116-124: an index below -n wraps into the zero padding instead of raising (C30_negative_index_refuted).
23. bilby_mcmc/chain.py 126-130: assignment can store a likelihood above max_log_likelihood without updating it (C30_setitem_maximum_refuted).
24. bilby_mcmc/proposals.py 349: `np.isinf(width) is False` compares a numpy boolean by identity and never holds; UniformProposal never moves (C44).
25. bilby_mcmc/sampler.py 912: adapt_temperatures feeds the within-chain acceptance ratio, not the swap ratio, although it documents targeting a constant swap ratio (read from the source; C47 holds for any ratios).
26. bilby_mcmc/sampler.py 922-924: an interior temperature can pass the fixed hottest one (C47_order_with_hottest_refuted).
27. bilby_mcmc/sampler.py 1083-1096: both evidence estimates omit beta in [0, beta_min]; a constant log likelihood k gives (1-1/Tmax)*k (C46_exact_for_constant_refuted).
28. bilby_mcmc/sampler.py 971: the combined evidence error is never below the mean of the single errors, so more ensembles do not reduce it (C46_combined_err_no_gain).
29. core/utils/series.py 212-213: for odd lengths nfft labels bin k with k*fs/(n-1) instead of k*fs/n (C17_labels); infft cannot restore the odd length (C17_odd_loses_sample).
30. core/utils/series.py 122: half-to-even rounding gives one frequency too many when n = 3 mod 4, so array and transform differ in length (C18_frequency_array_odd).
31. core/utils/series.py 101: int() truncates a product accepted just below an integer; the time array is one sample short while the frequency array is not (C18_time_truncation).
32. core/series.py 51-56, 81-87: assigning frequency_array (time_array) does not invalidate a cached time_array (frequency_array) (C48_stale_time_array_refuted, C48_stale_frequency_array_refuted).
33. core/series.py 53: the array is stored before the evenness check raises; with a valid cache the next read returns the refused array (C48_refused_array_kept_refuted).
34. core/utils/io.py 388: the temporary name is fixed, so two processes dumping to one file can expose an empty file (C19_two_writers_refuted).
35. core/result.py 787: the old result is moved away before the new one is written in place; two interrupted saves lose it (C20_two_crashes_refuted); overwrite=True has a window with no result (C20_overwrite_window_refuted).
36. core/result.py 809-823: after an encoder error the truncated JSON stays under the final name (C20_encoder_error); the documented extension 'pickle' always takes the error path (C20_unknown_format).
37. core/result.py 822: the fallback name is cut at the last dot of the path, possibly in a directory name (C20_fallback_directory_refuted).
38. core/result.py 796: saving overwrites callables in the result's own sampler_kwargs by the text of the whole dictionary (C49).
39. core/sampler/base_sampler.py 1020-1042: docstring says the proper path is replaced; it is merged (C26_permanent_files_kept). A crash while copying leaves a truncated file that a restart uses (C26_restart_reads_partial_file_refuted).
40. core/sampler/base_sampler.py 97-101: no try/finally: handlers stay after an exception (C27_restored_on_error_refuted); with SIGALRM missing, two handlers are never restored (C27_no_alarm_not_restored); a None previous handler raises after a successful run (C27_foreign_handler_fails).
41. core/sampler/base_sampler.py 742: a parallel run ignores SIGTERM while its pool is not open (C50_ignored_without_pool).
42. core/result.py 194, 254: the restart index is the position of the old log likelihood nearest to zero, not the number of rows done, because the likelihood arrays are filled before the first checkpoint; resumed weights can be wrong (C23_equal_refuted).
43. core/result.py 190: a resume file of a finished reweighting is silently reused for another target (C23_stale_file_refuted).
44. core/result.py 340, 360-361: copy is shallow, so reweight overwrites the caller's posterior; repeating a call gives another answer (C52_repeat_refuted). Likewise meta_data (366) and priors (375), read from the source.
45. core/result.py 1894-1896: finite errors are divided by the number of all runs; one missing error can make the combined error negative (C24_error_positive_refuted).
46. core/result.py 1972: an empty first prior dictionary passes the check with anything (C24_detects_refuted); a missing key raises KeyError even for consistency_level='ignore' (C24_missing_key; the level is read from the source).
47. core/result.py 1851-1852: for samplers without nested samples other than bilby_mcmc the combination keeps the evidence of the first run (read from the source).
48. core/sampler/dynesty_utils.py 303: a construction walk without an accepted move has infinite autocorrelation time and int(np.ceil(inf)) raises OverflowError before the branch that handles it (306-313) is reached (C55_no_accept_raises).
49. core/sampler/dynesty_utils.py 198: cached points are compared with < so a point equal to the threshold, such as the start point, is served (C55_strictly_above_refuted).
50. core/sampler/dynesty_utils.py 406-408: `continue` on a move outside the cube skips both stopping tests, so the loop need not end (C56_endless).
51. core/sampler/dynesty_utils.py 437: with maxmcmc < nact accepted moves are thrown away for a random point (C56_short_limit).
52. core/sampler/dynesty_utils.py 151-161: the replacement of a walk without accepted moves may lie below the threshold and its evaluation is not counted (C28_above_threshold_refuted).
53. core/sampler/dynesty_utils.py 53: fewer than ten live points divide by zero in the adaptation (read from the source); 331-333: all cached points share one blob dictionary (read); 534: the result of np.delete is discarded (read).
54. core/sampler/base_sampler.py 358-367: a fixed prior that is neither a Constraint nor a DeltaFunction is silently left out of the run (C25_other_fixed_refuted). A ConditionalDeltaFunction is fixed once at its reference value, whatever its conditioning parameters do (366, read from the source).
55. core/sampler/base_sampler.py 546: zip accepts a vector that is too short, and stale values of the previous call are used (C25_short_vector).
56. core/sampler/base_sampler.py 315-319: of several seed aliases the last in the list wins, and giving the seed under the sampler's own name leaves bilby's generator unseeded, although initial points are drawn from it (C53_own_seed, C53_example).
57. core/sampler/base_sampler.py 565: get_random_draw_from_prior ignores the result of check_draw (read from the source).
58. core/sampler/base_sampler.py 863-869: samples that repeat with different likelihoods all get the first one (C58_duplicates_refuted).
59. gw/conversion.py 1923: the early return is missing, so a dictionary whose only mass parameter is the secondary mass raises KeyError 'mass_ratio' even with require_add=False (C37_outcome, C37_example).
60. gw/conversion.py 1918-1921: from secondary mass and chirp mass alone the primary mass is nan when m1 > 3 m2 (C37_refuted).
61. gw/conversion.py 224: the loop reads parameters['luminosity_distance'] instead of converted_parameters, so source-frame masses with a comoving distance raise KeyError (C60_comoving_refuted).
62. gw/conversion.py 249-260: for arrays a single 0/0 replaces the whole cos_tilt column by 1 (C60_column_refuted).
63. gw/conversion.py 239-242: chi and in-plane part both zero divide zero by zero outside the try block (read from the source).
64. gw/conversion.py 2147-2148: missing spins are reported as a debug message, and line 2070 then raises KeyError (C62_error).
65. core/grid.py 154: marginalize starts from the full list of names, so applying it to an already marginalised array uses the wrong axes (C22_second_call_refuted).
66. core/grid.py 312-314: the index of a point is searched by value, so an axis with repeated points, such as a fixed parameter with the default grid size, raises TypeError (C63_repeated_points, C63_fixed_parameter). A python list of points also fails, because list == float is False (read from the source).
67. core/grid.py 192-201: an axis with one point contributes the density at the lower end of the prior, not an integral (C22_value).
68. core/utils/io.py 38-39: the PriorDict branch of the encoder is never reached, because json handles subclasses of dict itself; a prior dictionary nested in metadata comes back as a plain dict (C21_nested_prior_dict).
69. core/prior/dict.py 112-118: the conversion function of a prior dictionary is not saved; Constraint priors of the reloaded dictionary have no effect (C21_prior_dict_file; PriorDict theorems on evaluate_constraints).
70. core/utils/io.py 147-186: a user dictionary with a true marker key such as __array__ is decoded as that object (C21_marker, C21_marker_refuted).
71. core/utils/io.py 64-67: integer labels of a Series become strings and row labels of a filtered DataFrame are lost (C21_ex_series, C21_ex_frame).
72. core/utils/io.py 203-207: objects inside lists are not decoded by recursively_decode_bilby_json (C65_lists_refuted).
73. core/prior/dict.py 612-614: zip drops surplus keys or coordinates without an error (C66_short_refuted).
74. core/utils/io.py 351-369: an empty dictionary is not written to HDF5, so for example empty meta_data disappears (C67_losses_refuted).
75. core/utils/io.py 284-300: a list of booleans cannot be saved to HDF5 (C67_losses_refuted); None inside a list is read back as the text __none__ because 233-238 do not convert array elements.
76. core/utils/io.py 301-302: a prior dictionary inside other data is saved as JSON text and only the top-level entry priors is decoded again in result.py 540-543.
77. core/utils/io.py 367-369: a key containing / becomes nested groups (C67_slash_refuted).
78. core/likelihood.py 266-267: a rate of zero with zero counts has probability one but gets -inf (C69_zero_rate_refuted).
79. core/likelihood.py 310-312: a mean of zero gives nan instead of -inf (C70_bad_means).
80. core/likelihood.py 433-436: probabilities outside the simplex give a number if the last class is empty (C72_outside_simplex_refuted).
81. core/likelihood.py 551-562: setting likelihoods on a JointLikelihood does not share its parameters (C73_setter_refuted); assigning parameters, as core/sampler/fake_sampler.py 78 does, detaches the parts (C73_rebinding_refuted).
82. core/likelihood.py 388-390: unlike GaussianLikelihood, StudentTLikelihood ignores a sampled sigma, although its documentation speaks of an unknown scale (read from the source).
83. core/prior/analytical.py 479-543: Gaussian does not check sigma > 0 (C74_negative_sigma_refuted).
84. hyper/likelihood.py 44-45 with hyper/model.py 57-61: a sampling_prior function is wrapped in a caching Model without parameters, so the prior weights of the first posterior are used for all posteriors (C75_function_prior_reused, C75_function_prior_refuted).
85. hyper/likelihood.py 67: nan_to_num turns nan into 0, so a sample with zero prior and zero density gives log_likelihood_ratio 0 (C75_zero_over_zero).
86. hyper/likelihood.py 59, 91: resample_posteriors(max_samples) changes max_samples but not samples_factor (read from the source).
87. core/utils/calculus.py 117-123: without convergence the gradient is set to 0 (C77_flat_derivative_refuted); 103-108: with an integer array the steps are truncated (read from the source).
88. core/fisher.py 171-172: minlogL is never updated, so the last optimisation wins instead of the best (C78_last_optimisation, C78_best_optimisation_refuted).
89. core/fisher.py 68-74: the mean follows the order of the sample dictionary, the matrix and the columns that of parameter_names (C78_mean_order_refuted).
90. core/fisher.py 47-49: the likelihood's parameters are left displaced (C78_parameters_left_displaced).
91. bilby_mcmc/proposals.py 820-846: FisherMatrixProposal adapts its covariance to the current sample but returns log_factor 0 (read from the source).
92. gw/utils.py 223-226: the lower cut-off is rounded down and the upper bin is left out (C80_cut_offs_refuted).
93. gw/detector/strain_data.py 138-155: the mask is not recomputed when new data, a new frequency array, duration or sampling frequency are set (C81_second_data_set_refuted) or notch_list is changed in place (C81_append_refuted).
94. gw/detector/strain_data.py 103-105: reading maximum_frequency lowers the stored value for good (C81_sticky_maximum_refuted).
95. gw/detector/strain_data.py 597-661: set_from_frequency_domain_strain, set_from_power_spectral_density and set_from_zero_noise keep an earlier time_domain_strain (C82_stale_time_data_refuted); the latter two keep window_factor (C82_window_factor).
96. gw/detector/strain_data.py 130-133: NotchList is a list, so a ready-made NotchList is refused (C83_notch_list_refused_refuted); the documented order (max, min) too (C83_documented_order_refuted).
97. gw/detector/strain_data.py 398-399: a chained comparison instead of two, so the analysis segment stays in the PSD data (C83_psd_segment_refuted).
98. gw/detector/interferometer.py 479-480: an injection stores the masked data, discarding what lies outside the band (C84_injection).
99. gw/detector/strain_data.py 53-66: __eq__ ignores notch_list (read from the source).
100. gw/detector/networks.py 343-365: the azimuth is turned before the step, which then leads away from the y arm instead of along it; the longitude step also lacks 1/cos(latitude) (C85_triangle_refuted).
101. gw/detector/psd.py 51: frequency_array is a plain attribute, so reassigning it does not rebuild the interpolation (C86_frequency_array_refuted, C86_noise_after_reassignment_refuted).
102. gw/detector/networks.py 71: math.isclose keeps its relative tolerance 1e-9, about one second for GPS times (C87_start_times_refuted); 71 with None raises TypeError (C87_unset_type_error).
103. gw/detector/networks.py 227-240: the list is changed before the check (C87_failed_append_refuted).
104. gw/likelihood/base.py 991-995: the time labels drop the first grid point while the FFT does not, so the prior is applied one step late (C89_label_refuted).
105. gw/likelihood/base.py 610: the FFT of the time reconstruction lacks the factor 4/duration (C90_refuted).
106. gw/likelihood/base.py 731, 740: the phase reconstruction is right for templates proportional to e^{+2i phase}, the docstring says e^{-2i phase} (C91_sign_refuted).
107. gw/likelihood/base.py 864-879: templates below the range of the distance table get -inf (C92_weak_template_refuted).
108. gw/likelihood/base.py 887: the condition tests a non-empty tuple, so a dictionary table is never rejected (C93_dictionary_refuted); 950: default atol 1e-8 (C93_small_densities_refuted).
109. gw/likelihood/base.py 779-781: with calibration, time and distance marginalisation arrays of shapes (curves, times) and (curves,) are broadcast (C94_time_distance_refuted); 323, 507: recalib_index stays in the parameters (C94_index_left_refuted).
110. gw/detector/calibration.py 144-146, 269: parameters left out keep their earlier values (C96_forgotten_refuted); the prefix is searched anywhere in the key but cut from its front.
111. gw/detector/calibration.py 304-306: int(None) raises TypeError before the KeyError (C97_curve).
112. gw/detector/calibration.py 63: the parameter table is not cut to the curves (C98_parameters_refuted).
113. gw/detector/calibration.py 422-426: starting_index is not used for generated curves (C98_generated); 434-452, 458-459: nodes between the ends of the band, not those of the interferometer's spline (C98_range_refuted).
114. gw/detector/calibration.py 414: a Precomputed without parameters gives an AttributeError (C98_example); 429: earlier interferometers have lost their model when a later one raises (C98_example).
115. gw/waveform_generator.py 172-174: the cache does not look at times and frequencies (C99_grid_refuted), is shared with the caller (C99_edited_refuted) and does not record the domain (C99_same_model_refuted).
116. gw/waveform_generator.py 194-195: nfft returns a pair, which is passed on for plain arrays (C99_array_refuted).
117. gw/waveform_generator.py 239: waveform_arguments are merged only when parameters are set (C100_arguments_refuted).
118. gw/prior.py 460-466: the mass-ratio cumulative distribution is not clipped outside the range (C102_cdf_not_clipped_refuted); equal_mass makes rescale differ from its inverse (C102_equal_mass_not_inverse_refuted).
119. gw/prior.py 518-550: AlignedSpin's range is wrong if all tilts are on one side (C104_aligned_range_refuted); ConditionalChiInPlane's cdf is 0 above the maximum (C104_in_plane_cdf_above_refuted).
120. gw/prior.py 917-962: the redundancy test ignores fixed and constrained entries (C106_fixed_not_counted_refuted) and counts mass_ratio and symmetric_mass_ratio as independent (C106_ratios_refuted).
121. gw/prior.py 35-91: the priors of the result passed in are replaced (C107_input_changed_refuted); a second call weights by the Jacobian alone (C107_second_call_refuted); the BilbyPriorConversionErrors of 53-60 are constructed but never raised.
122. gw/prior.py 199-225, 319-320: limits stay in the prior's unit while the arrays are in Mpc (C109_unit_changes_limits_refuted, C109_range_reversed_refuted, C109_corresponding_unit_refuted); get_corresponding_prior() without a name raises KeyError.
123. gw/cosmology.py 39-40, 77: set_cosmology stores into COSMOLOGY, get_cosmology reads DEFAULT_COSMOLOGY (C110_set_cosmology_ignored_refuted); dictionaries are not converted (C110_dictionary_refuted).
124. core/prior/joint.py 860-904: an incomplete ln_prob call shifts all later ones (C111_incomplete_refuted); 874-889: an error leaves the buffer filled (C111_error_refuted).
125. core/prior/joint.py 797-805 with dict.py 613, 855: joint values come back in the distribution's order at the place of its last key (C112_order_refuted, C112_between_refuted).
126. core/prior/joint.py 823-841: an unfinished round returns the old draw whatever size is asked for (C113_unfinished_refuted).
127. core/prior/joint.py 211-217: the loop over columns stops at the first with a violation and keeps only its flags (C114_missed_refuted).
128. core/prior/joint.py 564-568: sigmas without corrcoefs are ignored though the docstring says otherwise (C115_sigmas_alone_refuted); 575: eig instead of eigh (C116_repeated_refuted); 681-684: the density ignores the weights (C117_weights_refuted).
129. gw/prior.py 1617, 1619: samp[0] instead of samp[i] (C118_first_sample_refuted, C118_two_samples_refuted); 1622: the density lacks cos(dec) as a density of ra and dec (C118_measure_refuted).
130. gw/prior.py 1391-1394, 1433: trapezoids over pixel numbers and rounding mix neighbouring pixels (C119_map_probability_refuted).
131. gw/prior.py 1562-1569: the drawn point is never checked (C120_outside_refuted) and a centre outside the bounds recurses for ever (C120_terminates); 1440-1441: vstack and reshape mix samples (C120_mixed_rows_refuted); 1462-1464: numbers below the first cumulative value raise (C120_distance); 1540: result of the recursive draw dropped (C120_redraw_refuted).
132. gw/prior.py 1355, 1357: the caller's lists names and bounds are appended to.
133. gw/likelihood/relative.py 209: division by zero when the total phase is below epsilon (C123_bins); 393: the quadratic term of the power is dropped (C124_inner_products).
134. gw/likelihood/relative.py 322, 334: the last bin's centre is shifted by half a frequency step with respect to 228 (C124_last_bin_refuted, C124_linear_ratio_refuted), and the frequency after the band is read, an IndexError if the signal reaches the end of the band (C124_band_end_refuted).
135. gw/likelihood/relative.py 242-249: the check for None comes after the polarizations were indexed; 282-288: the last, not the best, parameters are kept (C126_worse_refuted).
136. gw/likelihood/multiband.py 384: the last midpoint is returned, which may fail the conditions by up to 0.01/duration, instead of the upper bound that satisfies them; tapers may then overlap and the windows add up to more than one (C127_search, C128_overlap_refuted).
137. gw/likelihood/roq.py 594-613: times before the third sample index the array with negative numbers and silently read its end, where calculate_snrs gives -inf (C131_wraps_refuted); 599: times[1] raises an IndexError for a grid of one time.
138. gw/likelihood/roq.py 235-251: gaps between the ranges of the bases pass the check and raise an IndexError while sampling (C135_gap_refuted); 237 raises a KeyError for a ranged parameter without prior, which 362-365 skips.
139. gw/likelihood/roq.py 393-411: the linear basis number is cached before the quadratic look-up may fail, so that after the exception the former parameters get the wrong number (C135_cache_after_error_refuted).
140. gw/likelihood/roq.py 1017: substring test for the extension (C136_name_refuted); 1020-1033: npz and json drop the frequency nodes (C136_npz_loses_nodes_refuted); 1176-1178: the spectrum of the last interferometer alone sets the time resolution.
141. gw/conversion.py 338-347: lambda_2 without lambda_1 is left alone (C137_lambda_2_alone_refuted); 557-574: lambda_symmetric without mass_ratio silently gives nothing (C137_symmetric_refuted) and for floats without binary_love_uniform raises a TypeError at 1624 (C137_scalar_love_refuted); 319-321: lambda_antisymmetric is not among the tidal names (C138_antisymmetric_alone_refuted).
142. gw/conversion.py 396, 448: 'a' and b in keys tests only b, so eos_polytrope_gamma_0 without pressures gives nothing and the pressures without it a KeyError.
143. gw/conversion.py 373-395: a one-element array truncates the result (C140_broadcast_refuted); the docstring at 587-589 states the rejected order of the pressures the wrong way round (compare 723).
144. gw/conversion.py 1637-1644: the defaults overwrite reference_frequency and minimum_frequency of the sample (C142_reference_frequency_refuted).
145. gw/conversion.py 1512-1544: the mean correction does not vanish for equal masses (C143_equal_mass_refuted), and nothing prevents negative deformabilities (C143_negative_refuted).
146. core/prior/base.py 341, 366-371, 436-445: spaces are deleted from labels (C144_label_refuted), from_repr(repr(p)) doubles backslashes (C144_backslash_refuted), commas in labels, priors nested twice and priors without arguments are not read (C144_comma_refuted, C144_depth_refuted, C144_no_arguments_refuted), although dict.py 142 documents 'AlignedSpin()'.
147. core/prior/dict.py 149: the file is decoded with unicode_escape, so \n, \t, \b in a hand-written LaTeX label are control characters (C145_decoded_refuted); 153: the result of line.replace is dropped; 46-49 overwrite a conversion_function set by the file, which stays in the dictionary as text (C145_conversion_refuted).
148. core/prior/dict.py 261: the greedy pattern takes everything up to the last comma before a space as the key of the distribution (C146_dist_key, C146_spaces_refuted). conditional.py 236 and joint.py 141 print class names without module, so those defined outside bilby.core.prior cannot be read back.
149. core/sampler/emcee.py 421, 437: samples are flattened walker by walker, log likelihoods and priors step by step, so result.log_likelihood_evaluations does not belong to result.samples (C147_emcee_aligned_refuted). kombine.py 215: reshape mixes the walkers (C147_kombine_walkers_refuted).
150. core/sampler/ptemcee.py 437: a checkpoint written by a signal before the first check raises an IndexError on resume (C148_always_resumes_refuted).
151. core/sampler/ptemcee.py 1194-1195, 864: ignored parameters keep an infinite autocorrelation time, which enters the maximum, so ignore_keys_for_tau prevents every stop (C149_ignore_keys_refuted); 911-913: with at most two parameters and three walkers the window is too short for the smoothing of order 3 (C149_window); 742-754: 'stable' is not checked after the first passage (C149_stays_stable_refuted).
152. core/sampler/ptemcee.py 1401: the thinned ladder drops the hottest temperature when their number is even (the default), so the error does not vanish for an exact integral (C151_error_zero_if_exact_refuted). 1462: _wrap_periodic is never called (C152_periodic_proposals_refuted). 358-370: trials is never increased (C152_minimize_gives_up_refuted).
153. core/sampler/emcee.py 388: resuming from a sampler without steps fails (C153_signals); 332-346: chain.dat keeps rows of lost steps (C153_file_equals_chain_refuted); 430: > should be >= (C153_not_burned_in_detected_refuted).
154. core/sampler/base_sampler.py 654-693: a stored result is reused although the priors (or the data, when the likelihood has no meta data) changed (C155_same_priors_refuted, C155_priors_ignored); results stored as gz, hdf5 or pkl are never found (C155_other_formats); clean=True stays in force for later calls with clean=False (C155_clean_sticky); a stored result without likelihood meta data raises a KeyError. result.py: an unknown `save` extension raises only after the sampling, and the result is lost (C155_unknown_format).
155. core/sampler/__init__.py: the conversion function is applied to the injection parameters twice, and again on every reuse (C156_injection); a numeric sampling_time is read as days (C156_number_refuted); names with capitals or an inner 'bilby.' are listed but cannot be used (C154_capital_refuted, C154_inner_prefix_refuted); passing a Sampler class calls its __init__ unbound (not modelled). dynesty.py 653, bilby_mcmc/sampler.py 292: `.seconds` drops whole days from run_statistics (C156_seconds_days).
156. core/sampler/dynesty.py: maxcall and add_live given by the user are overwritten when checkpointing is on (C157_maxcall_refuted). A signal before line 564 leaves, in a first process, a resume file whose reading raises a KeyError ever after, and in a resumed one counts the downtime (C158_early_new, C158_early_resumed). 442-531: the overwritten entry 'rwalk' of dynesty's registry stays for the process, so rwalk_dynesty later runs bilby's walk without live points, a ValueError (C159_rwalk_dynesty_refuted).
157. core/sampler/dynesty_utils.py 534: the result of np.delete is discarded, so the current point stays in the live set and a mode hop can propose an exact copy of another live point (C161_current_point_removed_refuted, C161_duplicates_live).
158. core/prior/analytical.py 1451: for 17 categories or more the added 1e-15 is rounded away, np.arange stops one short, and the last category gets probability zero although it is drawn (C162_last_category_refuted). Categorical has no cdf of its own and the inherited one is meaningless (C163_categorical_refuted). base.py 169-182: the generic cdf can exceed one at the maximum and is then not monotone (C163_top_refuted).
159. core/prior/base.py 109-116: == between a number and an array depends on the order of the operands (C164_array_refuted). dict.py 347: fill_priors goes through a set, and with the redundancy rules of the GW priors the result depends on its order (C165_order_refuted). dict.py 648: copy loses conversion_function (C165_copy_refuted). result.py 1532: int injections are left out of the credible levels without notice (C166_integer_refuted); 1523: `raise (TypeError, ...)` raises a TypeError, but not the intended message.
160. gw/conversion.py 2493-2522: the cache of the reconstruction does not record its block size, and blocks are concatenated in insertion order. After an interrupted run, a call with a larger block size raises, and going back to the first size returns a column in which rows have each other's values (C167_switch_back_refuted). The cache is also used for another likelihood with the same samples (C167_completed). Zero samples raise.
161. gw/conversion.py 2542-2544: generate_sky_frame_parameters assigns by row label, unlike the neighbouring functions, so a filtered, sorted or resampled posterior gets exchanged or missing ra, dec and geocent_time (C168_sky_refuted).
162. gw/likelihood/base.py 176-216: the caller's priors are overwritten step by step; a constructor that raises later leaves them changed, and the corrected call fails too (C169_failure_refuted). 354-371: without any distance prior the warning promises the BBH default, but none is set and a KeyError follows (C169_distance).
163. gw/likelihood/base.py 1070-1080: with a detector as time reference and a detector frame, geocent_time alone is announced as a fall-back but None is passed on, a TypeError (C170_fallback_refuted). 412-429: an exception between the two lines leaves geocent_time shifted by the jitter (C170_jitter_refuted). 1094: a detector time left by an earlier evaluation wins over a new geocent_time (C170_stale_refuted). 1047: frames with longer detector names are cut (C170_frame_text_refuted).
164. core/sampler/proposal.py 82-87: a reflective value an odd number of widths from the minimum is returned unmoved, outside the prior (C171_refuted). 203-206: EnsembleWalk binds random.rng.uniform at import, so seeding later does not reach it. JumpProposalCycle: setting cycle_length without update_cycle can raise IndexError (C172_length_refuted).
165. polychord.py 130-147, pymultinest.py 154-160, ptmcmc.py 203-227: a file with a single posterior sample raises IndexError after the run (C175_single_refuted).
166. core/sampler/dnest4.py 42-54: the move is a uniform draw over the range of the prior draws and returns 0, so any prior that is not flat is ignored (C176_balance_refuted).
167. core/sampler/base_sampler.py 1020-1042: copytree merges, so files the sampler removed stay, against the docstring (C177_delete_refuted). pymultinest.py 114-117: the dump copies before saving the time (C177_killed_time_refuted). ultranest.py 131-157: the visualisation callback copies nothing (C177_killed_viz). A second write_current_state after the move raises FileNotFoundError (C177_twice).
168. core/sampler/base_sampler.py 963: _outputfiles_basename is reset after the keyword was consumed, so the user's outputfiles_basename or log_dir is ignored (C178_user_refuted). ultranest.py 116-120: resume=True becomes 'overwrite' (C178_resume_refuted).
169. core/sampler/pymc.py 355-378 (not modelled): the density used for PowerLaw with alpha > -1 has the factor 1/beta instead of beta, and for alpha < -1 the Pareto bounds are exchanged. nessai.py 161-167 (not modelled): priors are rescaled one by one, without conditioning. ptmcmc.py (not modelled): Niter is an alias taken from the list of walker names.
170. core/result.py 528: from_pickle(outdir, label) looks for the hdf5 name (C179_from_pickle_refuted). 798-823: a json or hdf5 file that fails half way stays and hides the pickle from read_in_result_list (C179_hidden_refuted); the pickle overwrites an earlier one (C179_fallback_old_refuted); for a name without extension the pickle goes to another place, '.pkl' or beside the directory (C179_fallback_place_refuted); extension 'pickle' is saved only through this fall-back, with an error message.
171. core/result.py 910: posterior_volume takes the element-wise reciprocal of the covariance matrix instead of its inverse (C183_two_refuted). 1638-1640: the ordered samples are not transposed before the density is evaluated (C184_many_refuted). 1610: the density estimate is never renewed (C184_stale_refuted). 1682-1688: weights look rows up by label (C181_by_label, C181_missing_label), and constraints are ignored without shared parameters (C181_nothing_shared). 860: complex columns without imaginary parts are written as complex (C182_complex_left_refuted).
172. core/prior/base.py 112-113: an argument that is a frozen scipy distribution is skipped, so priors that differ in it are equal (C164_frozen_refuted).
173. gw/detector/__init__.py 79-82: the ValueError for a signal longer than the data is built but not raised (C185_never_too_long). 109-114: the matched filter ratio returned is of the unshifted signal against the data before injection (C185_matched_filter_refuted). 30: a chirp time that is a power of two is doubled, against the docstring (C185_rounded_up_refuted). 256-260: strict inequalities refuse a stretch that begins with the frame (C189_boundary_refuted); GEO600 and triangular detectors cannot be loaded from a cache file (C189_observatory).
174. gw/detector/interferometer.py 689-697: the whitened time series has variance (L/(L-1))^2 (C186_unit_variance_refuted). 358: `and` instead of `or`, so one mass alone raises KeyError (C190_no_raise_refuted). 370: rounding lets a signal 0.04 s too long pass (C190_rounding_refuted).
175. gw/detector/networks.py 343-365: azimuths are turned before the position is moved, so the arms of a triangular detector point away from the other vertices (C187_arms_refuted), and longitudes lack the factor 1/cos(latitude) (C187_east_refuted). 413: a line of blanks is evaluated and raises (C188_blank_refuted). 403: an invalid shape is reported as 'not implemented' (C188_not_implemented).
176. gw/source.py 11-16, 672, 1131: the message about unused arguments has a named field but is formatted with a positional argument, so any unused argument raises KeyError('waveform_kwargs') instead of a warning (C192_stray, C192_stray_sequence).
177. gw/source.py 780-800: lal_binary_neutron_star_relative_binning keeps frequency_bin_edges with fiducial = 1, unlike the black-hole version at 729, so it fails once bins are set up, e.g. with update_fiducial_parameters (C193_fiducial_bns_refuted). 866-881: binary_black_hole_roq subscripts None when a waveform error was caught (C194_caught_refuted). 655: an exception without arguments is masked by an IndexError (C191_failure).
178. gw/source.py set_waveform_dictionary: keywords PNPhaseOrder or TidalLambda1 are overwritten by the defaults of pn_phase_order and lambda_1; a user's LAL dictionary is changed in place, so entries persist between calls (C192_dictionary).
179. gw/source.py 1221-1229: supernova scales by 1e-3 * 10 / d, right for d in Mpc but documented in kpc; supernova_pca_model uses kpc (C196_kpc_refuted, C196_component). 1175-1190: the 'peak frequency' of sinegaussian is not the maximum of h_plus for small Q (C195_peak_refuted).
180. gw/eos/eos.py 337-354: check_monotonicity compares the length of np.where's tuple (always 1) instead of the number of points, so it is always true and a non-monotone table in sampling mode ends in a ValueError of CubicSpline instead of the warning flag (C197_monotone_refuted). 322-335: sound speeds up to 1.1 c count as causal (C197_causal_refuted). 107-117: only one leading row of zeros is removed (C197_leading).
181. gw/eos/eos.py 528-533: without xmax, gammas given as plain numbers raise IndexError, np.abs(x)[0] (C198_xmax). 553-580: when no grid point is out of range the last one is dropped all the same (C198_shortened_refuted). 582-620: if no low-density row but the first is below the cut, the whole low-density table is kept (C199_overlap_refuted). After construction the attribute energy_density, an array, hides the method of the same name.
182. gw/eos/eos.py 670-687: a second star no heavier than the first makes the index i-2 wrap round to the end of the grid (C199_wrap_refuted). 700: only a strictly smaller last mass is removed, so equal masses stay and every CubicSpline over mass raises (C199_equal_refuted). npts = 1 fails at mass[-2].
183. bilby_mcmc/chain.py 337-342: thin reads tau twice; when the first reading uses up the fiftieth reuse and the second finds a parameter that no longer moves, int(inf) raises OverflowError (C202_overflow_refuted). 344-352: if thin_by_nact * tau < 1 the count can exceed the number of points and is then set to 0, for good when it is at most 1/2 (C202_count_refuted). 170-171: the cached (0, 0) hides the fixed discard at the first point, and an index raised after a reading is not seen until the next point (C201_discard_refuted, C201_stale_refuted).
184. bilby_mcmc/sampler.py 766-775: with pt_rejection_sample the zero-temperature ensemble members other than the first are counted a second time with all their rows, because sampler_list[1:] is used instead of the tempered samplers (C203_count_refuted). 908: adapt_temperatures raises minimum_index_adapt of the primary chain only, so other chains keep samples from before the last adaptation (read from the source). 633-638: Tmax_from_SNR below sqrt(ndim) gives temperatures below 1 (C203_snr_refuted).
185. bilby_mcmc/sampler.py 1335-1374: `zerotemp_logl += noise` works on memory shared with the chain in pandas before version 3: every call shifts the stored log likelihoods (C204_again_refuted), old rows then lose against new ones (C204_bias_refuted), and samples from hot chains carry the full log likelihood beside ratios from the cold one (C204_view).
186. bilby_mcmc/sampler.py 509-512: print_progress divides by nsamples, ZeroDivisionError with pt_rejection_sample before the end of the burn-in (C205_percentage_refuted). 358-362: the stopping test uses the count recorded at the last message, so a run with a printdt longer than the run never stops (C205_no_print_refuted). 1397-1398: neg_log_post returns -inf where the prior is zero, so the 'maximum' sought is any excluded point (C205_maximum_refuted).
187. bilby_mcmc/proposals.py FixedJumpProposal: jumps given as a dictionary move parameters outside the subset (C206_jump_refuted). BaseProposal.__call__ applies the boundaries only when the log factor is 0, so stretched points can lie outside (C206_outside_refuted). DifferentialEvolutionProposal returns log factor 0 although it is not symmetric with a reflective parameter (C206_reverse_de_refuted).
188. bilby_mcmc/proposals.py DensityEstimateProposal: self.density is set before the comparison, so an exception in between leaves an unverified density in use once trained (C207_unverified_refuted); with one parameter np.atleast_2d makes the draws one row and the comparison always fails (C207_one_parameter_refuted); KDE draws are compared along the wrong axis (C207_kde_refuted); the fallback AdaptiveGaussianProposal never gets its accepted and rejected counts raised, so its scale never changes (C207_fallback).
189. bilby_mcmc/proposals.py remove_proposals_using_string: the string is split at 'no', so any separator after the tag disables it silently (C209_separator_refuted); isinstance makes 'noAG' remove FisherMatrixProposal as well (C209_remove); removing everything ends in ValueError of min() (C209_empty_refuted). get_proposal_cycle gwA raises ValueError for samplings such as mass_1, mass_2, a_2 (C209_gwA_refuted), and with removals can leave a parameter unmoved (C209_reach_refuted). phase_key prefers a fixed 'phase' over a sampled 'delta_phase' (C209_phase_refuted).
190. core/sampler/pymc.py 352-358: for a power law with alpha < -1 the Pareto bounds are swapped, so the density is zero everywhere (C210_powerlaw_refuted). 371-374: the norm is 1/(beta ...) instead of beta/(...), a constant only. Beta's minimum and maximum are ignored (C210_beta_refuted).
191. core/sampler/pymc.py set_likelihood: a sampled sigma raises TypeError, a sampled nu is passed as None (C211_sampled_refuted); likelihood.kwargs are not passed to the function, so its defaults are silently used (C211_kwargs_refuted). 688-697: nuts_kwargs is always a dictionary, so step_kwargs['nuts'] is never used (C212_nuts_refuted).
192. bilby_mcmc/sampler.py 1091-1096: with two temperatures the error of the thermodynamic evidence is |ln Z| (C213_two_chains_refuted), with an even number it holds the hottest interval (C213_thermodynamic_even). 970-971: errors are combined by logsumexp as if they were logarithms (C213_scale_refuted). 1063: the bootstrap never draws the last row (C213_last_row_unused).
193. gw/likelihood/roq.py 671-702: priors in total_mass and mass_ratio escape the chirp mass bounds of the basis (C214_undetermined_refuted). 142-156: with two hdf5 files of different duration the shorter one is required, so the other basis is used with data of the wrong length (C214_length_refuted).
194. gw/source.py 181-200: keywords named like gwsignal's own arguments (mass1, condition, ...) silently replace the binary's values (C215_stray_refuted); pn_spin_order, pn_tidal_order, pn_phase_order and numerical_relativity_file are dropped without a word (C215_dropped_refuted); a caught error without arguments becomes IndexError (C215_errors).
195. core/result.py 1807-1863: combining results of samplers other than bilby_mcmc without nested samples keeps the evidence of the first run (C216_evidence_refuted); one nan evidence among nested runs yields an empty posterior without a message (C216_nan_refuted); combine's own default replaces the consistency level the list was built with.
196. core/prior/joint.py 35-45: bounds given as anything but a list are dropped without a message, so a tuple of pairs gives an unbounded prior (C217_tuple_bounds_refuted); line 42 tests `bounds` where `bound` is meant, so its TypeError cannot occur. add_mode: the number of means is never checked (C217_means_refuted); means are appended before the matrix is checked, so after a refused mode the next one is paired with the wrong means (C217_failure_refuted).
197. gw/likelihood/multiband.py 513-531: whitened data outside the last N_b samples of a band leaks into its coefficients (C218_leak_refuted); the scheme relies on the reference chirp mass being right.
198. gw/likelihood/multiband.py 214-242: a prior maximum within the light travel time of the end of the data gives a negative delta_f_end, or ZeroDivisionError (C219_taper_refuted).
199. core/sampler/emcee.py 182-202: a negative nburn passes the test and keeps only the last |nburn| steps (C221_negative_refuted); the getter compares type() with float and int, so a burn-in of a numpy type is silently replaced by the estimate (C221_numpy_refuted); 424-432: an estimate equal to the number of steps gives an empty posterior without an error (C221_empty_refuted). zeus.py 86-95, 152: rstate0 and start are accepted and overwritten (C221_zeus). kombine.py 176-186: a run with autoburnin resumed from a checkpoint treats the burn-in steps as iterations (C221_auto_burnin_resumed_refuted).
200. gw/detector/networks.py 168-178: an injection into a network is not all or nothing; the detectors before a failing one keep the signal (C222_interrupted_refuted). interferometer.py 381-400, strain_data.py 188-225: the window factor is computed when frequency-domain data are first read, so a spectral density array or optimal SNR asked for earlier differs from a later one (C222_window_refuted).
201. core/utils/series.py 153-188: with an odd number of samples create_white_noise takes its frequencies from a series of another spacing than 1/duration (C223_odd_refuted).
202. core/sampler/dynesty_utils.py 28-60: fewer than ten live points raise ZeroDivisionError (C224_few_live_points_refuted); one walk without an acceptance can more than double the walk length (C224_failure).
203. core/utils/introspection.py: keyword-only arguments are not inferred, so a model function with a required one can only fail (C225_keyword_only_refuted); positional-only ones are, though they cannot be passed by name (C225_positional_only_refuted). core/likelihood.py 583-590: a bound method as mean model always raises TypeError, the first of its two leading arguments is left out (C225_gp_method_refuted). hyper/model.py 72-87: the first argument must have one of four names (C225_hyper_refuted).
204. core/sampler/dnest4.py _translate_kwargs: only num_steps and the seed are translated, so nlive and its other names are dropped and the default number of particles is used (C226_dnest4_refuted). ptmcmc.py: nwalkers is taken for Niter (C226_walkers_refuted). polychord.py: the sampler's own nlives dictionary is among the names of nlive (C226_nlives_refuted). nestle.py: a user's callback is replaced while verbose is true, its default (C226_nestle). nestle and ptmcmc silently drop a seed (C226_no_seed_refuted).
205. core/sampler/emcee.py 375-379: np.squeeze drops axes of length one before the shape is compared with (nwalkers, ndim), so with one parameter every array of starting points is refused (C227_one_parameter_refuted); the message of the error names the axes in the wrong order. Points of zero likelihood are kept. core/prior/dict.py 620-641: fixed parameters are not counted, so contradictory fixed masses are accepted (C227_fixed_refuted).
206. gw/detector/interferometer.py 729-761: save_data writes zeros outside the frequency limits (C228_outside).
207. core/sampler/ultranest.py 160-190: with num_live_points the callback, show_status, min_ess, max_ncalls and others are dropped without a message (C229_live_points); 216-219: run_sampler deletes dlogz, so calling it twice raises KeyError (C229_again_refuted). cpnest.py 117-129: any TypeError of the constructor first drops the user's proposals (C229_cpnest_refuted); 180-198: a dictionary of proposals is changed in place to classes, which the next run refuses (C229_reuse_refuted).
208. bilby_mcmc/sampler.py 817-824, 909: if the primary chain stops after convergence before 10 adapt_t0, the ladder is adapted for ever (C230_stopped_refuted); 740-750: nsamples is stale while the primary chain does not grow (C230_nsamples).
209. gw/detector/interferometer.py 333: polarizations that are all real arrays keep only the real part of the shifted signal, with no more than numpy's ComplexWarning (C231_real_refuted).
210. core/grid.py 101-105, 305-308: _evaluate puts np.empty in place before it asks the likelihood, so after one AttributeError a grid without likelihood returns uninitialised numbers as its log likelihood (C232_unevaluated_refuted); save_to_file moves or deletes the old file before the values are collected (C232_files, C232_never_saved); a grid that was read, or made without save, cannot be saved under a file name without outdir (C232_save_again).
211. core/result.py 963-976: the summary is a namedtuple class whose fields lower and upper are never set; the numbers are in plus and minus (C233_lower_upper_refuted).
212. gw/source.py 1288-1332: redshift is in distance_inclination but not in extrinsic; cos_tilt_1, cos_tilt_2, lambda_symmetric, comoving_distance and eccentricity are in no group, so priors.spin is False for tilts sampled by their cosines (C234_missing_refuted). gw/prior.py 845-857: with warning=True the error argument is ignored (C234_validate).
213. gw/likelihood/roq.py 893, 899-909: the array for the inverse transform ends at the last frequency of the basis, which so becomes the Nyquist frequency, where irfft drops the imaginary part of the data (C235_top_refuted); the weights of that one frequency are wrong by it.
214. core/sampler/pymc.py 415: _multivariate_normal_prior reads priors[key].mvg, which JointPrior calls dist, so every MultivariateGaussian prior raises AttributeError (C236_attribute, C236_never); with the attribute added, comp0, comp1, ... are used again for a second distribution, which PyMC refuses (C236_second_refuted), and the test value 0 or a bound less 1 is not compared with the replaced bounds (C236_test_refuted, C236_empty_refuted).
215. gw/sampler/proposal.py 41-49: PolarisationPhaseJump adds pi to the phase and pi/2 to psi. With the factor exp(2i phase) the likelihood uses, the first changes nothing and the second turns the signal into its negative, so the proposed point is not degenerate with the old one as documented (C238_sign_refuted); pi/2 for both would be.
216. gw/likelihood/base.py 119-129: adding the quantities of detectors adds their matched-filter SNRs, which is not the matched-filter SNR of the network (C239_network_refuted); the repository reads the field per detector only.
217. core/sampler/dnest4.py 102-117, 195: DNest4 has sampler_name d4nest and no abbreviation, so get_expected_outputs announces outdir/d4nest_label/ while the files go to outdir/dn4_label/ and, with the csv backend, outdir/dnest4label/ (C240_dnest4_refuted). core/sampler/dynesty.py 254, 583: with outdir '' the files are written to the root directory (C240_empty_refuted).
218. bilby_mcmc/sampler.py 299: setup_chain_set reads the resume file before it looks at resume, so a run with resume=False or clean=True and other tempering inputs, or with a damaged file, raises instead of starting afresh (C241_fresh_refuted). 407-417: a resumed run keeps the proposal cycle, evidence method and use_ratio of the file while it logs the new ones (C241_options_refuted).
219. core/prior/dict.py 487-500: a first batch with fewer than min_accept accepted draws is not added to the samples (C242_first_dropped); a chunk of one draw gives factor 1 for every constraint (C242_one_draw_refuted); the loop does not end if no draw is accepted (C242_never). 477-481: rounding to three standard deviations of the estimates can give the factor 0 (C242_zero_refuted).
