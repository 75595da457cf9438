{
 "claims": [
  {
   "property": "C01",
   "status": "proved",
   "theorems": [
    "C01_Uniform",
    "C01_PowerLaw",
    "C01_PowerLaw_zero_minimum",
    "C01_LogUniform",
    "C01_SymmetricLogUniform",
    "C01_Exponential",
    "C01_Logistic",
    "C01_Cauchy",
    "C01_FermiDirac",
    "C01_Triangular",
    "C01_densities_normalised"
   ],
   "note": "PowerLaw with minimum 0 is covered for alpha > -1 and u > 0 (the density is not Riemann integrable at 0 for alpha < 0)."
  },
  {
   "property": "C02",
   "status": "proved",
   "theorems": [
    "C02_Uniform",
    "C02_PowerLaw",
    "C02_PowerLaw_zero_minimum",
    "C02_LogUniform",
    "C02_SymmetricLogUniform",
    "C02_Triangular",
    "C02_Cosine",
    "C02_Sine",
    "C02_Exponential",
    "C02_FermiDirac"
   ],
   "note": ""
  },
  {
   "property": "C03",
   "status": "proved",
   "theorems": [
    "C03_Uniform",
    "C03_PowerLaw",
    "C03_PowerLaw_zero_minimum",
    "C03_PowerLaw_negative_refuted",
    "C03_SymmetricLogUniform",
    "C03_Exponential",
    "C03_Logistic",
    "C03_Cauchy",
    "C03_Triangular"
   ],
   "note": "FermiDirac has no cdf method; for PowerLaw the claim is for positive arguments and the failure for negative arguments is proved."
  },
  {
   "property": "C04",
   "status": "proved",
   "theorems": [
    "C04_Cosine_mass",
    "C04_Sine_mass",
    "C04_Cosine_normalised_iff",
    "C04_Sine_normalised_iff",
    "C04_Cosine_default",
    "C04_Sine_default",
    "C04_truncated_refuted"
   ],
   "note": ""
  },
  {
   "property": "C05",
   "status": "proved",
   "theorems": [
    "C05_Uniform",
    "C05_PowerLaw",
    "C05_LogUniform",
    "C05_Exponential",
    "C05_Cauchy",
    "C05_FermiDirac",
    "C05_SymmetricLogUniform_in_support",
    "C05_SymmetricLogUniform_refuted"
   ],
   "note": "Proved for Uniform, PowerLaw, LogUniform, Exponential, Cauchy, FermiDirac; the documented violation of SymmetricLogUniform is proved at every point outside its support."
  },
  {
   "property": "C06",
   "status": "proved",
   "theorems": [
    "C06_product",
    "C06_defined",
    "C06_order",
    "C06_order_unconstrained",
    "C06_ln_prob",
    "C06_prob_rows",
    "C06_ln_prob_rows",
    "C06_constraint_bypass_refuted",
    "C06_bypass_array_differs_refuted",
    "C06_order_dependent_factor_refuted"
   ],
   "note": ""
  },
  {
   "property": "C07",
   "status": "proved",
   "theorems": [
    "C07_sound",
    "C07_first_accepted",
    "C07_terminates",
    "C07_scalar",
    "C07_scalar_terminates",
    "C07_keys_unchanged_refuted"
   ],
   "note": ""
  },
  {
   "property": "C08",
   "status": "proved",
   "theorems": [
    "C08_order",
    "C08_complete",
    "C08_unresolved_iff",
    "C08_unresolved_raises",
    "C08_history",
    "C08_update_refuted"
   ],
   "note": ""
  },
  {
   "property": "C09",
   "status": "proved",
   "theorems": [
    "C09_correct",
    "C09_history",
    "C09_total",
    "C09_order_independent",
    "C09_stale_cache_refuted"
   ],
   "note": ""
  },
  {
   "property": "C10",
   "status": "proved",
   "theorems": [
    "C10_factor_fixed",
    "C10_first_use",
    "C10_no_constraint",
    "C10_follows_edits_refuted"
   ],
   "note": ""
  },
  {
   "property": "C11",
   "status": "proved",
   "theorems": [
    "C11_full",
    "C11_wrong",
    "C11_none",
    "C11_reset",
    "C11_none_uses_reference_refuted",
    "C11_partial_condition_refuted"
   ],
   "note": ""
  },
  {
   "property": "C12",
   "status": "proved",
   "theorems": [
    "C12_simplex",
    "C12_element",
    "C12_uniform"
   ],
   "note": ""
  },
  {
   "property": "C13",
   "status": "proved",
   "theorems": [
    "C13_density_normalised",
    "C13_cdf",
    "C13_rescale",
    "C13_rescale_zero",
    "C13_cdf_error",
    "C13_rescale_not_inverse_of_mass_refuted",
    "C13_even_grid_kept",
    "C13_resampled",
    "C13_uneven_grid_refuted"
   ],
   "note": ""
  },
  {
   "property": "C14",
   "status": "proved",
   "theorems": [
    "C14_rescale_law",
    "C14_spike_mass",
    "C14_rescale_monotone",
    "C14_cdf",
    "C14_stale_height_refuted",
    "C14_zero_height_prob_refuted"
   ],
   "note": ""
  },
  {
   "property": "C15",
   "status": "proved",
   "theorems": [
    "C15_reflect_range",
    "C15_reflect_identity",
    "C15_reflect_period",
    "C15_reflect_even",
    "C15_reflect_fibres",
    "C15_reflect_contraction"
   ],
   "note": ""
  },
  {
   "property": "C16",
   "status": "proved",
   "theorems": [
    "C16_kish_bounds",
    "C16_kish_equal_weights",
    "C16_kish_shift",
    "C16_kish_order",
    "C16_kish_zero_weight",
    "C16_kish_all_zero"
   ],
   "note": ""
  },
  {
   "property": "C17",
   "status": "proved",
   "theorems": [
    "C17_round_trip",
    "C17_odd_loses_sample",
    "C17_parseval",
    "C17_tone_bin",
    "C17_labels"
   ],
   "note": "Exact real arithmetic; rfft and irfft are modelled by their defining sums, not by the fast algorithm."
  },
  {
   "property": "C18",
   "status": "proved",
   "theorems": [
    "C18_time_array",
    "C18_frequency_array_even",
    "C18_frequency_array_odd",
    "C18_time_truncation",
    "C18_illegal_rejected",
    "C18_read_back"
   ],
   "note": "Exact real arithmetic; np.round is half-to-even, int() truncates. Reading back assumes values with at most 14 decimals (the rounding the code applies)."
  },
  {
   "property": "C19",
   "status": "proved",
   "theorems": [
    "C19_old_or_new",
    "C19_history",
    "C19_two_writers_refuted"
   ],
   "note": "Prefix model of the call sequence; rename within a directory is assumed atomic and writes to reach the disk in order (the code does not fsync)."
  },
  {
   "property": "C20",
   "status": "proved",
   "theorems": [
    "C20_previous_survives",
    "C20_completed_save",
    "C20_two_crashes_refuted",
    "C20_overwrite_window_refuted",
    "C20_encoder_error",
    "C20_unknown_format",
    "C20_fallback_name",
    "C20_fallback_directory_refuted"
   ],
   "note": "Same crash model as C19. The content of json/hdf5 text is abstract bytes."
  },
  {
   "property": "C21",
   "status": "proved",
   "theorems": [
    "C21_round_trip",
    "C21_identity",
    "C21_refused",
    "C21_marker",
    "C21_marker_refuted",
    "C21_nested_prior_dict",
    "C21_prior_dict_file",
    "C21_missing_class",
    "C21_missing_reference"
   ],
   "note": "json.dumps and json.loads are inverse on JSON trees; floats are abstract; an array is given by its tolist(), so dtype and empty shapes are not tracked."
  },
  {
   "property": "C22",
   "status": "proved",
   "theorems": [
    "C22_value",
    "C22_order",
    "C22_not_parameters",
    "C22_evidence",
    "C22_evidence_from_marginal",
    "C22_shift",
    "C22_evidence_bounds",
    "C22_errors",
    "C22_second_call_refuted"
   ],
   "note": "Exact real arithmetic; logs are finite, -inf or nan. Arrays are a shape and a function of the index tuple; np.apply_along_axis is applied entry by entry. Axes of length zero are excluded."
  },
  {
   "property": "C23",
   "status": "proved",
   "theorems": [
    "C23_uninterrupted",
    "C23_resumed",
    "C23_checkpoints",
    "C23_any_history",
    "C23_equal_refuted",
    "C23_stale_file_refuted"
   ],
   "note": "Finite real log values; np.savetxt is one atomic step, and the resume file belongs to a posterior with the same number of rows. The process pool is a map."
  },
  {
   "property": "C24",
   "status": "proved",
   "theorems": [
    "C24_log_mean",
    "C24_error",
    "C24_best_run_kept",
    "C24_keep_fractions",
    "C24_rows",
    "C24_mcmc_rows",
    "C24_error_positive_refuted",
    "C24_priors_checked",
    "C24_detects_refuted",
    "C24_missing_key"
   ],
   "note": "Exact real arithmetic; uniform numbers are arbitrary lists in [0,1). pandas concatenation is list concatenation; shuffle is not modelled."
  },
  {
   "property": "C25",
   "status": "proved",
   "theorems": [
    "C25_partition",
    "C25_other_fixed_refuted",
    "C25_likelihood_sees",
    "C25_short_vector"
   ],
   "note": "A prior is represented by the four facts _initialise_parameters inspects; 'bilby's prior classes' is the predicate sane. Real parameter values."
  },
  {
   "property": "C26",
   "status": "proved",
   "theorems": [
    "C26_complete_somewhere",
    "C26_permanent_files_kept",
    "C26_finished",
    "C26_restart_reads_partial_file_refuted"
   ],
   "note": "Directories as sets of files; links, subdirectory creation and MPI are not modelled."
  },
  {
   "property": "C27",
   "status": "proved",
   "theorems": [
    "C27_restored_on_return",
    "C27_sequence_of_runs",
    "C27_restored_on_error_refuted",
    "C27_no_alarm_not_restored",
    "C27_foreign_handler_fails"
   ],
   "note": "Handlers are abstract; signal.signal's refusal of None and the Windows AttributeError are read from the Python documentation."
  },
  {
   "property": "C28",
   "status": "proved",
   "theorems": [
    "C28_fixed_walk",
    "C28_moves",
    "C28_above_threshold_refuted"
   ],
   "note": "Proposals are arbitrary functions of the current point (one per step), so every random stream and live-point set is covered; exact real arithmetic, finite likelihoods."
  },
  {
   "property": "C29",
   "status": "proved",
   "theorems": [
    "C29_apply_boundaries",
    "C29_never_refused",
    "C29_mcmc_periodic",
    "C29_mcmc_reflective"
   ],
   "note": ""
  },
  {
   "property": "C30",
   "status": "proved",
   "theorems": [
    "C30_chain_is_list",
    "C30_maximum",
    "C30_samples_drop_last",
    "C30_negative_index_refuted",
    "C30_block_zero_fails",
    "C30_setitem_maximum_refuted"
   ],
   "note": "Refinement of the block-allocated array to a list, by induction over operation lists. Out-of-range negative indices and stale maximum are refuted separately."
  },
  {
   "property": "C31",
   "status": "proved",
   "theorems": [
    "C31_swap_exchanges",
    "C31_swap_rejected",
    "C31_swap_keeps_current",
    "C31_next_step_start",
    "C31_swaps_have_no_effect",
    "C31_swapped_state_used_refuted"
   ],
   "note": "Swap leaves (beta, current_sample) of every chain fixed; noninterference by induction over runs, for proposals that do not read the stored chain. The branch of _get_sample_to_swap for converged chains that stopped, and ensemble_step, are not modelled."
  },
  {
   "property": "C32",
   "status": "proved",
   "theorems": [
    "C32_detailed_balance",
    "C32_stationary",
    "C32_stationary_steps",
    "C32_never_leaves_support",
    "C32_wrong_log_factor_refuted"
   ],
   "note": "Finite state spaces; the uniform draw is integrated (Coquelicot RInt). Proposal correctness of log_factor is a hypothesis, shown necessary by a refutation."
  },
  {
   "property": "C33",
   "status": "proved",
   "theorems": [
    "C33_swap_detailed_balance",
    "C33_round_stationary",
    "C33_matches_program"
   ],
   "note": "Finite state spaces, finite log likelihoods; whole round over any ladder by induction. C31 shows the program does not carry the exchanged samples into the next step."
  },
  {
   "property": "C34",
   "status": "proved",
   "theorems": [
    "C34_component_masses_to_chirp_mass",
    "C34_component_masses_to_symmetric_mass_ratio",
    "C34_component_masses_to_mass_ratio",
    "C34_chirp_mass_and_mass_ratio",
    "C34_chirp_mass_and_mass_ratio_inverse",
    "C34_total_mass_and_mass_ratio",
    "C34_total_mass_and_mass_ratio_inverse",
    "C34_symmetric_mass_ratio_to_mass_ratio",
    "C34_symmetric_mass_ratio_domain",
    "C34_chirp_mass_and_total_mass",
    "C34_chirp_mass_unique"
   ],
   "note": ""
  },
  {
   "property": "C35",
   "status": "proved",
   "theorems": [
    "C35_mass_1_and_chirp_mass",
    "C35_chirp_mass_and_primary_mass",
    "C35_mass_2_and_chirp_mass",
    "C35_cubic_root",
    "C35_mass_2_and_chirp_mass_refuted"
   ],
   "note": ""
  },
  {
   "property": "C36",
   "status": "proved",
   "theorems": [
    "C36_tides_roundtrip",
    "C36_tides_roundtrip_back",
    "C36_tides_inverse_defined_iff",
    "C36_common_eos",
    "C36_symmetric_antisymmetric",
    "C36_symmetric_antisymmetric_back"
   ],
   "note": ""
  },
  {
   "property": "C37",
   "status": "proved",
   "theorems": [
    "C37_outcome",
    "C37_consistent",
    "C37_refuted"
   ],
   "note": "Exact real arithmetic, one sample; nan and infinities are one undefined value. Arrays act element by element."
  },
  {
   "property": "C38",
   "status": "proved",
   "theorems": [
    "C38_joint",
    "C38_history_free",
    "C38_history_refuted"
   ],
   "note": ""
  },
  {
   "property": "C39",
   "status": "proved",
   "theorems": [
    "C39_sample",
    "C39_delta_array_refuted"
   ],
   "note": ""
  },
  {
   "property": "C40",
   "status": "proved",
   "theorems": [
    "C40_quantile_monotone",
    "C40_median_is_quantile",
    "C40_interval_contains_median",
    "C40_interval_nested",
    "C40_mean_outside_refuted"
   ],
   "note": ""
  },
  {
   "property": "C41",
   "status": "proved",
   "theorems": [
    "C41_z_range",
    "C41_z_density",
    "C41_density_symmetric",
    "C41_reverse",
    "C41_log_factor"
   ],
   "note": "One ray at a time: the n-dimensional volume element enters as r^(ndim-1)."
  },
  {
   "property": "C42",
   "status": "proved",
   "theorems": [
    "C42_range",
    "C42_phase_undone",
    "C42_polarisation_undone",
    "C42_both_undone",
    "C42_quadrupole_invariant",
    "C42_jump",
    "C42_delta_phase"
   ],
   "note": "Angles are reals; sign(cos theta_jn) is an arbitrary factor. Applying prior boundaries afterwards is not part of these theorems."
  },
  {
   "property": "C43",
   "status": "proved",
   "theorems": [
    "C43_scale_bounded_below",
    "C43_direction",
    "C43_frozen"
   ],
   "note": "Exponent 0.2 as 2/10 over the reals."
  },
  {
   "property": "C44",
   "status": "proved",
   "theorems": [
    "C44_uniform_never_moves",
    "C44_documented_draw_refuted"
   ],
   "note": "Rests on numpy's isinf returning a numpy boolean, so `is False` fails; boundary folding is not applied."
  },
  {
   "property": "C45",
   "status": "proved",
   "theorems": [
    "C45_round_robin",
    "C45_full_turn"
   ],
   "note": "The random construction of the entry list is not modelled; the cycle runs over any given list."
  },
  {
   "property": "C46",
   "status": "proved",
   "theorems": [
    "C46_stepping_stone_jensen",
    "C46_stepping_stone_bounds",
    "C46_thermodynamic_bounds",
    "C46_constant_likelihood",
    "C46_exact_for_constant_refuted",
    "C46_stepping_stone_consistent",
    "C46_combined_between",
    "C46_combined_is_mean",
    "C46_combined_err_no_gain"
   ],
   "note": "Finite log likelihoods, exact reals. Bootstrap errors and plots are not modelled. Consistency of stepping stone takes the exact expectation ratios as hypothesis."
  },
  {
   "property": "C47",
   "status": "proved",
   "theorems": [
    "C47_adapted_ladder",
    "C47_equal_ratios_fixed",
    "C47_gap_direction",
    "C47_order_with_hottest_refuted",
    "C47_initial_ladder"
   ],
   "note": "Acceptance ratios are arbitrary reals (the code passes the within-chain ratio); overtaking the hottest rung is refuted by a witness with default t0 and nu."
  },
  {
   "property": "C48",
   "status": "proved",
   "theorems": [
    "C48_scalar_assignments_refresh",
    "C48_new_object",
    "C48_assigned_frequency_array",
    "C48_stale_time_array_refuted",
    "C48_stale_frequency_array_refuted",
    "C48_refused_array_kept_refuted"
   ],
   "note": "Arrays are abstract values in the positive theorems; the refutations use the real array functions."
  },
  {
   "property": "C49",
   "status": "proved",
   "theorems": [
    "C49_saved_kwargs",
    "C49_result_unchanged_refuted"
   ],
   "note": "str() is an arbitrary function of the dictionary."
  },
  {
   "property": "C50",
   "status": "proved",
   "theorems": [
    "C50_checkpoints",
    "C50_ignored_without_pool"
   ],
   "note": "Checkpoint and exit are counters; sys.exit may be caught, which is how later signals can arrive."
  },
  {
   "property": "C51",
   "status": "proved",
   "theorems": [
    "C51_keep_iff",
    "C51_largest_kept",
    "C51_scale_invariant",
    "C51_evidence",
    "C51_identity",
    "C51_constant_factor",
    "C51_two_steps"
   ],
   "note": "Exact real arithmetic, no overflow; the nested-sample variant and conversion functions are not modelled."
  },
  {
   "property": "C52",
   "status": "proved",
   "theorems": [
    "C52_original_overwritten",
    "C52_second_call",
    "C52_explicit_old",
    "C52_repeat_refuted"
   ],
   "note": "Aliasing is modelled by a heap of data frames; meta_data and priors, which are aliased in the same way, are not."
  },
  {
   "property": "C55",
   "status": "proved",
   "theorems": [
    "C55_build",
    "C55_no_accept_raises",
    "C55_serve",
    "C55_history",
    "C55_strictly_above_refuted"
   ],
   "note": "As C28. The autocorrelation time is an arbitrary natural number; the queue of a pool is one list per construction."
  },
  {
   "property": "C56",
   "status": "proved",
   "theorems": [
    "C56_answer",
    "C56_terminates",
    "C56_endless",
    "C56_short_limit"
   ],
   "note": "As C28. The random replacement is an arbitrary point of the cube."
  },
  {
   "property": "C57",
   "status": "proved",
   "theorems": [
    "C57_estimate_range",
    "C57_estimate_converges",
    "C57_estimate_stuck",
    "C57_walks"
   ],
   "note": "Exact real arithmetic; np.ceil is the least integer at or above."
  },
  {
   "property": "C53",
   "status": "proved",
   "theorems": [
    "C53_known_names",
    "C53_plain",
    "C53_alias",
    "C53_own_seed",
    "C53_npool"
   ],
   "note": "Values are arbitrary. Sampler-specific extra steps (dynesty's rstate, walks default) are not modelled."
  },
  {
   "property": "C54",
   "status": "proved",
   "theorems": [
    "C54_points",
    "C54_returns_iff",
    "C54_constraints",
    "C54_sentinel"
   ],
   "note": "Likelihood and prior are functions of the vector (a stateful likelihood is not modelled); draws are an arbitrary stream."
  },
  {
   "property": "C58",
   "status": "proved",
   "theorems": [
    "C58_matches",
    "C58_missing_raises",
    "C58_duplicates_refuted"
   ],
   "note": "Real entries compared exactly, as numpy does for finite doubles."
  },
  {
   "property": "C59",
   "status": "proved",
   "theorems": [
    "C59_complete",
    "C59_error"
   ],
   "note": "As C37."
  },
  {
   "property": "C60",
   "status": "proved",
   "theorems": [
    "C60_kept",
    "C60_source",
    "C60_comoving_refuted",
    "C60_spin_in_plane",
    "C60_spin_aligned",
    "C60_spin_magnitude",
    "C60_angle",
    "C60_phase",
    "C60_column",
    "C60_column_refuted"
   ],
   "note": "As C37; the cosmology is an arbitrary function. Value claims assume that no key other than the four masses ends in _source. When chi and its in-plane part are both zero the model stores nan; with python floats the code raises ZeroDivisionError there (239-242)."
  },
  {
   "property": "C61",
   "status": "proved",
   "theorems": [
    "C61_error",
    "C61_values",
    "C61_roundtrip"
   ],
   "note": "As C60."
  },
  {
   "property": "C62",
   "status": "proved",
   "theorems": [
    "C62_chi_eff",
    "C62_chi_p",
    "C62_aligned",
    "C62_precessing",
    "C62_error",
    "C62_azimuth"
   ],
   "note": "lalsimulation is an arbitrary function. Signed zeros are not distinguished; fmod is modelled by mod where both agree."
  },
  {
   "property": "C63",
   "status": "proved",
   "theorems": [
    "C63_evaluate",
    "C63_repeated_points",
    "C63_fixed_parameter",
    "C63_sample_points"
   ],
   "note": "The likelihood depends on the parameter values only, not on the order of the dictionary, and does not change them."
  },
  {
   "property": "C64",
   "status": "proved",
   "theorems": [
    "C64_value",
    "C64_constant",
    "C64_scalar_step",
    "C64_errors",
    "C64_decreasing_nan"
   ],
   "note": "Exact real arithmetic, no overflow."
  },
  {
   "property": "C65",
   "status": "proved",
   "theorems": [
    "C65_same_as_hook",
    "C65_idempotent",
    "C65_lists_refuted"
   ],
   "note": "Recursion is bounded by a fuel argument; the theorems hold for all sufficiently large fuel. Repeated keys in a JSON object are excluded."
  },
  {
   "property": "C66",
   "status": "proved",
   "theorems": [
    "C66_coordinatewise",
    "C66_raises",
    "C66_local",
    "C66_short_refuted"
   ],
   "note": "Priors with scalar values; joint priors return lists and are treated separately."
  },
  {
   "property": "C67",
   "status": "proved",
   "theorems": [
    "C67_plain_key",
    "C67_round_trip",
    "C67_refused",
    "C67_sorted",
    "C67_unchanged",
    "C67_losses_refuted",
    "C67_slash_refuted"
   ],
   "note": "h5py is modelled as a tree of groups and datasets with members listed by name; numbers abstract; arrays one-dimensional; bytes objects inside lists and text columns of data frames are not modelled."
  },
  {
   "property": "C68",
   "status": "proved",
   "theorems": [
    "C68_normalised",
    "C68_product_of_densities",
    "C68_sampled_sigma_wins",
    "C68_least_squares",
    "C68_best_sigma",
    "C68_independent_data",
    "C68_order_and_signs",
    "C68_zero_sigma_is_nan",
    "C68_setter"
   ],
   "note": "Exact real arithmetic. Residuals are given by data and model values; how the model function gets its arguments is not modelled."
  },
  {
   "property": "C69",
   "status": "proved",
   "theorems": [
    "C69_product_of_pmf",
    "C69_normalised",
    "C69_best_rate",
    "C69_bad_rates",
    "C69_zero_rate_refuted"
   ],
   "note": "As C68; gammaln(y+1) is the logarithm of the factorial. Rate and data arrays have equal length."
  },
  {
   "property": "C70",
   "status": "proved",
   "theorems": [
    "C70_product_of_densities",
    "C70_normalised",
    "C70_best_mean",
    "C70_bad_means"
   ],
   "note": "As C68."
  },
  {
   "property": "C71",
   "status": "proved",
   "theorems": [
    "C71_scale_equivariant",
    "C71_decreasing_in_residuals",
    "C71_even",
    "C71_raises_iff",
    "C71_cauchy"
   ],
   "note": "As C68; gammaln is an arbitrary function, for the Cauchy case with its true values at 1 and 1/2."
  },
  {
   "property": "C72",
   "status": "proved",
   "theorems": [
    "C72_pmf",
    "C72_normalised",
    "C72_best_probabilities",
    "C72_noise_is_uniform",
    "C72_wrong_length_raises",
    "C72_outside_simplex",
    "C72_outside_simplex_refuted"
   ],
   "note": "As C69. Broadcasting of length-one data is not modelled."
  },
  {
   "property": "C73",
   "status": "proved",
   "theorems": [
    "C73_originals_untouched",
    "C73_parameters",
    "C73_sum_after_updates",
    "C73_excluded_point",
    "C73_rebinding_refuted",
    "C73_setter_refuted"
   ],
   "note": "Dictionaries live in a heap; a likelihood is a reference and functions of the dictionary's content. Other attributes of a part are constant."
  },
  {
   "property": "C74",
   "status": "proved",
   "theorems": [
    "C74_Gaussian_samples",
    "C74_Truncated_samples",
    "C74_Half_samples",
    "C74_LogNormal_samples",
    "C74_Gaussian_cdf",
    "C74_Truncated_cdf",
    "C74_Half_cdf",
    "C74_LogNormal_cdf",
    "C74_erf_bijective",
    "C74_ln_prob",
    "C74_relations",
    "C74_negative_sigma_refuted"
   ],
   "note": "erf is the integral of exp(-t^2); erfinv is any function inverting it (there is exactly one, C74_erf_bijective). Scalar arguments; bounds of TruncatedGaussian: finite minimum, finite or infinite maximum."
  },
  {
   "property": "C75",
   "status": "proved",
   "theorems": [
    "C75_downsampling",
    "C75_product_of_averages",
    "C75_sampling_prior_is_neutral",
    "C75_no_support",
    "C75_zero_over_zero",
    "C75_function_prior_reused",
    "C75_evidences",
    "C75_any_sequence_of_updates",
    "C75_function_prior_refuted"
   ],
   "note": "Exact real arithmetic with inf and nan; DataFrame.sample is any choice of rows without replacement; the population density is evaluated row by row, its values given as arrays; non-negative densities. Rows are abstract; missing columns are not modelled."
  },
  {
   "property": "C76",
   "status": "proved",
   "theorems": [
    "C76_cache_is_transparent",
    "C76_uncached_is_exact",
    "C76_raises",
    "C76_cache_ignores_data",
    "C76_new_data_refuted"
   ],
   "note": "Parameter equality is any test that implies identity; probabilities are an arbitrary type with multiplication. The cache has one entry per position of the function list. Inference of argument names is not modelled."
  },
  {
   "property": "C77",
   "status": "proved",
   "theorems": [
    "C77_raises",
    "C77_terminates",
    "C77_agreement",
    "C77_derivative_nearby",
    "C77_exact_on_quadratics",
    "C77_flat_derivative_refuted"
   ],
   "note": "Exact real arithmetic, float arrays as input (an integer array would truncate the steps); fuel counts loop iterations."
  },
  {
   "property": "C78",
   "status": "proved",
   "theorems": [
    "C78_symmetric",
    "C78_second_derivative_nearby",
    "C78_exact_on_quadratics",
    "C78_parameters_left_displaced",
    "C78_positive_definite",
    "C78_last_optimisation",
    "C78_best_optimisation_refuted",
    "C78_mean_order",
    "C78_mean_order_refuted"
   ],
   "note": "Exact real arithmetic; scipy.linalg.inv, the eigenvalues, minimize and the normal draws are given. The smallest eigenvalue enters by the inequality it satisfies for symmetric matrices."
  },
  {
   "property": "C79",
   "status": "proved",
   "theorems": [
    "C79_raises",
    "C79_hermitian",
    "C79_linear",
    "C79_outside_band",
    "C79_norm",
    "C79_cauchy_schwarz",
    "C79_snr_at_most_data_norm",
    "C79_snr_of_pure_signal",
    "C79_snr_scale_invariant",
    "C79_snr_nan",
    "C79_example"
   ],
   "note": "Exact complex arithmetic (pairs of reals); numpy's stretching of length-1 arrays is not modelled; a PSD value of zero is excluded where positivity is needed."
  },
  {
   "property": "C80",
   "status": "proved",
   "theorems": [
    "C80_inner_product",
    "C80_normalised",
    "C80_self",
    "C80_bins",
    "C80_cut_offs_refuted",
    "C80_psd_from_freq_series"
   ],
   "note": "As C79; cut-offs are non-negative (python's negative slice bounds are not modelled)."
  },
  {
   "property": "C81",
   "status": "proved",
   "theorems": [
    "C81_mask",
    "C81_maximum_frequency",
    "C81_frequency_domain_strain",
    "C81_from_time_domain",
    "C81_second_data_set_refuted",
    "C81_append_refuted",
    "C81_sticky_maximum_refuted"
   ],
   "note": "Exact arithmetic; the Tukey window is any function returning as many values as asked; the number of samples is even and sampling frequency and duration have at most 14 decimals (as C18). False for a second data set: C81_second_data_set_refuted."
  },
  {
   "property": "C82",
   "status": "proved",
   "theorems": [
    "C82_time_domain",
    "C82_assigned",
    "C82_round_trip",
    "C82_time_data_replace_all",
    "C82_stale_time_data_refuted",
    "C82_window_factor"
   ],
   "note": "As C81; C82_round_trip needs the window with alpha=0 to be all ones."
  },
  {
   "property": "C83",
   "status": "proved",
   "theorems": [
    "C83_accepted",
    "C83_check_frequency",
    "C83_notch_list_refused_refuted",
    "C83_documented_order_refuted",
    "C83_psd_segment_refuted"
   ],
   "note": "Infinite notch edges are not modelled."
  },
  {
   "property": "C84",
   "status": "proved",
   "theorems": [
    "C84_injection"
   ],
   "note": "As C81; the signal is an arbitrary array (get_detector_response is not modelled)."
  },
  {
   "property": "C85",
   "status": "proved",
   "theorems": [
    "C85_cache",
    "C85_degrees",
    "C85_vertex_on_ellipsoid",
    "C85_elevation_along_normal",
    "C85_triangle_orientation",
    "C85_triangle_refuted"
   ],
   "note": "calculate_arm and detector_tensor are compiled code and stay arbitrary functions; exact arithmetic."
  },
  {
   "property": "C86",
   "status": "proved",
   "theorems": [
    "C86_queries",
    "C86_asd_squared_is_psd",
    "C86_wrong_length",
    "C86_at_nodes",
    "C86_constructor",
    "C86_frequency_array_refuted",
    "C86_noise",
    "C86_noise_after_reassignment_refuted"
   ],
   "note": "Frequencies increase (scipy sorts others); densities are non-negative where roots are taken; in-place changes of the queried array are not modelled."
  },
  {
   "property": "C87",
   "status": "proved",
   "theorems": [
    "C87_raises_iff",
    "C87_constructor",
    "C87_failed_append_refuted",
    "C87_tolerance",
    "C87_start_times_refuted",
    "C87_unset_type_error",
    "C87_insert",
    "C87_meta_data"
   ],
   "note": "A detector is reduced to its three attributes; += and item assignment, which skip the check, are not modelled."
  },
  {
   "property": "C88",
   "status": "proved",
   "theorems": [
    "C88_gaussian",
    "C88_maximum",
    "C88_detectors_add",
    "C88_basic_agrees",
    "C88_noise_cached",
    "C88_example"
   ],
   "note": "Exact arithmetic; arrays as functions of the bin index, linked to C79 by inner_nwip; an infinite density drops the bin."
  },
  {
   "property": "C89",
   "status": "proved",
   "theorems": [
    "C89_value",
    "C89_arrival",
    "C89_label_refuted",
    "C89_example"
   ],
   "note": "Antenna response and delay are those of the segment start, as in the code; step 2/sampling_frequency written as T/(n-1); positive or infinite densities in all bins."
  },
  {
   "property": "C90",
   "status": "proved",
   "theorems": [
    "C90_missing_factor",
    "C90_weights",
    "C90_four_seconds",
    "C90_refuted",
    "C90_labels",
    "C90_example"
   ],
   "note": "Neither phase nor distance marginalised; the final interpolated draw is C16's Interped and not repeated."
  },
  {
   "property": "C91",
   "status": "proved",
   "theorems": [
    "C91_mean_over_phase",
    "C91_phase_free",
    "C91_range",
    "C91_reconstruction",
    "C91_sign_refuted",
    "C91_example"
   ],
   "note": "scipy's i0e is taken at its mathematical value, the integral."
  },
  {
   "property": "C92",
   "status": "proved",
   "theorems": [
    "C92_mean_over_distance",
    "C92_reconstruction",
    "C92_weak_template_refuted",
    "C92_example"
   ],
   "note": "The spline is an arbitrary function, exact at the point by hypothesis; distances positive (a prior reaching zero makes the table nan)."
  },
  {
   "property": "C93",
   "status": "proved",
   "theorems": [
    "C93_file",
    "C93_own_file",
    "C93_dictionary_refuted",
    "C93_small_densities_refuted",
    "C93_example"
   ],
   "note": "Arrays of different lengths raise; length-one broadcasting and unreadable files are left out."
  },
  {
   "property": "C94",
   "status": "proved",
   "theorems": [
    "C94_mean_over_curves",
    "C94_time_distance_refuted",
    "C94_index_left_refuted",
    "C94_reconstruction",
    "C94_example"
   ],
   "note": "One time in range with several curves (broadcasting the other way) is left out."
  },
  {
   "property": "C95",
   "status": "proved",
   "theorems": [
    "C95_coefficients",
    "C95_nodes",
    "C95_smooth",
    "C95_cubic",
    "C95_ends",
    "C95_node_factors",
    "C95_factor",
    "C95_example"
   ],
   "note": "Exact arithmetic; np.linalg.solve returns the solution, which is shown to exist and be unique."
  },
  {
   "property": "C96",
   "status": "proved",
   "theorems": [
    "C96_complete_call",
    "C96_history",
    "C96_forgotten_refuted",
    "C96_constructor",
    "C96_example"
   ],
   "note": "Keys containing the prefix have it in front; every call passes frequencies > 0."
  },
  {
   "property": "C97",
   "status": "proved",
   "theorems": [
    "C97_curve",
    "C97_example"
   ],
   "note": "Grids compare as real lists; index values are integers (others are truncated)."
  },
  {
   "property": "C98",
   "status": "proved",
   "theorems": [
    "C98_file_round_trip",
    "C98_outside",
    "C98_parameters_refuted",
    "C98_arguments",
    "C98_models_removed",
    "C98_precomputed",
    "C98_generated",
    "C98_range_refuted",
    "C98_example"
   ],
   "note": "scipy's cubic interpolation is exact at its nodes and np.angle an argument, by hypothesis; the h5 container keeps arrays; prior sampling is an arbitrary function."
  },
  {
   "property": "C99",
   "status": "proved",
   "theorems": [
    "C99_transparent",
    "C99_start",
    "C99_grid_refuted",
    "C99_edited_refuted",
    "C99_same_model_refuted",
    "C99_array_refuted",
    "C99_example"
   ],
   "note": "Source models, conversion and Fourier transforms are arbitrary functions, failing or not; parameter values have a decidable equality (arrays as parameters, whose == raises, are left out)."
  },
  {
   "property": "C100",
   "status": "proved",
   "theorems": [
    "C100_received",
    "C100_missing",
    "C100_refused",
    "C100_arguments_refuted",
    "C100_errors",
    "C100_example"
   ],
   "note": "See C99; reassigning the source models (source_parameter_keys stay) is not modelled."
  },
  {
   "property": "C101",
   "status": "proved",
   "theorems": [
    "C101_jacobian",
    "C101_uniform_in_components"
   ],
   "note": "The hypergeometric function enters through its derivative identity, a hypothesis proved for the series on (0,1) (C102)."
  },
  {
   "property": "C102",
   "status": "proved",
   "theorems": [
    "C102_cdf_is_the_integral",
    "C102_cdf_increasing",
    "C102_cdf_not_clipped_refuted",
    "C102_rescale_law",
    "C102_equal_mass_not_inverse_refuted",
    "C102_hypergeometric_series",
    "C102_series_instance"
   ],
   "note": "The identity is proved for the Gauss series below mass ratio 1 (C102_hypergeometric_series); scipy's value at larger ratios and the cubic interpolant of rescale are hypotheses."
  },
  {
   "property": "C103",
   "status": "proved",
   "theorems": [
    "C103_aligned_spin_density",
    "C103_magnitude_given_aligned",
    "C103_magnitude_marginal_uniform",
    "C103_in_plane_given_aligned"
   ],
   "note": "The numerical integral on a grid of AlignedSpin is taken exact, from any positive lower end below |chi|."
  },
  {
   "property": "C104",
   "status": "proved",
   "theorems": [
    "C104_in_plane_normalised",
    "C104_in_plane_rescale",
    "C104_in_plane_rescale_inverse",
    "C104_in_plane_cdf_above_refuted",
    "C104_aligned_range",
    "C104_aligned_range_refuted"
   ],
   "note": "Exact arithmetic."
  },
  {
   "property": "C105",
   "status": "proved",
   "theorems": [
    "C105_chirp_mass_limits",
    "C105_minimum_component_mass",
    "C105_limits_attained"
   ],
   "note": "A prior's range is its [minimum, maximum]; masses positive."
  },
  {
   "property": "C106",
   "status": "proved",
   "theorems": [
    "C106_guarded_growth_bbh",
    "C106_guarded_growth_bns",
    "C106_existing_and_unknown",
    "C106_fixed_not_counted_refuted",
    "C106_ratios_refuted"
   ],
   "note": "Entries are sampled, fixed or constraints; the key names of the source."
  },
  {
   "property": "C107",
   "status": "proved",
   "theorems": [
    "C107_weight",
    "C107_already_flat",
    "C107_input_changed_refuted",
    "C107_second_call_refuted"
   ],
   "note": "Resampling by the weights is not repeated (C42)."
  },
  {
   "property": "C108",
   "status": "proved",
   "theorems": [
    "C108_limits",
    "C108_corresponding_prior"
   ],
   "note": "Distances zero at redshift zero and increasing, z_at_value their exact inverse, by hypothesis; the table is represented by the redshift interval it spans."
  },
  {
   "property": "C109",
   "status": "proved",
   "theorems": [
    "C109_unit_changes_limits_refuted",
    "C109_range_reversed_refuted",
    "C109_corresponding_unit_refuted"
   ],
   "note": "Same representation as C108."
  },
  {
   "property": "C110",
   "status": "proved",
   "theorems": [
    "C110_set_cosmology_ignored_refuted",
    "C110_explicit",
    "C110_dictionary_refuted",
    "C110_stored"
   ],
   "note": "Cosmology objects are abstract."
  },
  {
   "property": "C111",
   "status": "proved",
   "theorems": [
    "C111_dictionary",
    "C111_incomplete_refuted",
    "C111_error_refuted",
    "C111_shapes"
   ],
   "note": "Values are numbers or arrays of a length; the distributions' densities are arbitrary functions. Sums are in exact arithmetic, or symbolic for arrays."
  },
  {
   "property": "C112",
   "status": "proved",
   "theorems": [
    "C112_contiguous",
    "C112_order_refuted",
    "C112_between_refuted"
   ],
   "note": "One joint distribution; its rescaling is an arbitrary function."
  },
  {
   "property": "C113",
   "status": "proved",
   "theorems": [
    "C113_round",
    "C113_unfinished_refuted"
   ],
   "note": "The distribution's draws are an arbitrary function of draw number, size and name."
  },
  {
   "property": "C114",
   "status": "proved",
   "theorems": [
    "C114_one_sample",
    "C114_several",
    "C114_missed_refuted"
   ],
   "note": "Exact comparisons; the reshape of _check_samp is left out."
  },
  {
   "property": "C115",
   "status": "proved",
   "theorems": [
    "C115_covariance_given",
    "C115_correlation_given",
    "C115_roundtrip",
    "C115_sigmas_alone_refuted"
   ],
   "note": "Matrices as functions of indices; the symmetry and definiteness checks that raise are left out."
  },
  {
   "property": "C116",
   "status": "proved",
   "theorems": [
    "C116_covariance",
    "C116_repeated_refuted"
   ],
   "note": "numpy's eig by its contract (unit eigenvectors, positive eigenvalues); erfinv's standard normal law is not repeated."
  },
  {
   "property": "C117",
   "status": "proved",
   "theorems": [
    "C117_mode_probability",
    "C117_density",
    "C117_weights_refuted"
   ],
   "note": "The mode densities are arbitrary functions; logaddexp as addition of densities."
  },
  {
   "property": "C118",
   "status": "proved",
   "theorems": [
    "C118_normalised",
    "C118_one_sample",
    "C118_first_sample_refuted",
    "C118_two_samples_refuted",
    "C118_measure_refuted"
   ],
   "note": "healpy's ang2pix is an arbitrary function; the map is a table of non-negative numbers."
  },
  {
   "property": "C119",
   "status": "proved",
   "theorems": [
    "C119_pixel_probability",
    "C119_map_probability_refuted"
   ],
   "note": "Positive maps; the ends of the interval (ties of Python's round) are left open, the tie rule is lemma pyround_tie."
  },
  {
   "property": "C120",
   "status": "proved",
   "theorems": [
    "C120_terminates",
    "C120_square",
    "C120_outside_refuted",
    "C120_rows",
    "C120_single_row",
    "C120_mixed_rows_refuted",
    "C120_distance",
    "C120_redraw_refuted"
   ],
   "note": "Recursion by depth; the random numbers are an arbitrary stream."
  },
  {
   "property": "C121",
   "status": "proved",
   "theorems": [
    "C121_constant",
    "C121_used_by_spline"
   ],
   "note": "Gaussian and DeltaFunction as tags; the spline's linear solver is an arbitrary function (not used at nodes)."
  },
  {
   "property": "C122",
   "status": "proved",
   "theorems": [
    "C122_at_file_frequency",
    "C122_flat_file"
   ],
   "note": "scipy's spline is an arbitrary function that interpolates, or keeps constants, by hypothesis."
  },
  {
   "property": "C123",
   "status": "proved",
   "theorems": [
    "C123_phase_grows",
    "C123_bins"
   ],
   "note": "Exact reals; positions instead of indices into the frequency array."
  },
  {
   "property": "C124",
   "status": "proved",
   "theorems": [
    "C124_inner_products",
    "C124_constant_ratio",
    "C124_last_bin_refuted",
    "C124_linear_ratio_refuted",
    "C124_band_end_refuted"
   ],
   "note": "One detector, whose band starts at the first edge; exact reals."
  },
  {
   "property": "C125",
   "status": "proved",
   "theorems": [
    "C125_edges",
    "C125_outside",
    "C125_linear"
   ],
   "note": "One detector; the fiducial waveform is not zero at edges."
  },
  {
   "property": "C126",
   "status": "proved",
   "theorems": [
    "C126_iterations",
    "C126_worse_refuted"
   ],
   "note": "The optimiser is an arbitrary sequence of likelihood values."
  },
  {
   "property": "C127",
   "status": "proved",
   "theorems": [
    "C127_derivative",
    "C127_default_maximum",
    "C127_condition_monotone",
    "C127_search",
    "C127_bands",
    "C127_reload"
   ],
   "note": "Exact reals; loops take a number of allowed steps, shown to suffice for the bisection."
  },
  {
   "property": "C128",
   "status": "proved",
   "theorems": [
    "C128_window",
    "C128_partition",
    "C128_overlap_refuted"
   ],
   "note": "Exact reals."
  },
  {
   "property": "C129",
   "status": "proved",
   "theorems": [
    "C129_band",
    "C129_affine_band",
    "C129_exact"
   ],
   "note": "Exact reals; one detector; the linear coefficients (Fourier transforms) and the IFFT-FFT variant are not modelled."
  },
  {
   "property": "C130",
   "status": "proved",
   "theorems": [
    "C130_integers",
    "C130_monotone"
   ],
   "note": "Exact logarithm."
  },
  {
   "property": "C131",
   "status": "proved",
   "theorems": [
    "C131_in_bounds",
    "C131_cubic",
    "C131_quartic_refuted",
    "C131_nodes",
    "C131_continuous",
    "C131_array_agrees",
    "C131_wraps_refuted"
   ],
   "note": "Exact reals; real and imaginary parts are interpolated alike, one is modelled."
  },
  {
   "property": "C132",
   "status": "proved",
   "theorems": [
    "C132_resolution",
    "C132_covered",
    "C132_edge_refuted",
    "C132_time_grid"
   ],
   "note": "Exact reals; the resolution asked for (Simpson's rule over the spectrum) is arbitrary."
  },
  {
   "property": "C133",
   "status": "proved",
   "theorems": [
    "C133_linear",
    "C133_quadratic"
   ],
   "note": "numpy.fft.ifft by its defining sum; one detector; the multi-banded bases are not modelled."
  },
  {
   "property": "C134",
   "status": "proved",
   "theorems": [
    "C134_unique"
   ],
   "note": "np.unique by insertion; exact reals."
  },
  {
   "property": "C135",
   "status": "proved",
   "theorems": [
    "C135_choose",
    "C135_select_keeps",
    "C135_select_exact",
    "C135_gap_refuted",
    "C135_no_gap",
    "C135_cache",
    "C135_cache_after_error_refuted"
   ],
   "note": "Exact reals; parameter_conversion is part of the parameters."
  },
  {
   "property": "C136",
   "status": "proved",
   "theorems": [
    "C136_load",
    "C136_round_trip",
    "C136_selected_stable",
    "C136_npz",
    "C136_npz_loses_nodes_refuted",
    "C136_name",
    "C136_name_refuted"
   ],
   "note": "HDF5 groups as numbered data sets; one kind of basis at a time."
  },
  {
   "property": "C137",
   "status": "proved",
   "theorems": [
    "C137_determined",
    "C137_lambda_2_alone_refuted",
    "C137_symmetric_refuted",
    "C137_scalar_love_refuted",
    "C137_delta_alone"
   ],
   "note": "One sample; the code's dictionary may hold nan, modelled by None; cosmology arbitrary."
  },
  {
   "property": "C138",
   "status": "proved",
   "theorems": [
    "C138_none",
    "C138_both",
    "C138_lambda_1_alone",
    "C138_tilde_pair",
    "C138_tilde_alone",
    "C138_symmetric",
    "C138_eos",
    "C138_antisymmetric_alone_refuted"
   ],
   "note": "Exact reals; one sample."
  },
  {
   "property": "C139",
   "status": "proved",
   "theorems": [
    "C139_kept"
   ],
   "note": "One sample; values by look-up."
  },
  {
   "property": "C140",
   "status": "proved",
   "theorems": [
    "C140_loop",
    "C140_floats",
    "C140_broadcast_refuted"
   ],
   "note": "lalsimulation arbitrary; a nan among the inputs gives nan."
  },
  {
   "property": "C141",
   "status": "proved",
   "theorems": [
    "C141_polytrope_check",
    "C141_spectral_check",
    "C141_lambda",
    "C141_rows",
    "C141_pca",
    "C141_triangle"
   ],
   "note": "lalsimulation arbitrary; exact reals."
  },
  {
   "property": "C142",
   "status": "proved",
   "theorems": [
    "C142_values",
    "C142_reference_frequency_refuted",
    "C142_tilde",
    "C142_specific"
   ],
   "note": "Without likelihood; steps for masses, spins and source frame as modelled."
  },
  {
   "property": "C143",
   "status": "proved",
   "theorems": [
    "C143_value",
    "C143_monotone",
    "C143_equal_mass",
    "C143_equal_mass_refuted",
    "C143_negative_refuted",
    "C143_automatic"
   ],
   "note": "Normal quantile arbitrary where not stated; exact reals."
  },
  {
   "property": "C144",
   "status": "proved",
   "theorems": [
    "C144_read_printed",
    "C144_same_prior_iff",
    "C144_print_injective",
    "C144_apostrophe",
    "C144_positional",
    "C144_raw",
    "C144_bracket",
    "C144_label_refuted",
    "C144_backslash_refuted",
    "C144_comma_refuted",
    "C144_depth_refuted",
    "C144_no_arguments_refuted"
   ],
   "note": "ASCII strings; python's eval of a literal is a parameter; constructors keep their arguments."
  },
  {
   "property": "C145",
   "status": "proved",
   "theorems": [
    "C145_file",
    "C145_same_dictionary_iff",
    "C145_decoded_refuted",
    "C145_comment_refuted",
    "C145_conversion_refuted"
   ],
   "note": "ASCII strings; numeric escapes are not modelled; universal newlines are not modelled."
  },
  {
   "property": "C146",
   "status": "proved",
   "theorems": [
    "C146_dist_key",
    "C146_dist_alone",
    "C146_keys",
    "C146_joint_after_distribution",
    "C146_values",
    "C146_order",
    "C146_spaces_refuted"
   ],
   "note": "Values that are dictionaries are not modelled; reading a distribution is a parameter."
  },
  {
   "property": "C147",
   "status": "proved",
   "theorems": [
    "C147_ptemcee_samples",
    "C147_ptemcee_aligned",
    "C147_kombine_aligned",
    "C147_emcee_order",
    "C147_emcee_aligned",
    "C147_emcee_permutation",
    "C147_emcee_aligned_refuted",
    "C147_kombine_walkers",
    "C147_kombine_walkers_refuted"
   ],
   "note": "Chains and blobs as stored by the external samplers; blobs of a step are the likelihoods of its positions."
  },
  {
   "property": "C148",
   "status": "proved",
   "theorems": [
    "C148_refinement",
    "C148_resume",
    "C148_always_resumes_refuted"
   ],
   "note": "A row is everything stored for one check; the sampler object itself is external."
  },
  {
   "property": "C149",
   "status": "proved",
   "theorems": [
    "C149_stop",
    "C149_discard",
    "C149_samples",
    "C149_ignore_keys_refuted",
    "C149_no_autocorrelation",
    "C149_window",
    "C149_minimum_stable",
    "C149_stays_stable_refuted"
   ],
   "note": "Autocorrelation times and gradients are arbitrary (external); exact reals; inf and nan by None."
  },
  {
   "property": "C150",
   "status": "proved",
   "theorems": [
    "C150_bound",
    "C150_affine",
    "C150_textbook",
    "C150_short"
   ],
   "note": "One parameter; exact reals; the maximum over parameters is taken outside."
  },
  {
   "property": "C151",
   "status": "proved",
   "theorems": [
    "C151_infinite",
    "C151_exact",
    "C151_bounds",
    "C151_error_odd",
    "C151_error_even",
    "C151_error_zero_if_exact_refuted"
   ],
   "note": "Exact reals; mean log likelihoods arbitrary."
  },
  {
   "property": "C152",
   "status": "proved",
   "theorems": [
    "C152_wrap",
    "C152_periodic_proposals_refuted",
    "C152_evaluate",
    "C152_minimize",
    "C152_minimize_gives_up_refuted"
   ],
   "note": "Prior, likelihood and minimiser arbitrary."
  },
  {
   "property": "C153",
   "status": "proved",
   "theorems": [
    "C153_file_complete",
    "C153_signals",
    "C153_file_equals_chain_refuted",
    "C153_total_steps",
    "C153_burn_in",
    "C153_not_burned_in_detected_refuted"
   ],
   "note": "A kill between a step and its line in the file is not modelled."
  },
  {
   "property": "C154",
   "status": "proved",
   "theorems": [
    "C154_items",
    "C154_valid",
    "C154_distinct",
    "C154_plugin",
    "C154_case",
    "C154_listed",
    "C154_inner_prefix_refuted",
    "C154_capital_refuted"
   ],
   "note": "Entry points are a dictionary; loading one (importing its module) is not modelled."
  },
  {
   "property": "C155",
   "status": "proved",
   "theorems": [
    "C155_reused_iff",
    "C155_reused",
    "C155_sampled",
    "C155_clean_sticky",
    "C155_priors_ignored",
    "C155_other_formats",
    "C155_failure_recovered",
    "C155_unknown_format",
    "C155_same_priors_refuted"
   ],
   "note": "Stored results, meta data and their equality arbitrary; the sampler is an oracle. Plotting and exit codes not modelled."
  },
  {
   "property": "C156",
   "status": "proved",
   "theorems": [
    "C156_evidence",
    "C156_sampled",
    "C156_injection",
    "C156_injection_idempotent",
    "C156_seconds",
    "C156_seconds_days",
    "C156_number_refuted"
   ],
   "note": "Times are whole seconds; evidences integers (the laws used are those of a group)."
  },
  {
   "property": "C157",
   "status": "proved",
   "theorems": [
    "C157_any_interruption",
    "C157_as_uninterrupted",
    "C157_terminates",
    "C157_no_regress",
    "C157_maxcall_ignored",
    "C157_maxcall_refuted"
   ],
   "note": "dynesty's own iteration, the effect of adding and removing live points, and the stopping rule are arbitrary functions; only its call counter is assumed to grow."
  },
  {
   "property": "C158",
   "status": "proved",
   "theorems": [
    "C158_total",
    "C158_bounds",
    "C158_early_resumed",
    "C158_early_new"
   ],
   "note": "Clock readings are integers."
  },
  {
   "property": "C159",
   "status": "proved",
   "theorems": [
    "C159_boundaries",
    "C159_disjoint",
    "C159_live_available",
    "C159_refused",
    "C159_rwalk_dynesty",
    "C159_rwalk_dynesty_refuted",
    "C159_registry"
   ],
   "note": "dynesty's method registry is a list of overwritten names."
  },
  {
   "property": "C160",
   "status": "proved",
   "theorems": [
    "C160_weights",
    "C160_rejection",
    "C160_nonempty",
    "C160_neff",
    "C160_neff_shift",
    "C160_neff_equal"
   ],
   "note": "Draws are given; their distribution is not modelled."
  },
  {
   "property": "C161",
   "status": "proved",
   "theorems": [
    "C161_diff",
    "C161_diff_reversible",
    "C161_diff_linear",
    "C161_scale",
    "C161_live_rows",
    "C161_duplicates_live",
    "C161_current_point_removed_refuted",
    "C161_ball",
    "C161_volumetric",
    "C161_normalised"
   ],
   "note": "Draws are given; folding at the boundaries is a separate property."
  },
  {
   "property": "C162",
   "status": "proved",
   "theorems": [
    "C162_prob",
    "C162_normalised",
    "C162_last_category_refuted",
    "C162_ln_prob",
    "C162_rescale",
    "C162_drawn_supported",
    "C162_top_refuted"
   ],
   "note": "Reals, except that the rounding of n - 1 + 1e-15 to double precision is modelled; the rounding of the product in rescale is not."
  },
  {
   "property": "C163",
   "status": "proved",
   "theorems": [
    "C163_defined",
    "C163_monotone",
    "C163_broken_line",
    "C163_convex",
    "C163_linear",
    "C163_top_refuted",
    "C163_categorical_refuted"
   ],
   "note": "The density is a function of one real; scipy's interp1d and cumulative_trapezoid by their definitions."
  },
  {
   "property": "C164",
   "status": "proved",
   "theorems": [
    "C164_characterised",
    "C164_equivalence",
    "C164_reflexive",
    "C164_array_refuted",
    "C164_frozen_refuted"
   ],
   "note": "Arguments are numbers, texts, None, one-dimensional arrays, frozen distributions and priors; a text or None against an array is compared element by element, as numpy does."
  },
  {
   "property": "C165",
   "status": "proved",
   "theorems": [
    "C165_kept",
    "C165_added",
    "C165_complete",
    "C165_idempotent",
    "C165_order",
    "C165_copy",
    "C165_constraints",
    "C165_order_refuted",
    "C165_copy_refuted"
   ],
   "note": "Redundancy rule and default priors arbitrary; the set of missing keys is any duplicate-free order of it."
  },
  {
   "property": "C166",
   "status": "proved",
   "theorems": [
    "C166_range",
    "C166_ends",
    "C166_monotone",
    "C166_reflected",
    "C166_scaled",
    "C166_uniform",
    "C166_all_keys",
    "C166_integer_refuted"
   ],
   "note": "Sums exact."
  },
  {
   "property": "C167",
   "status": "proved",
   "theorems": [
    "C167_blocks",
    "C167_restart",
    "C167_progress",
    "C167_completed",
    "C167_other_block",
    "C167_switch_back_refuted",
    "C167_example"
   ],
   "note": "Drawing for a row is an arbitrary function of row and seed; a pool computes the same; the cache file is replaced atomically (C19)."
  },
  {
   "property": "C168",
   "status": "proved",
   "theorems": [
    "C168_snrs",
    "C168_sky",
    "C168_sky_range",
    "C168_sky_only_range",
    "C168_sky_refuted",
    "C168_rows_alone",
    "C168_rows_alone_refuted",
    "C168_example"
   ],
   "note": "Labels are natural numbers; pandas alignment by its documented rule."
  },
  {
   "property": "C169",
   "status": "proved",
   "theorems": [
    "C169_success",
    "C169_fixed_raises",
    "C169_distance",
    "C169_twice",
    "C169_reference",
    "C169_no_priors",
    "C169_failure_refuted",
    "C169_example"
   ],
   "note": "Priors by kind; a PriorDict is passed; lookup tables and calibration marginalisation are separate properties."
  },
  {
   "property": "C170",
   "status": "proved",
   "theorems": [
    "C170_given",
    "C170_detector_time",
    "C170_detector_frame",
    "C170_fallback_refuted",
    "C170_again",
    "C170_jitter",
    "C170_rows",
    "C170_stale_refuted",
    "C170_jitter_refuted",
    "C170_frame_text",
    "C170_frame_text_refuted",
    "C170_example"
   ],
   "note": "Conversion to the sky and delay are arbitrary functions; exact reals."
  },
  {
   "property": "C171",
   "status": "proved",
   "theorems": [
    "C171_boundaries",
    "C171_odd_place",
    "C171_refuted",
    "C171_idempotent",
    "C171_missing"
   ],
   "note": "Priors by boundary, minimum and maximum; exact reals."
  },
  {
   "property": "C172",
   "status": "proved",
   "theorems": [
    "C172_order",
    "C172_round",
    "C172_assert",
    "C172_instances",
    "C172_weights",
    "C172_length_refuted",
    "C172_redraw"
   ],
   "note": "Proposals arbitrary; numpy's choice by given draws."
  },
  {
   "property": "C173",
   "status": "proved",
   "theorems": [
    "C173_walk",
    "C173_walk_back",
    "C173_walk_equal",
    "C173_stretch",
    "C173_stretch_back",
    "C173_evolution",
    "C173_eigen",
    "C173_eigen_1d",
    "C173_norm",
    "C173_flat"
   ],
   "note": "Draws are given; no boundaries (see C171)."
  },
  {
   "property": "C174",
   "status": "proved",
   "theorems": [
    "C174_wrapper",
    "C174_names",
    "C174_error"
   ],
   "note": "Names and values of a live point as lists."
  },
  {
   "property": "C175",
   "status": "proved",
   "theorems": [
    "C175_polychord",
    "C175_multinest",
    "C175_ptmcmc",
    "C175_single_refuted",
    "C175_ultranest",
    "C175_ultranest_mask",
    "C175_nested",
    "C175_nessai"
   ],
   "note": "The files are as the samplers document them; numpy.loadtxt by its shape rule."
  },
  {
   "property": "C176",
   "status": "proved",
   "theorems": [
    "C176_move",
    "C176_error",
    "C176_box",
    "C176_uniform",
    "C176_balance_refuted",
    "C176_balance_flat"
   ],
   "note": "Random numbers are given; exact reals."
  },
  {
   "property": "C177",
   "status": "proved",
   "theorems": [
    "C177_same",
    "C177_delete_refuted",
    "C177_delete",
    "C177_time",
    "C177_killed_viz",
    "C177_killed_dump",
    "C177_killed_time_refuted",
    "C177_twice"
   ],
   "note": "Files by name and content; the sampler does not touch sampling_time.dat; copies are atomic."
  },
  {
   "property": "C178",
   "status": "proved",
   "theorems": [
    "C178_default",
    "C178_user_refuted",
    "C178_resume",
    "C178_resume_refuted",
    "C178_verbose",
    "C178_wrapped"
   ],
   "note": "Only the keywords named."
  },
  {
   "property": "C179",
   "status": "proved",
   "theorems": [
    "C179_round_trip",
    "C179_unknown",
    "C179_named",
    "C179_reader",
    "C179_others",
    "C179_old",
    "C179_old_kept",
    "C179_fallback_old_refuted",
    "C179_fallback",
    "C179_hidden_refuted",
    "C179_fallback_place",
    "C179_fallback_place_refuted",
    "C179_from_pickle_refuted"
   ],
   "note": "Contents of files are formats; pickles are written whole (C19); file names are texts."
  },
  {
   "property": "C180",
   "status": "proved",
   "theorems": [
    "C180_rows",
    "C180_no_priors",
    "C180_refused",
    "C180_refused_lengths",
    "C180_overwritten"
   ],
   "note": "No conversion function; ln_prob works row by row; distinct search keys."
  },
  {
   "property": "C181",
   "status": "proved",
   "theorems": [
    "C181_weight",
    "C181_nothing_shared",
    "C181_by_label",
    "C181_missing_label",
    "C181_same",
    "C181_compose"
   ],
   "note": "Priors are functions of their own parameter; exact reals; constraints evaluate to zero or one."
  },
  {
   "property": "C182",
   "status": "proved",
   "theorems": [
    "C182_columns",
    "C182_polar",
    "C182_complex_left_refuted",
    "C182_clash_refuted"
   ],
   "note": "The text of the file is not modelled, only its columns."
  },
  {
   "property": "C183",
   "status": "proved",
   "theorems": [
    "C183_one",
    "C183_two",
    "C183_two_refuted",
    "C183_prior_volume",
    "C183_occam",
    "C183_dimension"
   ],
   "note": "The determinant is modelled for one and two parameters."
  },
  {
   "property": "C184",
   "status": "proved",
   "theorems": [
    "C184_one",
    "C184_missing",
    "C184_many_refuted",
    "C184_cached",
    "C184_stale_refuted"
   ],
   "note": "The estimate is an arbitrary function of table and point; scipy's rule for the shape of points."
  },
  {
   "property": "C185",
   "status": "proved",
   "theorems": [
    "C185_power",
    "C185_tight",
    "C185_monotone",
    "C185_raises",
    "C185_rounded_up_refuted",
    "C185_added",
    "C185_energy",
    "C185_wraps",
    "C185_never_too_long",
    "C185_meta_time",
    "C185_matched_filter_refuted"
   ],
   "note": "lalsimulation's chirp time, the polarisations and antenna responses are given; gwpy's inject adds series on the same times; numpy's stretching of length-one arrays left out."
  },
  {
   "property": "C186",
   "status": "proved",
   "theorems": [
    "C186_bin",
    "C186_energy",
    "C186_time_energy",
    "C186_strain",
    "C186_unit_variance_refuted"
   ],
   "note": "Exact reals; the amplitude array is the root of the power array, as cached by PowerSpectralDensity."
  },
  {
   "property": "C187",
   "status": "proved",
   "theorems": [
    "C187_three",
    "C187_steps",
    "C187_closed",
    "C187_arms_refuted",
    "C187_east_refuted",
    "C187_shared"
   ],
   "note": "Exact reals; the curvature of the Earth enters only as in the code."
  },
  {
   "property": "C188",
   "status": "proved",
   "theorems": [
    "C188_skipped",
    "C188_value",
    "C188_shape",
    "C188_never_shape",
    "C188_not_implemented",
    "C188_blank_refuted"
   ],
   "note": "eval and the two constructors are arbitrary functions; lower-casing of ASCII letters."
  },
  {
   "property": "C189",
   "status": "proved",
   "theorems": [
    "C189_loads",
    "C189_boundary_refuted",
    "C189_observatory",
    "C189_one_frame",
    "C189_channel"
   ],
   "note": "lal's CacheEntry is an arbitrary parser; reading the data and the spectral density succeed."
  },
  {
   "property": "C190",
   "status": "proved",
   "theorems": [
    "C190_decides",
    "C190_fits",
    "C190_rounding_refuted",
    "C190_masses",
    "C190_no_raise_refuted",
    "C190_within",
    "C190_default_start"
   ],
   "note": "The conversion and lalsimulation's time are arbitrary functions; np.round by halves to even on reals."
  },
  {
   "property": "C191",
   "status": "proved",
   "theorems": [
    "C191_models",
    "C191_sequence_models",
    "C191_spins",
    "C191_optional",
    "C191_grid",
    "C191_modulus",
    "C191_failure",
    "C191_none"
   ],
   "note": "lalsimulation, the spin transformation and the LAL constants are arbitrary functions and numbers; arrays are lists."
  },
  {
   "property": "C192",
   "status": "proved",
   "theorems": [
    "C192_dictionary",
    "C192_stray",
    "C192_used",
    "C192_default",
    "C192_stray_sequence"
   ],
   "note": "Which names lalsimulation has an insertion function for is an arbitrary predicate; LAL dictionaries are association lists."
  },
  {
   "property": "C193",
   "status": "proved",
   "theorems": [
    "C193_fiducial_bbh",
    "C193_fiducial_bns_refuted",
    "C193_binned",
    "C193_consistent"
   ],
   "note": "lalsimulation is arbitrary; its two interfaces agree only in C193_consistent, where this is a hypothesis."
  },
  {
   "property": "C194",
   "status": "proved",
   "theorems": [
    "C194_unique",
    "C194_nodes",
    "C194_precomputed",
    "C194_caught_refuted"
   ],
   "note": "np.unique by insertion; lalsimulation is arbitrary."
  },
  {
   "property": "C195",
   "status": "proved",
   "theorems": [
    "C195_energy",
    "C195_reflect",
    "C195_shape",
    "C195_scale",
    "C195_refused",
    "C195_peak_refuted"
   ],
   "note": "Exact reals; one frequency at a time."
  },
  {
   "property": "C196",
   "status": "proved",
   "theorems": [
    "C196_scale",
    "C196_length",
    "C196_zero",
    "C196_kpc_refuted",
    "C196_unit",
    "C196_linear",
    "C196_component"
   ],
   "note": "The numbers of the file are given; the file reading is not modelled."
  },
  {
   "property": "C197",
   "status": "proved",
   "theorems": [
    "C197_unflagged",
    "C197_built",
    "C197_nodes",
    "C197_low",
    "C197_monotone_refuted",
    "C197_leading",
    "C197_warned",
    "C197_causal",
    "C197_causal_refuted"
   ],
   "note": "scipy's splines are arbitrary functions that pass through their nodes (two nodes: a line, for the sound speed); exact reals."
  },
  {
   "property": "C198",
   "status": "proved",
   "theorems": [
    "C198_law",
    "C198_unique",
    "C198_increasing",
    "C198_polytrope",
    "C198_xmax",
    "C198_range",
    "C198_shortened_refuted",
    "C198_warned"
   ],
   "note": "Exact integrals for scipy's quadrature; exact reals."
  },
  {
   "property": "C199",
   "status": "proved",
   "theorems": [
    "C199_kept",
    "C199_rising",
    "C199_overlap_refuted",
    "C199_table",
    "C199_family",
    "C199_lambda",
    "C199_equal_refuted",
    "C199_wrap_refuted"
   ],
   "note": "The integrator, the maximum of the parabola and the spline (through its nodes) are arbitrary; exact reals."
  },
  {
   "property": "C200",
   "status": "proved",
   "theorems": [
    "C200_tov",
    "C200_outwards",
    "C200_riccati",
    "C200_start",
    "C200_centre",
    "C200_k2",
    "C200_newtonian"
   ],
   "note": "The right-hand side, the start and the final formula; the ODE solver itself is not modelled."
  },
  {
   "property": "C201",
   "status": "proved",
   "theorems": [
    "C201_rows",
    "C201_infinite",
    "C201_sources",
    "C201_discard",
    "C201_discard_refuted",
    "C201_setters",
    "C201_stale_refuted",
    "C201_settled"
   ],
   "note": "emcee's estimate is an arbitrary function; reals for floats; the number of columns is that of the first point."
  },
  {
   "property": "C202",
   "status": "proved",
   "theorems": [
    "C202_tau",
    "C202_floor",
    "C202_thin",
    "C202_count",
    "C202_rows",
    "C202_count_refuted",
    "C202_overflow_refuted",
    "C202_lookup"
   ],
   "note": "emcee's estimate is an arbitrary function; hypotheses: fixed_discard >= 0 and positive autocorr_c, thin_by_nact and min_tau."
  },
  {
   "property": "C203",
   "status": "proved",
   "theorems": [
    "C203_ladder",
    "C203_places",
    "C203_pool",
    "C203_columns",
    "C203_lists",
    "C203_count",
    "C203_no_zero_refuted",
    "C203_snr_refuted",
    "C203_count_refuted"
   ],
   "note": "The inside of a sampler is an arbitrary type; counts and samples of a sampler are arbitrary functions."
  },
  {
   "property": "C204",
   "status": "proved",
   "theorems": [
    "C204_keep",
    "C204_one",
    "C204_view",
    "C204_again_refuted",
    "C204_bias_refuted"
   ],
   "note": "The shared memory is a parameter of the model (true for pandas before version 3)."
  },
  {
   "property": "C205",
   "status": "proved",
   "theorems": [
    "C205_stop",
    "C205_no_print_refuted",
    "C205_print_stops",
    "C205_percentage_refuted",
    "C205_maximum",
    "C205_maximum_refuted",
    "C205_percentage"
   ],
   "note": "The counts per round and the times of printing are arbitrary; the optimiser is taken to find a global minimum."
  },
  {
   "property": "C206",
   "status": "proved",
   "theorems": [
    "C206_reverse",
    "C206_reverse_de",
    "C206_reverse_de_refuted",
    "C206_independent",
    "C206_parameters",
    "C206_frame",
    "C206_jump_refuted",
    "C206_inside",
    "C206_outside_refuted",
    "C206_steps",
    "C206_adaptive_steps"
   ],
   "note": "Random numbers are arbitrary arguments; reals for floats; KeyError and ZeroDivisionError are None."
  },
  {
   "property": "C207",
   "status": "proved",
   "theorems": [
    "C207_schedule",
    "C207_retry",
    "C207_trained",
    "C207_verified",
    "C207_unverified_refuted",
    "C207_gmm",
    "C207_one_parameter",
    "C207_one_parameter_refuted",
    "C207_kde_refuted",
    "C207_fallback"
   ],
   "note": "The fitted density is an arbitrary type; an attempt raises in the fit, after it, or completes with the result of the comparison; exact standard deviations."
  },
  {
   "property": "C208",
   "status": "proved",
   "theorems": [
    "C208_sequential",
    "C208_single",
    "C208_one_each",
    "C208_support",
    "C208_rule"
   ],
   "note": "Log likelihood and log prior are arbitrary functions into the reals with -infinity; the draws of partner, z and u are arguments."
  },
  {
   "property": "C209",
   "status": "proved",
   "theorems": [
    "C209_remove",
    "C209_separator_refuted",
    "C209_default",
    "C209_gwA",
    "C209_gwA_refuted",
    "C209_gwA_reach",
    "C209_reach_refuted",
    "C209_length",
    "C209_empty_refuted",
    "C209_phase",
    "C209_phase_refuted",
    "C209_tags",
    "C209_default_weights",
    "C209_polarisation",
    "C209_reversal"
   ],
   "note": "The list of requested proposals and weights; the questions to the priors are flags or membership tests; shuffling of the cycle is not modelled."
  },
  {
   "property": "C210",
   "status": "proved",
   "theorems": [
    "C210_gaussian",
    "C210_others",
    "C210_constant",
    "C210_default_range",
    "C210_powerlaw_refuted",
    "C210_beta_refuted",
    "C210_names"
   ],
   "note": "PyMC's distributions are their documented densities; gammaln is an arbitrary function; tensors are reals; multivariate priors are not modelled."
  },
  {
   "property": "C211",
   "status": "proved",
   "theorems": [
    "C211_gaussian",
    "C211_poisson",
    "C211_exponential",
    "C211_student",
    "C211_keys",
    "C211_sampled_refuted",
    "C211_poisson_refuted",
    "C211_kwargs_refuted",
    "C211_poisson_zero"
   ],
   "note": "PyMC's distributions are their documented densities; the function of the likelihood is arbitrary on dictionaries."
  },
  {
   "property": "C212",
   "status": "proved",
   "theorems": [
    "C212_steps",
    "C212_single",
    "C212_nuts_refuted",
    "C212_given"
   ],
   "note": "Arguments are an arbitrary type; PyMC itself is not modelled."
  },
  {
   "property": "C213",
   "status": "proved",
   "theorems": [
    "C213_thermodynamic_odd",
    "C213_thermodynamic_even",
    "C213_two_chains_refuted",
    "C213_window",
    "C213_rows",
    "C213_columns",
    "C213_nan",
    "C213_bootstrap",
    "C213_last_row_unused",
    "C213_bounds",
    "C213_ensembles",
    "C213_scale_refuted",
    "C213_stored"
   ],
   "note": "Log likelihoods, burn-ins and tau are given; the random integers are arbitrary in their ranges; exact reals."
  },
  {
   "property": "C214",
   "status": "proved",
   "theorems": [
    "C214_data",
    "C214_binaries",
    "C214_fails",
    "C214_undetermined_refuted",
    "C214_two_files",
    "C214_length_refuted",
    "C214_given",
    "C214_unchecked",
    "C214_nodes"
   ],
   "note": "Files are what they say of their band and length; prior limits as in C105; exact reals."
  },
  {
   "property": "C215",
   "status": "proved",
   "theorems": [
    "C215_waveform",
    "C215_answered",
    "C215_errors",
    "C215_none",
    "C215_refused",
    "C215_start",
    "C215_start_bounds",
    "C215_stray_refuted",
    "C215_dropped_refuted",
    "C215_defaults",
    "C215_accepted"
   ],
   "note": "The generator, its domain and the spin transform are arbitrary; exact complex numbers; units as the names say."
  },
  {
   "property": "C216",
   "status": "proved",
   "theorems": [
    "C216_few",
    "C216_agree",
    "C216_levels",
    "C216_lenient",
    "C216_unknown",
    "C216_nested",
    "C216_nan_refuted",
    "C216_mcmc",
    "C216_other",
    "C216_error",
    "C216_evidence_refuted"
   ],
   "note": "Log evidences, errors and noise evidences are finite or nan; results are records, rows and priors of any type; exact reals."
  },
  {
   "property": "C217",
   "status": "proved",
   "theorems": [
    "C217_bounds",
    "C217_tuple_bounds_refuted",
    "C217_added",
    "C217_accepted",
    "C217_modes",
    "C217_single",
    "C217_several",
    "C217_refused",
    "C217_means_refuted",
    "C217_symmetry_refuted",
    "C217_failure_refuted",
    "C217_elements",
    "C217_ragged"
   ],
   "note": "Names, bounds and matrices are lists of reals; the eigenvalues and scipy's acceptance of a matrix are arbitrary functions of it; exact reals."
  },
  {
   "property": "C218",
   "status": "proved",
   "theorems": [
    "C218_points",
    "C218_waveform",
    "C218_coefficient",
    "C218_inner",
    "C218_single",
    "C218_leak_refuted"
   ],
   "note": "Discrete Fourier transforms are exact sums over complex numbers; the bands are given."
  },
  {
   "property": "C219",
   "status": "proved",
   "theorems": [
    "C219_restore",
    "C219_own_order",
    "C219_file_order",
    "C219_order_refuted",
    "C219_defaults",
    "C219_taper_refuted",
    "C219_buffers",
    "C219_without_prior",
    "C219_no_mass"
   ],
   "note": "Attributes are a dictionary of numbers, booleans and arrays of any type; files return the members in some order."
  },
  {
   "property": "C220",
   "status": "proved",
   "theorems": [
    "C220_band",
    "C220_full_length",
    "C220_below_nyquist",
    "C220_positive",
    "C220_unshortened"
   ],
   "note": "Discrete Fourier transforms are exact sums; the bands are given, with 0 < Ks <= Ke < M/2 and N a multiple of M, which _setup_integers gives."
  },
  {
   "property": "C221",
   "status": "proved",
   "theorems": [
    "C221_emcee",
    "C221_zeus",
    "C221_kombine",
    "C221_user",
    "C221_burn_in",
    "C221_negative_refuted",
    "C221_numpy_refuted",
    "C221_estimate",
    "C221_empty_refuted",
    "C221_resumed",
    "C221_auto_burnin",
    "C221_auto_burnin_resumed_refuted",
    "C221_kombine_walkers",
    "C221_zeus_user"
   ],
   "note": "Argument values are an arbitrary type; the samplers themselves and the autocorrelation estimate are given; the version of emcee is a flag."
  },
  {
   "property": "C222",
   "status": "proved",
   "theorems": [
    "C222_one",
    "C222_noise",
    "C222_zero_noise",
    "C222_no_power",
    "C222_two",
    "C222_signal",
    "C222_network",
    "C222_interrupted_refuted",
    "C222_window_refuted"
   ],
   "note": "Antenna responses and waveform generators are arbitrary functions, possibly failing; complex and real numbers are exact; matched filter of a powerless signal is nan."
  },
  {
   "property": "C223",
   "status": "proved",
   "theorems": [
    "C223_values",
    "C223_whitened",
    "C223_time",
    "C223_scale",
    "C223_odd_refuted"
   ],
   "note": "The draws are arbitrary numbers; the curve is an interpolated function, 0 outside its range as get_noise_realisation makes it; exact reals."
  },
  {
   "property": "C224",
   "status": "proved",
   "theorems": [
    "C224_bounds",
    "C224_internal",
    "C224_converges",
    "C224_fixed",
    "C224_failure",
    "C224_rebuild",
    "C224_few_live_points_refuted"
   ],
   "note": "Acceptances and rejections per call are arbitrary; numbers are exact reals."
  },
  {
   "property": "C225",
   "status": "proved",
   "theorems": [
    "C225_accepted",
    "C225_values",
    "C225_sampled",
    "C225_method",
    "C225_other",
    "C225_conditions",
    "C225_gp_function",
    "C225_gp_method_refuted",
    "C225_hyper_refuted",
    "C225_hyper",
    "C225_keyword_only_refuted",
    "C225_positional_only_refuted"
   ],
   "note": "Python's binding of arguments to a signature is modelled from the language reference; values are an arbitrary type; functions are known by their signatures."
  },
  {
   "property": "C226",
   "status": "proved",
   "theorems": [
    "C226_live_points",
    "C226_seed",
    "C226_others",
    "C226_dnest4_steps",
    "C226_dnest4_refuted",
    "C226_no_seed_refuted",
    "C226_walkers_refuted",
    "C226_nlives_refuted",
    "C226_nestle",
    "C226_polychord",
    "C226_ptmcmc",
    "C226_nessai_pool",
    "C226_nessai_config"
   ],
   "note": "Values are an arbitrary type with a truth value; the contents of nessai's configuration file are an oracle."
  },
  {
   "property": "C227",
   "status": "proved",
   "theorems": [
    "C227_draws",
    "C227_redundant",
    "C227_verified",
    "C227_fixed_refuted",
    "C227_array",
    "C227_one_parameter_refuted",
    "C227_frame",
    "C227_by_name",
    "C227_ptemcee"
   ],
   "note": "Arrays are a shape and the elements in row order; elements are an arbitrary type."
  },
  {
   "property": "C228",
   "status": "proved",
   "theorems": [
    "C228_same",
    "C228_inject",
    "C228_outside",
    "C228_early_refuted"
   ],
   "note": "Interpolation of the curve is any function exact at its own points; the text holds every number exactly (savetxt writes 18 digits after the point); the rounding of the duration recovered from the frequencies is left out."
  },
  {
   "property": "C229",
   "status": "proved",
   "theorems": [
    "C229_reactive",
    "C229_live_points",
    "C229_again_refuted",
    "C229_nessai",
    "C229_cpnest",
    "C229_cpnest_refuted",
    "C229_proposals",
    "C229_reuse_refuted",
    "C229_reuse",
    "C229_fake",
    "C229_one_call"
   ],
   "note": "Values are an arbitrary type with a test for None; the constructor of cpnest is known by the settings it takes; whether a row of the posterior is a view that the fake sampler changes is left out."
  },
  {
   "property": "C230",
   "status": "proved",
   "theorems": [
    "C230_schedule",
    "C230_counters",
    "C230_apart",
    "C230_adapt",
    "C230_stopped_refuted",
    "C230_nsamples",
    "C230_count",
    "C230_last_adapted",
    "C230_off",
    "C230_stops"
   ],
   "note": "Positions of the primary chain are an arbitrary (for the schedule nondecreasing) list; what the steps, moves and swaps do to the chains is in C31, C33, C203 and C207; L2steps is at least 1."
  },
  {
   "property": "C231",
   "status": "proved",
   "theorems": [
    "C231_value",
    "C231_given",
    "C231_time",
    "C231_linear",
    "C231_modes",
    "C231_real_refuted"
   ],
   "note": "Antenna patterns, time delay and calibration factor are arbitrary functions; exact complex numbers; arrays of length 1, which numpy stretches, are left out."
  },
  {
   "property": "C232",
   "status": "proved",
   "theorems": [
    "C232_round_trip",
    "C232_saved_by_constructor",
    "C232_files",
    "C232_save_again",
    "C232_unevaluated_refuted",
    "C232_never_saved",
    "C232_read_errors",
    "C232_evaluated",
    "C232_kept",
    "C232_name"
   ],
   "note": "Values of prior and likelihood on the points are arbitrary functions (their computation is C63); decoding of priors is assumed to invert the encoding where the theorem says so; array elements survive json exactly."
  },
  {
   "property": "C233",
   "status": "proved",
   "theorems": [
    "C233_value",
    "C233_errors",
    "C233_lower_upper_refuted",
    "C233_order",
    "C233_units",
    "C233_swapped_refuted"
   ],
   "note": "np.percentile is linear interpolation of the sorted samples (Samples_Model.quantile, C40); formatting is an arbitrary function; exact reals."
  },
  {
   "property": "C234",
   "status": "proved",
   "theorems": [
    "C234_value",
    "C234_implications",
    "C234_missing_refuted",
    "C234_members",
    "C234_validate",
    "C234_more_draws"
   ],
   "note": "Prior dictionaries by the kind of each entry; the times to merger of the draws are given numbers without nan."
  },
  {
   "property": "C235",
   "status": "proved",
   "theorems": [
    "C235_quadratic_weights",
    "C235_data",
    "C235_inner",
    "C235_single",
    "C235_top_refuted",
    "C235_beyond",
    "C235_quadratic"
   ],
   "note": "Exact complex numbers; the duration of the data is taken to be a whole number of band durations and the numbers of samples int(2 fhigh Tb) to divide that of the data, as in the bases; file format and choice of basis elements left out (C49)."
  },
  {
   "property": "C236",
   "status": "proved",
   "theorems": [
    "C236_attribute",
    "C236_never",
    "C236_one",
    "C236_second_refuted",
    "C236_bounds",
    "C236_test",
    "C236_test_refuted",
    "C236_empty_refuted"
   ],
   "note": "PyMC itself is a set of named variables that refuses a name used twice; exact reals."
  },
  {
   "property": "C237",
   "status": "proved",
   "theorems": [
    "C237_probability",
    "C237_total",
    "C237_fails",
    "C237_share",
    "C237_jitter",
    "C237_phase"
   ],
   "note": "Exact reals (no underflow); the distance-marginalised likelihood, ln I0 and the prior are arbitrary functions, the prior not negative and zero outside its range; calibration marginalisation left out; the choice of the random generator is by the probabilities given."
  },
  {
   "property": "C238",
   "status": "proved",
   "theorems": [
    "C238_correlated",
    "C238_back",
    "C238_twice",
    "C238_sign_refuted",
    "C238_face_on",
    "C238_sky",
    "C238_missing"
   ],
   "note": "Exact reals; random numbers are arguments; the signal is that of a dominant quadrupole: combinations of cos and sin of 2 psi times combinations of cos and sin of 2 phase."
  },
  {
   "property": "C239",
   "status": "proved",
   "theorems": [
    "C239_total",
    "C239_order",
    "C239_lengths",
    "C239_likelihood",
    "C239_network_refuted"
   ],
   "note": "Exact numbers; the inner products of a detector are given (C40), arrays are one-dimensional; a detector without any signal in its band is left out, where the code divides by zero."
  },
  {
   "property": "C240",
   "status": "proved",
   "theorems": [
    "C240_covered",
    "C240_dnest4_refuted",
    "C240_empty_refuted",
    "C240_distinct"
   ],
   "note": "Paths are compared by the names between slashes; settings that name another directory, links, the names . and .., and files of plots are left out."
  },
  {
   "property": "C241",
   "status": "proved",
   "theorems": [
    "C241_resumed",
    "C241_setup",
    "C241_fresh_refuted",
    "C241_spacing",
    "C241_killed",
    "C241_unpicklable",
    "C241_options_refuted"
   ],
   "note": "Chains, inputs and options are arbitrary values; dill restores what it saved; clock in whole ticks which may run at any speed, the modification time of the file taken from the same clock; kills during a write are C19."
  },
  {
   "property": "C242",
   "status": "proved",
   "theorems": [
    "C242_value",
    "C242_ends",
    "C242_never",
    "C242_first_dropped",
    "C242_unconstrained",
    "C242_one_draw_refuted",
    "C242_rounded",
    "C242_agree",
    "C242_zero_refuted"
   ],
   "note": "Draws by whether they satisfy the constraints; exact reals; np.round is some multiple of the last digit at most half of it away."
  }
 ]
}