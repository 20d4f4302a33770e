{
 "claims": [
  {
   "property": "C01",
   "status": "proved",
   "theorems": [
    "C01_threads_terminate",
    "C01_while_iterations"
   ],
   "note": "Fuel of one unit per point never runs out; more fuel changes nothing."
  },
  {
   "property": "C02",
   "status": "proved",
   "theorems": [
    "C02_threads_canonical",
    "C02_canonical_unique"
   ],
   "note": "Existence and uniqueness of the canonical decomposition."
  },
  {
   "property": "C03",
   "status": "proved",
   "theorems": [
    "C03_nlive_counts_live_points",
    "C03_nlive_distinct"
   ],
   "note": ""
  },
  {
   "property": "C04",
   "status": "proved",
   "theorems": [
    "C04_processing"
   ],
   "note": ""
  },
  {
   "property": "C05",
   "status": "proved",
   "theorems": [
    "C05_births_on_contours"
   ],
   "note": ""
  },
  {
   "property": "C06",
   "status": "proved",
   "theorems": [
    "C06_ties_resolved"
   ],
   "note": "Allocation is before death except for a point born on its own unique contour; both side conditions shown necessary by examples."
  },
  {
   "property": "C07",
   "status": "proved",
   "theorems": [
    "C07_sample_less_than_condition"
   ],
   "note": ""
  },
  {
   "property": "C08",
   "status": "proved",
   "theorems": [
    "C08_birth_inds",
    "C08_threads",
    "C08_process_samples_array",
    "C08_process_multinest_run",
    "C08_process_polychord_run"
   ],
   "note": ""
  },
  {
   "property": "C09",
   "status": "proved",
   "theorems": [
    "C09_birth_inds",
    "C09_process_samples_array",
    "C09_failed_call_keeps_state_refuted"
   ],
   "note": "Records a defect: the state is lost when the function raises (witness in the _refuted theorem)."
  },
  {
   "property": "C10",
   "status": "proved",
   "theorems": [
    "C10_dead_birth_array",
    "C10_distinct"
   ],
   "note": ""
  },
  {
   "property": "C11",
   "status": "proved",
   "theorems": [
    "C11_reprocessing"
   ],
   "note": ""
  },
  {
   "property": "C12",
   "status": "proved",
   "theorems": [
    "C12_multinest",
    "C12_any_lines"
   ],
   "note": ""
  },
  {
   "property": "C13",
   "status": "proved",
   "theorems": [
    "C13_dynesty_static",
    "C13_rejects",
    "C13_lengths"
   ],
   "note": ""
  },
  {
   "property": "C14",
   "status": "proved",
   "theorems": [
    "C14_no_samples_n_raises",
    "C14_rejects",
    "C14_samples_n_length",
    "C14_no_batch",
    "C14_samples_n"
   ],
   "note": "Records a defect: dynamic results without samples_n cannot be processed."
  },
  {
   "property": "C15",
   "status": "proved",
   "theorems": [
    "C15_batch_order",
    "C15_polychord"
   ],
   "note": ""
  },
  {
   "property": "C16",
   "status": "proved",
   "theorems": [
    "C16_batch_roots",
    "C16_batch_report",
    "C16_batch_unhandled"
   ],
   "note": ""
  },
  {
   "property": "C17",
   "status": "proved",
   "theorems": [
    "C17_repeated_roots_refuted",
    "C17_repeated_roots"
   ],
   "note": "Records a defect: the order of the list is not kept (witness in the _refuted theorem)."
  },
  {
   "property": "C18",
   "status": "proved",
   "theorems": [
    "C18_split_join"
   ],
   "note": ""
  },
  {
   "property": "C19",
   "status": "proved",
   "theorems": [
    "C19_refuted",
    "C19_starts_on_lowest"
   ],
   "note": "Records a defect: threads starting on the lowest logl (witness in the _refuted theorem)."
  },
  {
   "property": "C20",
   "status": "proved",
   "theorems": [
    "C20_combine_ns_runs"
   ],
   "note": ""
  },
  {
   "property": "C21",
   "status": "proved",
   "theorems": [
    "C21_combined_valid"
   ],
   "note": ""
  },
  {
   "property": "C22",
   "status": "proved",
   "theorems": [
    "C22_output"
   ],
   "note": ""
  },
  {
   "property": "C23",
   "status": "proved",
   "theorems": [
    "C23_combine_threads"
   ],
   "note": ""
  },
  {
   "property": "C24",
   "status": "proved",
   "theorems": [
    "C24_nlive_positive",
    "C24_dynesty"
   ],
   "note": ""
  },
  {
   "property": "C25",
   "status": "proved",
   "theorems": [
    "C25_bootstrap_static",
    "C25_every_choice"
   ],
   "note": ""
  },
  {
   "property": "C26",
   "status": "proved",
   "theorems": [
    "C26_bootstrap_seeded",
    "C26_bootstrap_values"
   ],
   "note": ""
  },
  {
   "property": "C27",
   "status": "proved",
   "theorems": [
    "C27_ninit_sep",
    "C27_no_ninit"
   ],
   "note": ""
  },
  {
   "property": "C28",
   "status": "proved",
   "theorems": [
    "C28_settings_rejected"
   ],
   "note": "Records a defect: settings are needed by ninit_sep and rejected by the checks."
  },
  {
   "property": "C29",
   "status": "proved",
   "theorems": [
    "C29_get_logx"
   ],
   "note": ""
  },
  {
   "property": "C30",
   "status": "proved",
   "theorems": [
    "C30_weights_partition_prior"
   ],
   "note": ""
  },
  {
   "property": "C31",
   "status": "proved",
   "theorems": [
    "C31_trapezium_rule"
   ],
   "note": ""
  },
  {
   "property": "C32",
   "status": "proved",
   "theorems": [
    "C32_evidence_bounds",
    "C32_shift"
   ],
   "note": ""
  },
  {
   "property": "C33",
   "status": "proved",
   "theorems": [
    "C33_relative_weights",
    "C33_estimators_unnormalised"
   ],
   "note": ""
  },
  {
   "property": "C34",
   "status": "proved",
   "theorems": [
    "C34_posterior_means",
    "C34_mean_affine",
    "C34_param_ind_out_of_range"
   ],
   "note": ""
  },
  {
   "property": "C35",
   "status": "proved",
   "theorems": [
    "C35_weighted_quantile",
    "C35_quantile_affine",
    "C35_quantile_rejects"
   ],
   "note": ""
  },
  {
   "property": "C36",
   "status": "proved",
   "theorems": [
    "C36_median"
   ],
   "note": ""
  },
  {
   "property": "C37",
   "status": "proved",
   "theorems": [
    "C37_run_estimators"
   ],
   "note": ""
  },
  {
   "property": "C38",
   "status": "proved",
   "theorems": [
    "C38_flip_skew",
    "C38_std_unchanged",
    "C38_std_bootstrap"
   ],
   "note": ""
  },
  {
   "property": "C39",
   "status": "proved",
   "theorems": [
    "C39_one_thread"
   ],
   "note": ""
  },
  {
   "property": "C40",
   "status": "proved",
   "theorems": [
    "C40_ci_bootstrap",
    "C40_no_replications"
   ],
   "note": ""
  },
  {
   "property": "C41",
   "status": "proved",
   "theorems": [
    "C41_implementation_std",
    "C41_uncertainties"
   ],
   "note": ""
  },
  {
   "property": "C42",
   "status": "proved",
   "theorems": [
    "C42_pairwise"
   ],
   "note": ""
  },
  {
   "property": "C43",
   "status": "proved",
   "theorems": [
    "C43_schedule_free",
    "C43_schedule_success",
    "C43_summary_ok"
   ],
   "note": ""
  },
  {
   "property": "C44",
   "status": "proved",
   "theorems": [
    "C44_thread_values_schedule_refuted",
    "C44_thread_values"
   ],
   "note": "Records a defect: success depends on the schedule (witness in the _refuted theorem)."
  },
  {
   "property": "C45",
   "status": "proved",
   "theorems": [
    "C45_chunksize",
    "C45_warning",
    "C45_parallel_map",
    "C45_parallel_apply"
   ],
   "note": ""
  },
  {
   "property": "C46",
   "status": "proved",
   "theorems": [
    "C46_save_load",
    "C46_saves",
    "C46_other_files",
    "C46_computes_once",
    "C46_directory",
    "C46_missing"
   ],
   "note": "For any pickler meeting the laws in its record (what was dumped is loaded again; a proper prefix does not load)."
  },
  {
   "property": "C47",
   "status": "proved",
   "theorems": [
    "C47_requested_kept",
    "C47_unique_times",
    "C47_refuted"
   ],
   "note": "Records a defect: the time-stamped name can be taken already (witness in the _refuted theorem)."
  },
  {
   "property": "C48",
   "status": "proved",
   "theorems": [
    "C48_crash",
    "C48_before_open",
    "C48_poisoned",
    "C48_refuted",
    "C48_unpicklable"
   ],
   "note": "Records a defect: a crash leaves a file which poisons the cache (witness in the _refuted theorem)."
  },
  {
   "property": "C49",
   "status": "proved",
   "theorems": [
    "C49_no_error",
    "C49_decorated",
    "C49_makedirs",
    "C49_other_errors"
   ],
   "note": "Proved for the errors pickle_save catches; the directory creation is outside its try block (theorem)."
  },
  {
   "property": "C50",
   "status": "proved",
   "theorems": [
    "C50_read",
    "C50_written",
    "C50_round_trip",
    "C50_refuted",
    "C50_defaults",
    "C50_any_file",
    "C50_only",
    "C50_errors",
    "C50_cut",
    "C50_cut_parameters",
    "C50_layout"
   ],
   "note": "For any printer and reader of floats meeting the laws in the record floats (read recovers what was printed)."
  },
  {
   "property": "C51",
   "status": "proved",
   "theorems": [
    "C51_domain",
    "C51_names",
    "C51_refuted",
    "C51_of_partial_function",
    "C51_text",
    "C51_symbols"
   ],
   "note": "probability*100 is exact in the model; names of close probabilities coincide (witness)."
  },
  {
   "property": "C52",
   "status": "proved",
   "theorems": [
    "C52_row",
    "C52_samples_array",
    "C52_nan_refuted"
   ],
   "note": "Also shown: with nan among the values the function is called with mixed up arguments."
  },
  {
   "property": "C53",
   "status": "proved",
   "theorems": [
    "C53_posterior_mass",
    "C53_descending",
    "C53_likelihood_scale"
   ],
   "note": "Ascending and descending logx; the weights are characterised up to the normalisation proved."
  },
  {
   "property": "C54",
   "status": "proved",
   "theorems": [
    "C54_effective_samples",
    "C54_kde",
    "C54_equal_weights",
    "C54_weight_scale",
    "C54_zero_weight",
    "C54_permutation",
    "C54_affine",
    "C54_undefined",
    "C54_lengths"
   ],
   "note": "Effective number of samples, exact form of the estimate, equality with scipy for equal weights, invariances. nan cases are explicit."
  },
  {
   "property": "C55",
   "status": "proved",
   "theorems": [
    "C55_bs_param_dists",
    "C55_param_logx_diagram",
    "C55_thin_state",
    "C55_bad_seed",
    "C55_thin_refuted"
   ],
   "note": "Records a defect: with thinning the state is lost (witness in the _refuted theorem)."
  },
  {
   "property": "C56",
   "status": "proved",
   "theorems": [
    "C56_list_errors",
    "C56_errors",
    "C56_eff_gain",
    "C56_eff_gain_invariance",
    "C56_efficiency_gain",
    "C56_rmse_gain"
   ],
   "note": ""
  },
  {
   "property": "C57",
   "status": "proved",
   "theorems": [
    "C57_errors",
    "C57_row_order",
    "C57_summary",
    "C57_rmse",
    "C57_rmse_row"
   ],
   "note": ""
  },
  {
   "property": "C58",
   "status": "proved",
   "theorems": [
    "C58_dummy_thread",
    "C58_dummy_run",
    "C58_draws",
    "C58_bad_seed"
   ],
   "note": "For every random outcome with distinct draws; that threads can always be drawn is C58_draws."
  },
  {
   "property": "C59",
   "status": "proved",
   "theorems": [
    "C59_dynamic_run",
    "C59_refuted"
   ],
   "note": "Records a defect: AssertionError for one thread starting at the lowest point (witness in the _refuted theorem)."
  },
  {
   "property": "C60",
   "status": "proved",
   "theorems": [
    "C60_check_ns_run",
    "C60_warnings"
   ],
   "note": ""
  },
  {
   "property": "C61",
   "status": "proved",
   "theorems": [
    "C61_get_run_threads"
   ],
   "note": ""
  },
  {
   "property": "C62",
   "status": "proved",
   "theorems": [
    "C62_ninit_sep_succeeds_refuted",
    "C62_ninit_sep_succeeds_iff",
    "C62_ninit_sep_succeeds"
   ],
   "note": "Exact condition for distinct logls; sufficient also with ties. That it does not always succeed is shown by a witness."
  },
  {
   "property": "C63",
   "status": "proved",
   "theorems": [
    "C63_bad_seed",
    "C63_state_after_exception",
    "C63_state_after_exception_refuted"
   ],
   "note": "Records a defect: the state is not restored after an exception (witness in the _refuted theorem)."
  },
  {
   "property": "C64",
   "status": "proved",
   "theorems": [
    "C64_processed_run_splits"
   ],
   "note": ""
  },
  {
   "property": "C65",
   "status": "proved",
   "theorems": [
    "C65_ci_double_flip"
   ],
   "note": "Records a defect: the default flip_skew undoes the reflection."
  },
  {
   "property": "C66",
   "status": "proved",
   "theorems": [
    "C66_state_after_error",
    "C66_bad_seed"
   ],
   "note": "Records a defect: the state is not restored after an exception."
  },
  {
   "property": "C67",
   "status": "proved",
   "theorems": [
    "C67_two_runs",
    "C67_two_runs_bs_stat_dist"
   ],
   "note": "Records a defect: no pair of runs gives a result with pairwise diagnostics."
  },
  {
   "property": "C68",
   "status": "proved",
   "theorems": [
    "C68_python2_std_uncertainty"
   ],
   "note": "Records a defect of the supported Python 2.7: 1/2 is 0."
  },
  {
   "property": "C69",
   "status": "proved",
   "theorems": [
    "C69_bs_param_dists_ok",
    "C69_bs_param_dists_six",
    "C69_single_subplot",
    "C69_no_replications"
   ],
   "note": "Records a limit: five runs."
  },
  {
   "property": "C70",
   "status": "proved",
   "theorems": [
    "C70_param_logx_diagram_ok",
    "C70_no_simulations",
    "C70_nothing_to_plot",
    "C70_param_logx_diagram_four"
   ],
   "note": "Records a limit: three runs when threads are plotted."
  },
  {
   "property": "C71",
   "status": "proved",
   "theorems": [
    "C71_round_trip"
   ],
   "note": ""
  },
  {
   "property": "C72",
   "status": "proved",
   "theorems": [
    "C72_starts",
    "C72_assert",
    "C72_outcome"
   ],
   "note": ""
  },
  {
   "property": "C73",
   "status": "proved",
   "theorems": [
    "C73_round_trip",
    "C73_effects",
    "C73_single_sample",
    "C73_flat_file",
    "C73_no_file",
    "C73_dead_file",
    "C73_again",
    "C73_succeeds"
   ],
   "note": ""
  },
  {
   "property": "C74",
   "status": "proved",
   "theorems": [
    "C74_posterior_file",
    "C74_equal_weights"
   ],
   "note": ""
  },
  {
   "property": "C75",
   "status": "proved",
   "theorems": [
    "C75_errors"
   ],
   "note": ""
  },
  {
   "property": "C76",
   "status": "proved",
   "theorems": [
    "C76_unlabelled",
    "C76_no_thread_extended"
   ],
   "note": ""
  },
  {
   "property": "C77",
   "status": "proved",
   "theorems": [
    "C77_effects",
    "C77_lines",
    "C77_limit",
    "C77_areas",
    "C77_static_area",
    "C77_curves",
    "C77_no_runs_for_norm",
    "C77_errors",
    "C77_succeeds",
    "C77_again",
    "C77_again_refuted"
   ],
   "note": ""
  },
  {
   "property": "C78",
   "status": "proved",
   "theorems": [
    "C78_layout",
    "C78_default_layout",
    "C78_one_column",
    "C78_errors",
    "C78_plots",
    "C78_legend",
    "C78_no_columns"
   ],
   "note": ""
  },
  {
   "property": "C79",
   "status": "proved",
   "theorems": [
    "C79_weights",
    "C79_points",
    "C79_threads",
    "C79_limit",
    "C79_limit_refuted"
   ],
   "note": ""
  },
  {
   "property": "C80",
   "status": "proved",
   "theorems": [
    "C80_plot_bs_dists",
    "C80_bs_param_dists",
    "C80_param_logx_diagram",
    "C80_replications"
   ],
   "note": ""
  },
  {
   "property": "C81",
   "status": "proved",
   "theorems": [
    "C81_combine",
    "C81_no_samples",
    "C81_tables",
    "C81_dummy"
   ],
   "note": ""
  },
  {
   "property": "C82",
   "status": "proved",
   "theorems": [
    "C82_run_std_simulate"
   ],
   "note": ""
  },
  {
   "property": "C83",
   "status": "proved",
   "theorems": [
    "C83_stats_file"
   ],
   "note": ""
  },
  {
   "property": "C84",
   "status": "proved",
   "theorems": [
    "C84_summary_rows",
    "C84_summary_errors",
    "C84_from_array"
   ],
   "note": ""
  },
  {
   "property": "C85",
   "status": "proved",
   "theorems": [
    "C85_groups",
    "C85_errors"
   ],
   "note": ""
  },
  {
   "property": "C86",
   "status": "proved",
   "theorems": [
    "C86_run_list",
    "C86_error_table"
   ],
   "note": ""
  },
  {
   "property": "C87",
   "status": "proved",
   "theorems": [
    "C87_gain_table",
    "C87_errors"
   ],
   "note": ""
  },
  {
   "property": "C88",
   "status": "proved",
   "theorems": [
    "C88_rint",
    "C88_row_names",
    "C88_row_names_refuted",
    "C88_paper"
   ],
   "note": ""
  },
  {
   "property": "C89",
   "status": "proved",
   "theorems": [
    "C89_fair_allocation"
   ],
   "note": ""
  },
  {
   "property": "C90",
   "status": "proved",
   "theorems": [
    "C90_resample_mean"
   ],
   "note": ""
  },
  {
   "property": "C91",
   "status": "proved",
   "theorems": [
    "C91_expected_shrinkage",
    "C91_errors_vanish"
   ],
   "note": ""
  },
  {
   "property": "C92",
   "status": "proved",
   "theorems": [
    "C92_combine_processed"
   ],
   "note": ""
  },
  {
   "property": "C93",
   "status": "proved",
   "theorems": [
    "C93_distinct",
    "C93_shared"
   ],
   "note": ""
  },
  {
   "property": "C94",
   "status": "proved",
   "theorems": [
    "C94_check",
    "C94_no_nan",
    "C94_unchecked",
    "C94_finite"
   ],
   "note": ""
  },
  {
   "property": "C95",
   "status": "proved",
   "theorems": [
    "C95_apply",
    "C95_apply_refuses",
    "C95_tqdm_kwargs",
    "C95_map",
    "C95_map_raises",
    "C95_map_refuses",
    "C95_batch",
    "C95_batch_clash",
    "C95_func_kwargs",
    "C95_func_kwargs_kept_refuted",
    "C95_batch_again"
   ],
   "note": ""
  },
  {
   "property": "C96",
   "status": "proved",
   "theorems": [
    "C96_load_text",
    "C96_load_names_refuted",
    "C96_names",
    "C96_timed"
   ],
   "note": ""
  },
  {
   "property": "C97",
   "status": "proved",
   "theorems": [
    "C97_process",
    "C97_threads",
    "C97_check",
    "C97_combine",
    "C97_combine_threads",
    "C97_bootstrap",
    "C97_affine",
    "C97_bootstrap_refuted"
   ],
   "note": ""
  },
  {
   "property": "C98",
   "status": "proved",
   "theorems": [
    "C98_weights",
    "C98_estimates",
    "C98_bootstrap",
    "C98_std",
    "C98_ci",
    "C98_simulate",
    "C98_logz_error"
   ],
   "note": ""
  },
  {
   "property": "C99",
   "status": "proved",
   "theorems": [
    "C99_process_order",
    "C99_nested",
    "C99_order",
    "C99_process_order_refuted"
   ],
   "note": ""
  },
  {
   "property": "C100",
   "status": "proved",
   "theorems": [
    "C100_logx",
    "C100_logw",
    "C100_w_rel",
    "C100_estimates",
    "C100_errors",
    "C100_zero_draw",
    "C100_positive_refuted"
   ],
   "note": ""
  },
  {
   "property": "C101",
   "status": "proved",
   "theorems": [
    "C101_logx",
    "C101_weights",
    "C101_positive",
    "C101_estimates",
    "C101_exact"
   ],
   "note": ""
  },
  {
   "property": "C102",
   "status": "proved",
   "theorems": [
    "C102_nan",
    "C102_infinite",
    "C102_covers",
    "C102_returned",
    "C102_live",
    "C102_zero_likelihood_refuted"
   ],
   "note": ""
  },
  {
   "property": "C103",
   "status": "proved",
   "theorems": [
    "C103_logx",
    "C103_double",
    "C103_weights",
    "C103_logz",
    "C103_mean",
    "C103_binary"
   ],
   "note": ""
  },
  {
   "property": "C104",
   "status": "proved",
   "theorems": [
    "C104_objects",
    "C104_unknown",
    "C104_checks",
    "C104_files",
    "C104_bootstrap_errors",
    "C104_bootstrap",
    "C104_implementation_std",
    "C104_count_samples",
    "C104_dummy",
    "C104_documented_refuted",
    "C104_write",
    "C104_saved_unchecked",
    "C104_saved_checked",
    "C104_saved",
    "C104_tables"
   ],
   "note": ""
  },
  {
   "property": "C105",
   "status": "proved",
   "theorems": [
    "C105_kde",
    "C105_again",
    "C105_errors",
    "C105_shared",
    "C105_values_refuted",
    "C105_alternate"
   ],
   "note": ""
  },
  {
   "property": "C106",
   "status": "proved",
   "theorems": [
    "C106_none",
    "C106_bs_param_dists",
    "C106_param_logx_diagram",
    "C106_param_logx_diagram_refuted",
    "C106_both",
    "C106_roots_refuted"
   ],
   "note": ""
  },
  {
   "property": "C107",
   "status": "proved",
   "theorems": [
    "C107_resample_variance",
    "C107_ninit_sep"
   ],
   "note": ""
  },
  {
   "property": "C108",
   "status": "proved",
   "theorems": [
    "C108_expected_volume",
    "C108_expected_evidence"
   ],
   "note": ""
  },
  {
   "property": "C109",
   "status": "proved",
   "theorems": [
    "C109_runs_same",
    "C109_runs_success",
    "C109_runs_different",
    "C109_threads_same",
    "C109_threads_success",
    "C109_threads_different",
    "C109_bootstrap"
   ],
   "note": ""
  },
  {
   "property": "C110",
   "status": "proved",
   "theorems": [
    "C110_missing",
    "C110_shape",
    "C110_rejected",
    "C110_run",
    "C110_files",
    "C110_keywords"
   ],
   "note": ""
  },
  {
   "property": "C111",
   "status": "proved",
   "theorems": [
    "C111_objects",
    "C111_unknown",
    "C111_bs_param_dists",
    "C111_param_logx_diagram",
    "C111_seed_type",
    "C111_plot_bs_dists",
    "C111_plot_run_nlive",
    "C111_kde_plot_df",
    "C111_zero_rows",
    "C111_columns"
   ],
   "note": ""
  },
  {
   "property": "C112",
   "status": "proved",
   "theorems": [
    "C112_summary_df",
    "C112_from_array",
    "C112_from_list",
    "C112_from_multi",
    "C112_error_values_summary",
    "C112_run_list_error_values",
    "C112_run_list_error_summary",
    "C112_efficiency_gain_df",
    "C112_axis",
    "C112_pickle_save",
    "C112_extension",
    "C112_pickle_load"
   ],
   "note": ""
  }
 ]
}