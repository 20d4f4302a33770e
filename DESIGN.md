# Formal model of nestcheck in Rocq/Coq 8.16.1

## Shape of the development

`rocq/theories/` contains

* `Base.v` - exceptions as values, the state-and-exception monad, numpy list helpers (`where`, `unique`, slices, fancy indexing).
* `Model*.v` - the model, function by function, each definition citing the `/repo` lines it models. No proofs of properties there.
* `Spec.v` - a small specification vocabulary that does not mention the model's helpers (live-point counts, canonical thread decomposition, partitions, medians...).
* `Proof*.v` - lemmas.
* `Prop*.v` - only the property theorems (closed by `exact`), non-vacuity examples and `Print Assumptions`.

## Modelling decisions (apply everywhere)

* **Finite floats as integers.** Every finite float64 is an integer multiple of 2^-1074, so log-likelihoods and parameters are `Z` in those units. Comparisons and equality are exact. `-inf` is a separate constructor (`option Z`/`NInf`) where the code uses it (birth contours). NaN thread labels / birth indexes before assignment are `None`. NaN or infinite input logls are not modelled.
* **Real arithmetic.** Weights, estimators and statistics are modelled over Coq's `R` (standard library), not IEEE arithmetic: rounding, overflow and underflow are not modelled.
* **argsort** (numpy's default quicksort is unstable) is an arbitrary function returning *some* permutation that sorts its input; theorems quantify over all of them.
* **Random numbers.** numpy's global generator is an arbitrary record: a state type, a seeding function and a "uniform below n" function returning any value below n. Every theorem quantifies over it, so it holds for every random outcome. `seed(None)` takes an arbitrary entropy value.
* **Exceptions** are values; the random state and the warnings emitted so far are threaded through and survive exceptions, as in Python.
* **Parallelism.** A schedule is the order in which futures complete: an arbitrary permutation of the submitted tasks.
* **File system.** A finite map from paths to contents, where content is a complete pickle of a value or a truncated one; a crash is a prefix of the step list of a save.
* numpy broadcasting of length-one arrays, dtype subtleties, keyword-argument parsing (`TypeError` on unknown keywords), printing, and plotting through matplotlib/fgivenx are not modelled.

## Plan per property

| id | model | method |
|----|-------|--------|
| C01 | `threads_given_birth_inds` with fuel | number of unlabelled points decreases; fuel never runs out, for all inputs |
| C02 | same | characterise the label of each point by the root of its chain; invariant over the start list |
| C03 | `process_samples_array` | per-thread telescoping of (birth, death] intervals |
| C04 | same + `check_ns_run` | from C02, sorting spec |
| C05, C06 | `birth_inds_given_contours` | loop invariant, for all generators |
| C07 | `sample_less_than_condition` | induction; Hall-type counting for completeness |
| C08, C09 | random state in the monad | bracket lemma; `_refuted` witness for the exception path |
| C10, C11 | `run_dead_birth_array` | each thread is a chain of births; sortedness with distinct keys is unique |
| C12-C14 | `process_multinest_run`, `process_dynesty_run` | case analysis, counting; `_refuted` for legacy dynamic results |
| C15-C17 | `batch_process_data` over schedules | permutation + sort by index uniqueness; `_refuted` for repeated roots |
| C18-C19 | `get_run_threads`, `combine_threads` | counting of starts/ends below a logl; `_refuted` for starts on the first point |
| C20-C24 | `combine_ns_runs`, `dict_given_run_array` | same counting lemma |
| C25-C28 | `bootstrap_resample_run` | all multisets of threads; bracket lemma; `_refuted` for settings |
| C29-C33 | `get_logx`, `get_logw`, ... over R | telescoping sums, monotonicity |
| C34-C37 | estimators over R | weighted averages, piecewise-linear interpolation |
| C38-C42 | error analysis over R | algebra, induction on lists |
| C43-C45 | schedules | permutation invariance; `_refuted` for `thread_values_df` |
| C46-C49 | file-system state machine | invariants over histories and crash points; `_refuted` where false |
| C50 | string-level writer and reader | tokenisation lemmas, line arithmetic |
| C51 | string-level names | injectivity of decimal printing |
| C52-C55 | plots helpers | list induction; real analysis; random-state skeleton |
| C56-C57 | pandas helpers over R | algebra |
| C58-C59 | dummy data | from C18/C20 machinery; `_refuted` witness |
| C60 | `check_ns_run` | decision procedure characterised by a Prop |
| C61 | `get_run_threads` | filtering by label, positions |
| C62-C63 | `bootstrap_resample_run`, `ninit_sep`, errors | support condition, both directions by a scripted generator |
| C64, C71 | samples array to run and back | structure of the thread search; dead-birth array of a complete run |
| C65-C70 | further helpers (see the statements) | as for C29-C57 |
| C72 | `combine_threads` | invariant of the loop over starts, sums over rows |
| C73-C75 | `write_run_output`, `process_polychord_run` with files | files as texts, inversion of the writer, reading back each line |
| C76 | `threads_given_birth_inds` on any birth indexes | points reached from starts (no cycles), loop over the points without label |
| C77-C78 | `plot_run_nlive`, `kde_plot_df` | effects on the dictionary of runs; trapezium rule; arithmetic of the layouts |
| C79-C80 | contents of `param_logx_diagram`, `bs_param_dists`, `plot_bs_dists` | inversion of successful calls; prefix sums, trapezium rule; C25 for the replications |
| C81-C83 | inputs without data, `run_std_simulate`, `.stats` errors | case analysis; threading of the random state |
| C84-C87 | rows of the pandas tables | frames as lists of labelled rows; uniqueness of sorted permutations |
| C88 | `paper_format_efficiency_gain_df` | from C87; occurrences of one text in another |
| C89-C90 | fairness of the allocation of ties, mean of bootstrap resamples | a generator reading from a list; counting over all lists of draws |
| C91 | expectation and variance of simulated log-volumes | sums over a grid between values of primitives (mean value theorem); product averages |
| C92 | combining processed runs | from C03, C20: live points between the points of a run |
| C93 | runs sharing arrays in `combine_ns_runs` | store of label arrays; a shared array loses label 0 |
| C94 | `check_ns_run` with nan and infinities | floats as nan, -inf, +inf or a number; IEEE comparisons; any sort with nan last |
| C95 | arguments of the functions called by `parallel_map`, `parallel_apply`, `batch_process_data` | lists of positional arguments and dictionaries; `zip` by its k-th elements; from C45 |
| C96 | texts of the warnings of io_utils, `timing_decorator` | strings |
| C97 | increasing functions of the log-likelihoods through all processing | relation between two executions; comparisons and argsort are preserved |
| C98 | changed units in weights, estimators, bootstrap and simulation | from C97 for the resampling; algebra of exp, trapezium rule, interpolation |
| C99 | order of rows and runs, grouping of runs | from C20; uniqueness of sorted permutations |
| C100 | weights and estimates with rounded arithmetic | monotonicity and exact values only; trees of additions |
| C101 | convergence to the exact values | continuity of each operation; error bound for sums in any order |
| C102 | `process_samples_array` with nan and infinities | nan fails an assertion; otherwise a map to the integers which keeps the order commutes with each step |
| C103 | explicit bounds on rounding errors | (1+u)^k for k operations in any order; cut to p bits as an instance |
| C104 | keyword arguments: which are known, defaults, when TypeError is raised | dictionaries of keywords popped one by one |
| C105 | arrays changed in place by the kernel density estimate | memory of blocks, arrays as lists of positions |
| C106 | names of cache files are distinct, or not | position of the last underscore |
| C107 | mean and variance of sums over resampled runs | sums over all n^n choices of threads |
| C108 | expected volumes and evidence, bias without simulation | moments of a grid of uniform numbers; log(1+x) between x - x^2/2 and x |
| C109 | runs with different numbers of parameters | np.vstack checked in a second version of the combining functions, shown equal to the first when the widths agree |
| C110 | MultiNest files: shapes, order of errors, rounding, keywords | np.loadtxt and savetxt of ModelWrite.v; rows to samples by position |
| C111 | keyword arguments of plots.py | as C104: the value of a keyword is the one given or the default; unknown ones are left over |
| C112 | keyword arguments of tables and pickle_save | as C104 and C111; keywords passed on are those of the inner function; induction over groups |

## Trusted base

1. **Coq 8.16.1's kernel** (and `vm_compute`, used for concrete witnesses and examples) and the standard library. No other library is imported.
2. **Axioms.** No axiom, parameter, section-less variable, functor or module type is declared. `Print Assumptions` stands below every theorem; its output is

   * *Closed under the global context* (202 theorems): `C01_threads_terminate`, `C01_while_iterations`, `C02_canonical_unique`, `C02_threads_canonical`, `C03_nlive_counts_live_points`, `C03_nlive_distinct`, `C04_processing`, `C05_births_on_contours`, `C06_ties_resolved`, `C07_sample_less_than_condition`, `C08_birth_inds`, `C08_process_multinest_run`, `C08_process_polychord_run`, `C08_process_samples_array`, `C08_threads`, `C09_birth_inds`, `C09_failed_call_keeps_state_refuted`, `C09_process_samples_array`, `C10_dead_birth_array`, `C10_distinct`, `C11_reprocessing`, `C12_any_lines`, `C12_multinest`, `C13_dynesty_static`, `C13_lengths`, `C13_rejects`, `C14_no_batch`, `C14_no_samples_n_raises`, `C14_rejects`, `C14_samples_n`, `C14_samples_n_length`, `C15_batch_order`, `C15_polychord`, `C16_batch_report`, `C16_batch_roots`, `C16_batch_unhandled`, `C17_repeated_roots`, `C17_repeated_roots_refuted`, `C18_split_join`, `C19_refuted`, `C19_starts_on_lowest`, `C20_combine_ns_runs`, `C21_combined_valid`, `C22_output`, `C23_combine_threads`, `C24_dynesty`, `C24_nlive_positive`, `C25_bootstrap_static`, `C25_every_choice`, `C26_bootstrap_seeded`, `C26_bootstrap_values`, `C27_ninit_sep`, `C27_no_ninit`, `C28_settings_rejected`, `C42_pairwise`, `C44_thread_values`, `C44_thread_values_schedule_refuted`, `C45_chunksize`, `C45_parallel_apply`, `C45_parallel_map`, `C45_warning`, `C46_computes_once`, `C46_directory`, `C46_missing`, `C46_other_files`, `C46_save_load`, `C46_saves`, `C47_refuted`, `C47_requested_kept`, `C47_unique_times`, `C48_before_open`, `C48_crash`, `C48_poisoned`, `C48_refuted`, `C48_unpicklable`, `C49_decorated`, `C49_makedirs`, `C49_no_error`, `C49_other_errors`, `C50_any_file`, `C50_cut`, `C50_cut_parameters`, `C50_defaults`, `C50_errors`, `C50_layout`, `C50_only`, `C50_read`, `C50_refuted`, `C50_round_trip`, `C50_written`, `C51_domain`, `C51_names`, `C51_of_partial_function`, `C51_refuted`, `C51_symbols`, `C51_text`, `C52_row`, `C52_samples_array`, `C58_bad_seed`, `C58_draws`, `C58_dummy_run`, `C58_dummy_thread`, `C59_dynamic_run`, `C59_refuted`, `C60_check_ns_run`, `C60_warnings`, `C61_get_run_threads`, `C62_ninit_sep_succeeds`, `C62_ninit_sep_succeeds_iff`, `C62_ninit_sep_succeeds_refuted`, `C63_bad_seed`, `C63_state_after_exception`, `C63_state_after_exception_refuted`, `C64_processed_run_splits`, `C71_round_trip`, `C72_assert`, `C72_outcome`, `C72_starts`, `C73_flat_file`, `C73_no_file`, `C76_no_thread_extended`, `C76_unlabelled`, `C80_replications`, `C81_combine`, `C81_dummy`, `C81_no_samples`, `C83_stats_file`, `C88_row_names`, `C88_row_names_refuted`, `C89_fair_allocation`, `C90_resample_mean`, `C92_combine_processed`, `C93_distinct`, `C93_shared`, `C94_check`, `C94_finite`, `C94_no_nan`, `C94_unchecked`, `C95_apply`, `C95_apply_refuses`, `C95_batch`, `C95_batch_again`, `C95_batch_clash`, `C95_func_kwargs`, `C95_func_kwargs_kept_refuted`, `C95_map`, `C95_map_raises`, `C95_map_refuses`, `C95_tqdm_kwargs`, `C96_load_names_refuted`, `C96_load_text`, `C96_names`, `C96_timed`, `C97_affine`, `C97_bootstrap`, `C97_bootstrap_refuted`, `C97_check`, `C97_combine`, `C97_combine_threads`, `C97_process`, `C97_threads`, `C99_nested`, `C99_order`, `C99_process_order`, `C99_process_order_refuted`, `C102_covers`, `C102_infinite`, `C102_live`, `C102_nan`, `C102_returned`, `C102_zero_likelihood_refuted`, `C104_checks`, `C104_documented_refuted`, `C104_dummy`, `C104_files`, `C104_objects`, `C104_saved`, `C104_saved_checked`, `C104_saved_unchecked`, `C104_tables`, `C106_both`, `C106_bs_param_dists`, `C106_none`, `C106_param_logx_diagram`, `C106_param_logx_diagram_refuted`, `C106_roots_refuted`, `C109_bootstrap`, `C109_runs_different`, `C109_runs_same`, `C109_runs_success`, `C109_threads_different`, `C109_threads_same`, `C109_threads_success`, `C110_files`, `C110_keywords`, `C110_missing`, `C110_rejected`, `C110_run`, `C110_shape`, `C112_extension`, `C112_pickle_load`, `C112_pickle_save`.
   * `sig_forall_dec` (2 theorems): `C52_nan_refuted`, `C104_count_samples`.
   * `sig_forall_dec`, `functional_extensionality_dep` (22 theorems): `C35_quantile_affine`, `C35_quantile_rejects`, `C35_weighted_quantile`, `C36_median`, `C78_default_layout`, `C78_errors`, `C78_layout`, `C78_legend`, `C78_no_columns`, `C78_one_column`, `C78_plots`, `C88_rint`, `C100_logw`, `C100_logx`, `C100_w_rel`, `C100_zero_draw`, `C107_ninit_sep`, `C107_resample_variance`, `C111_columns`, `C111_kde_plot_df`, `C111_objects`, `C111_zero_rows`.
   * `sig_forall_dec`, `sig_not_dec`, `functional_extensionality_dep` (37 theorems): `C41_implementation_std`, `C41_uncertainties`, `C53_descending`, `C53_likelihood_scale`, `C53_posterior_mass`, `C56_eff_gain`, `C56_eff_gain_invariance`, `C56_efficiency_gain`, `C56_errors`, `C56_list_errors`, `C56_rmse_gain`, `C57_errors`, `C57_rmse`, `C57_rmse_row`, `C57_row_order`, `C57_summary`, `C66_bad_seed`, `C66_state_after_error`, `C68_python2_std_uncertainty`, `C84_from_array`, `C84_summary_errors`, `C84_summary_rows`, `C85_errors`, `C85_groups`, `C86_error_table`, `C87_errors`, `C87_gain_table`, `C88_paper`, `C100_estimates`, `C104_implementation_std`, `C112_axis`, `C112_efficiency_gain_df`, `C112_error_values_summary`, `C112_from_array`, `C112_from_list`, `C112_from_multi`, `C112_summary_df`.
   * `sig_forall_dec`, `sig_not_dec`, `classic`, `functional_extensionality_dep` (118 theorems): `C29_get_logx`, `C30_weights_partition_prior`, `C31_trapezium_rule`, `C32_evidence_bounds`, `C32_shift`, `C33_estimators_unnormalised`, `C33_relative_weights`, `C34_mean_affine`, `C34_param_ind_out_of_range`, `C34_posterior_means`, `C37_run_estimators`, `C38_flip_skew`, `C38_std_bootstrap`, `C38_std_unchanged`, `C39_one_thread`, `C40_ci_bootstrap`, `C40_no_replications`, `C43_schedule_free`, `C43_schedule_success`, `C43_summary_ok`, `C54_affine`, `C54_effective_samples`, `C54_equal_weights`, `C54_kde`, `C54_lengths`, `C54_permutation`, `C54_undefined`, `C54_weight_scale`, `C54_zero_weight`, `C55_bad_seed`, `C55_bs_param_dists`, `C55_param_logx_diagram`, `C55_thin_refuted`, `C55_thin_state`, `C65_ci_double_flip`, `C67_two_runs`, `C67_two_runs_bs_stat_dist`, `C69_bs_param_dists_ok`, `C69_bs_param_dists_six`, `C69_no_replications`, `C69_single_subplot`, `C70_no_simulations`, `C70_nothing_to_plot`, `C70_param_logx_diagram_four`, `C70_param_logx_diagram_ok`, `C73_again`, `C73_dead_file`, `C73_effects`, `C73_round_trip`, `C73_single_sample`, `C73_succeeds`, `C74_equal_weights`, `C74_posterior_file`, `C75_errors`, `C77_again`, `C77_again_refuted`, `C77_areas`, `C77_curves`, `C77_effects`, `C77_errors`, `C77_limit`, `C77_lines`, `C77_no_runs_for_norm`, `C77_static_area`, `C77_succeeds`, `C79_limit`, `C79_limit_refuted`, `C79_points`, `C79_threads`, `C79_weights`, `C80_bs_param_dists`, `C80_param_logx_diagram`, `C80_plot_bs_dists`, `C81_tables`, `C82_run_std_simulate`, `C86_run_list`, `C91_errors_vanish`, `C91_expected_shrinkage`, `C98_bootstrap`, `C98_ci`, `C98_estimates`, `C98_logz_error`, `C98_simulate`, `C98_std`, `C98_weights`, `C100_errors`, `C100_positive_refuted`, `C101_estimates`, `C101_exact`, `C101_logx`, `C101_positive`, `C101_weights`, `C103_binary`, `C103_double`, `C103_logx`, `C103_logz`, `C103_mean`, `C103_weights`, `C104_bootstrap`, `C104_bootstrap_errors`, `C104_unknown`, `C104_write`, `C105_again`, `C105_alternate`, `C105_errors`, `C105_kde`, `C105_shared`, `C105_values_refuted`, `C108_expected_evidence`, `C108_expected_volume`, `C111_bs_param_dists`, `C111_param_logx_diagram`, `C111_plot_bs_dists`, `C111_plot_run_nlive`, `C111_seed_type`, `C111_unknown`, `C112_run_list_error_summary`, `C112_run_list_error_values`.

   The four axioms are those of the standard library's real numbers and what it proves with them: `ClassicalDedekindReals.sig_forall_dec`, `ClassicalDedekindReals.sig_not_dec`, `FunctionalExtensionality.functional_extensionality_dep`, `Classical_Prop.classic`.
3. **Interfaces** of things outside nestcheck are records with laws, over all of whose instances the theorems quantify; each has a concrete instance in an example, so none of them is contradictory:
   * `env` (Base.v): numpy's global generator (any state type, any seeding with an integer from 0 to 2^32-1 and ValueError for the others, any "uniform below n" with results below n) and np.argsort (any function giving indexes which sort);
   * `sched` (ModelParallel.v): the order in which concurrent futures complete and the random states of the workers;
   * `normals`, `uniforms`, `uniform_draws`: np.random.normal / random as arbitrary functions of the state (`uniform_draws`: nonnegative values, and as many as asked for);
   * `pickler` (ModelIO.v): what was dumped completely is loaded again, a truncated pickle gives an error which is not an OSError;
   * `floats` (ModelStatsFile.v): `float(str(x)) == x`, and which characters `str(x)` may contain (no whitespace, no two dashes in a row);
   * `savefmt` (ModelWrite.v): np.savetxt prints each number without whitespace or '#' inside and float reads it as the number rounded to the precision of the format;
   * `arith` (ModelRound.v): rounding, np.exp, np.log and np.sum as arbitrary functions, with the laws `sound` (they keep the order and some exact values) in C100 `accurate` (small errors) in C101 and `relative` (small relative errors, so without underflow) in C103; np.sum adds in an arbitrary order;
   * in the diagnostics: statistical distances are an arbitrary function of two samples.
4. **The reading of the code.** The link between model and Python is by reading only; each definition cites its lines.

### Modelled

| file | functions |
|------|-----------|
| data_processing.py | batch_process_data, process_error_helper, process_polychord_run, process_multinest_run, process_dynesty_run, process_polychord_stats, process_samples_array, birth_inds_given_contours, sample_less_than_condition, threads_given_birth_inds (all) |
| ns_run_utils.py | all functions |
| error_analysis.py | all but statistical_distances (scipy), which is an arbitrary function |
| estimators.py | all functions |
| diagnostics_tables.py | all functions; data frames as lists of columns, the rows of error_values_summary with their labels (ModelFrames.v) |
| pandas_functions.py | all functions: the numbers in ModelStats.v, the rows with their labels and order in ModelFrames.v |
| parallel_utils.py | parallel_map, parallel_apply |
| io_utils.py | all functions |
| dummy_data.py | all functions |
| write_polychord_output.py | all functions |
| plots.py | plot_run_nlive, kde_plot_df (without xlims and ticks), average_by_key, bs_param_dists, param_logx_diagram, plot_bs_dists, alternate_helper, weighted_1d_gaussian_kde, rel_posterior_mass: the numbers handed to matplotlib/fgivenx and the effect on numpy's generator |

ModelMono.v and ModelUnits.v model no code: they define how a run looks after a change of its log-likelihoods and parameters (C97, C98).

### Not modelled

* IEEE rounding, overflow and underflow, except in C100, C101 and C103: weights, estimators and statistics are over the reals; log-likelihoods and parameters are exact. ModelRound.v has the weights and the estimators which are sums with rounded arithmetic, without overflow.
* NaN and infinite log-likelihoods or parameters given as input, except in check_ns_run (ModelNan.v, C94) and process_samples_array (ModelNanData.v, C102).
* numpy broadcasting of arrays of length one; dtypes; arrays with a wrong number of dimensions (except np.loadtxt of a file with a single row or column, in ModelWrite.v and ModelMultinest.v).
* Checking of keyword arguments (`TypeError` for unknown ones), except in get_latex_name, write_stats_file, parallel_map and parallel_apply (ModelCalls.v, C95) the functions of ModelKeywords.v (C104) and those of plots.py (ModelPlotKeywords.v, C111; not objects without a length for labels, limits and colours, numbers of simulations which are not integers, and weighted_1d_gaussian_kde, alternate_helper, rel_posterior_mass and average_by_key, which have positional arguments only); and those of tables, summaries, pickle_save and pickle_load (ModelTableKeywords.v, C112; not floats as axis, a string as inds_to_keep, inds_to_keep other than the calculation type for error_values_summary, true values of efficiency_gain_df which are no array, and run_list_error_values with files, which is in C104). So not in estimator functions other than count_samples, bs_values_df, thread_values_df and the keywords of random seeds which are lists.
* matplotlib, fgivenx, tqdm, printing (except the error report of batch_process_data); they are taken not to raise and not to use numpy's global generator.
* pandas itself: what indexing, grouping, sorting and categories do is taken from its documentation; scipy's distances.
* parallel_utils.select_tqdm.
* Aliasing of arrays, except for the dictionaries changed by parallel_apply and batch_process_data (ModelCalls.v, C95), runs sharing their thread_labels array in combine_ns_runs (ModelAlias.v, C93), weighted_1d_gaussian_kde (ModelKdeHeap.v, C105) and the change of runs by plot_run_nlive (C77; not the same run twice in its argument).

### Simplifications

* Errors in places where several are possible: the model fixes one of them where the code's choice depends on array shapes which check_ns_run rejects (stated at the definitions: get_logw, implementation_std, combine_threads, array_given_run).
* The number of parameters of runs: the combining functions of ModelRun.v ignore it; ModelWidth.v has them with the ValueError of np.vstack and C109 shows that nothing else changes. run_bootstrap_values and what calls it use the version without it, which by C109 is the same on the threads of one run.
* get_latex_name: `probability * 100` is exact. read_int accepts only plain decimal numbers.
* write_stats_file, write_run_output: writing files does not fail; the directory exists; numbers written by write_run_output to the .stats file are converted by an arbitrary function from the reals of the model; file names are joined as on POSIX.
* ModelRound.v: scipy's logsumexp as before scipy 1.15 (the maximum is subtracted, then exp, sum, log); a division of a number by zero gives nan; handle_indexerror of param_mean is left out.
* Dummy data: logl_range is positive, adding logl_start is exact, Python's stable sort of the threads is replaced by an arbitrary sort.
* pickle_save: time.asctime() is an arbitrary string; a file is written byte by byte, and the process may be killed, or the operating system report an error, after any of them.
* plot_run_nlive: the colours and labels of the lines are left out; logx_given_logl returns a new array, logl_given_logx is applied to each point; infinite values of logx count as nan.
* param_logx_diagram with thread_labels None: the comparison with None is modelled as ValueError.
* run_list_error_values with one run and bs_stat_dist: the model returns an empty group where pandas raises KeyError, before the error of summary_df which the model has instead.
