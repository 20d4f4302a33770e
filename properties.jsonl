{"id": "C01", "title": "Thread decomposition always terminates", "statement": "threads_given_birth_inds returns labels or raises for every integer birth-index array, including cyclic or self-referencing ones: its unbounded while loop never runs more than one iteration per point.", "quantifier": "every finite list of integers given as birth indexes, every random state", "why_tests_cant": "The loop is `while next_ind.shape != (0,)`; a test can only try particular arrays, whereas a single cyclic array that defeats the guard would hang a batch.", "anchors": ["nestcheck/data_processing.py:threads_given_birth_inds"]}
{"id": "C02", "title": "Thread labels are the canonical decomposition", "statement": "If every point is born strictly before it dies (-1 <= birth_ind[i] < i, some point born at -1), threads_given_birth_inds succeeds without warning, without touching the random state, and: (a) the first point born on the contour of point i continues the thread of i; (b) every other point starts a new thread that no earlier point belongs to; (c) labels used are exactly 0..T-1, numbered by (birth contour, position) of the starting point.", "quantifier": "every birth-index array with -1 <= b_i < i", "why_tests_cant": "Quantifies over all birth forests of all sizes.", "anchors": ["nestcheck/data_processing.py:threads_given_birth_inds"]}
{"id": "C03", "title": "nlive_array counts live points", "statement": "For a samples array processed by process_samples_array, nlive_array[i] equals the number of points that were born before the i-th death and die at it or later.", "quantifier": "every samples array whose births resolve to earlier deaths; every i", "why_tests_cant": "Must hold for every run of every size and branching structure.", "anchors": ["nestcheck/data_processing.py:process_samples_array"]}
{"id": "C04", "title": "Processing a samples array gives a valid run with the same samples", "statement": "process_samples_array on a well formed samples array succeeds; its logl is the input logl column in ascending order, each theta row stays attached to its logl, and check_ns_run accepts the result.", "quantifier": "every samples array in any row order with distinct logls and births on earlier contours; every (possibly unstable) argsort", "why_tests_cant": "All permutations and all sizes.", "anchors": ["nestcheck/data_processing.py:process_samples_array", "nestcheck/ns_run_utils.py:check_ns_run"]}
{"id": "C05", "title": "Birth indexes point at the birth contour", "statement": "Whenever birth_inds_given_contours returns, each entry is -1 (exactly for the points with the same birth contour as the first point) or is the index of a point whose logl equals that point's birth contour.", "quantifier": "every pair of arrays (ties, duplicates, malformed orders) and every random outcome on which the function returns", "why_tests_cant": "Random tie-breaking: tests see one seed.", "anchors": ["nestcheck/data_processing.py:birth_inds_given_contours"]}
{"id": "C06", "title": "Tied contours are resolved without dying before birth", "statement": "If on each tied contour there are no more births than deaths, then for every random outcome the allocated birth indexes on that contour are pairwise distinct, and every point is allocated a birth index strictly smaller than its own index (unless its birth contour is its own, unique, logl).", "quantifier": "every array with ties, every random outcome", "why_tests_cant": "Quantifies over random draws and all tie patterns.", "anchors": ["nestcheck/data_processing.py:birth_inds_given_contours", "nestcheck/data_processing.py:sample_less_than_condition"]}
{"id": "C07", "title": "sample_less_than_condition is sound and complete", "statement": "For ascending condition, whatever the random choices: every returned element is smaller than the corresponding condition, the result is a sub-multiset of the choices of the expected length, and ValueError is raised only if no valid allocation exists.", "quantifier": "every list of choices, every ascending condition, every random outcome", "why_tests_cant": "Greedy random choice could dead-end on some draw.", "anchors": ["nestcheck/data_processing.py:sample_less_than_condition"]}
{"id": "C08", "title": "Processing leaves the global random state as it found it", "statement": "birth_inds_given_contours, threads_given_birth_inds and process_samples_array, when they return, leave numpy's global random state exactly as before the call, and their result does not depend on that state.", "quantifier": "every input, every initial random state", "why_tests_cant": "State leakage shows only in later, unrelated draws.", "anchors": ["nestcheck/data_processing.py:birth_inds_given_contours", "nestcheck/data_processing.py:threads_given_birth_inds", "nestcheck/data_processing.py:process_samples_array"]}
{"id": "C09", "title": "Random state after failed processing", "statement": "If birth_inds_given_contours raises because the logls are unsorted (or repeated with dup_assert), the global random state is untouched. If it raises later, the state left behind is one reached from seed 0 by the calls made, so it does not depend on the state before the call: the caller's state is lost. process_samples_array either keeps the state or loses it in the same way.", "quantifier": "every input on which it raises", "why_tests_cant": "Exception paths of seeded code are not observed by tests.", "anchors": ["nestcheck/data_processing.py:birth_inds_given_contours"]}
{"id": "C10", "title": "Writing the dead-birth array of a processed run loses nothing", "statement": "run_dead_birth_array(process_samples_array(S)) is S sorted by logl, with the whole-prior birth marker replaced by logl_init.", "quantifier": "every well formed samples array S with distinct logls; every argsort", "why_tests_cant": "Round trip for all branching structures.", "anchors": ["nestcheck/write_polychord_output.py:run_dead_birth_array", "nestcheck/data_processing.py:process_samples_array"]}
{"id": "C11", "title": "Re-processing is idempotent", "statement": "process_samples_array(run_dead_birth_array(process_samples_array(S))) equals process_samples_array(S) in every key, including thread labels.", "quantifier": "every well formed S with distinct logls", "why_tests_cant": "All sizes and branchings.", "anchors": ["nestcheck/write_polychord_output.py:run_dead_birth_array", "nestcheck/data_processing.py:process_samples_array"]}
{"id": "C12", "title": "MultiNest processing accepts exactly static runs", "statement": "process_multinest_run strips the trailing columns, raises AssertionError when some live point is not above every dead point or some thread does not start from the whole prior, and otherwise returns the run of the concatenated samples, or raises the error of process_samples_array for them. If a live point is not above every dead point nothing is processed, no warning is given and the random state is unchanged.", "quantifier": "every pair of dead and live arrays", "why_tests_cant": "All inputs.", "anchors": ["nestcheck/data_processing.py:process_multinest_run"]}
{"id": "C13", "title": "Static dynesty results get the right live point counts", "statement": "For static results with samples in ascending logl order in which each of the nlive ids occurs and the last nlive samples are the final live points, process_dynesty_run returns a run accepted by check_ns_run whose nlive_array[i] is the number of ids with a sample at position >= i. If the ids are not exactly 0..nlive-1, or not all of them are among the last nlive samples, it raises AssertionError; if logl or samples_id have a length other than the number of samples and other than one, ValueError.", "quantifier": "every such results object", "why_tests_cant": "All sizes.", "anchors": ["nestcheck/data_processing.py:process_dynesty_run"]}
{"id": "C14", "title": "Dynesty dynamic results need samples_n", "statement": "For a dynamic dynesty result without samples_n, process_dynesty_run raises AssertionError as soon as one batch starts above the lowest logl (and at most one thread starts exactly on it); with samples_n the result is the run with nlive_array = samples_n, thread starts from batch_bounds and thread ends at their last points. If the ids are not exactly 0..T-1, T the sum of batch_nlive, it raises AssertionError; if samples_n does not have one entry per sample (nor two), ValueError; if the first sample of a thread has no batch, or its batch no bounds, IndexError.", "quantifier": "every dynamic results object", "why_tests_cant": "All inputs; the legacy attribute layout is untested with more than one batch.", "anchors": ["nestcheck/data_processing.py:process_dynesty_run"]}
{"id": "C15", "title": "batch_process_data returns runs in file_roots order for every schedule", "statement": "With pairwise distinct file_roots and a process function that records its root, batch_process_data returns the processed runs of exactly the roots without a handled error, in file_roots order, whatever order the workers finish in.", "quantifier": "every list of distinct roots, every completion order", "why_tests_cant": "Parallel completion order is nondeterministic.", "anchors": ["nestcheck/data_processing.py:batch_process_data", "nestcheck/data_processing.py:process_error_helper", "nestcheck/parallel_utils.py:parallel_apply"]}
{"id": "C16", "title": "Error report of batch_process_data", "statement": "For distinct roots, the printed report lists for every handled error type exactly the zero based positions in file_roots of the roots which failed with it, for every schedule; an unhandled error is re-raised. Without unhandled errors it raises exactly if some run has no file_root (KeyError) or one which is not among the roots (ValueError).", "quantifier": "every list of distinct roots, failures, completion orders", "why_tests_cant": "Nondeterministic schedule.", "anchors": ["nestcheck/data_processing.py:batch_process_data", "nestcheck/data_processing.py:process_error_helper"]}
{"id": "C17", "title": "Order of a batch with repeated roots", "statement": "With repeated roots the batch returns every run, in the order of the first position of its root: equal roots are moved together, so the order differs from that of the list.", "quantifier": "every list of roots", "why_tests_cant": "Needs a repeated root.", "anchors": ["nestcheck/data_processing.py:batch_process_data"]}
{"id": "C18", "title": "Splitting and recombining threads is the identity", "statement": "combine_threads(get_run_threads(run)) returns the run (same logl, theta, thread_labels, thread_min_max, nlive_array) for every consistent run with distinct logls in which no thread starts exactly on the lowest logl.", "quantifier": "every such run; every argsort; every random state", "why_tests_cant": "All sizes and thread structures.", "anchors": ["nestcheck/ns_run_utils.py:get_run_threads", "nestcheck/ns_run_utils.py:combine_threads", "nestcheck/ns_run_utils.py:array_given_run", "nestcheck/ns_run_utils.py:dict_given_run_array"]}
{"id": "C19", "title": "Threads starting on the lowest logl", "statement": "If c threads of a complete run start exactly on its lowest logl, splitting and joining it raises AssertionError for c = 1; for c >= 2 it returns the same run with a warning and with the first entry of nlive_array too large by c.", "quantifier": "every valid run", "why_tests_cant": "The failing shape needs a thread born exactly on the first point.", "anchors": ["nestcheck/ns_run_utils.py:dict_given_run_array", "nestcheck/ns_run_utils.py:combine_threads"]}
{"id": "C20", "title": "Combining runs merges samples and adds live points", "statement": "combine_ns_runs of at least two valid consistent runs with all logls distinct, no thread of which starts on the overall lowest logl: the samples are the union in ascending logl, thread labels are shifted by the number of threads before, thread_min_max is concatenated, nlive_array at each sample is the number of threads of all runs whose interval (start, end] contains its logl.", "quantifier": "every list of valid runs; every argsort", "why_tests_cant": "All numbers of runs and interleavings of logls.", "anchors": ["nestcheck/ns_run_utils.py:combine_ns_runs"]}
{"id": "C21", "title": "Combined runs are valid", "statement": "Whenever combine_ns_runs returns, check_ns_run accepts the result; a single-run list is returned unchanged (including its output information).", "quantifier": "every list of runs on which it returns", "why_tests_cant": "All inputs.", "anchors": ["nestcheck/ns_run_utils.py:combine_ns_runs", "nestcheck/ns_run_utils.py:check_ns_run"]}
{"id": "C22", "title": "Additive run information is summed, or dropped if any run lacks it", "statement": "combine_ns_runs sets output[nlike] (output[ndead]) to the total over runs, summing list values, if every run has it, and omits it otherwise.", "quantifier": "every list of runs and output dictionaries", "why_tests_cant": "All mixtures of present, missing, list and scalar values.", "anchors": ["nestcheck/ns_run_utils.py:combine_ns_runs"]}
{"id": "C23", "title": "Combining threads neither loses nor invents samples", "statement": "Whenever combine_threads returns, the (logl, theta) rows of the result are a permutation of all rows of the input threads (with multiplicity for repeated threads), in ascending logl.", "quantifier": "every list of threads incl. repeated ones, every argsort, every random outcome", "why_tests_cant": "Bootstrap uses arbitrary multisets of threads.", "anchors": ["nestcheck/ns_run_utils.py:combine_threads"]}
{"id": "C24", "title": "Live point counts of every constructed run are positive and end at 1", "statement": "Every run returned by dict_given_run_array (hence by get_run_threads, combine_threads, combine_ns_runs of several runs, process_dynesty_run) has nlive_array >= 1 everywhere and = 1 at the last sample.", "quantifier": "every samples array and thread_min_max", "why_tests_cant": "All inputs.", "anchors": ["nestcheck/ns_run_utils.py:dict_given_run_array"]}
{"id": "C25", "title": "Bootstrap resampling of a static run never fails", "statement": "If all threads start from the whole prior (and no thread contains tied logls), bootstrap_resample_run succeeds for every random outcome and every seed which np.random.seed accepts; the threads are successive draws of the generator below the number of threads (every choice being possible); the result has exactly their samples, keeps the settings, and its nlive_array at the first of each group of equal logls is the number of drawn threads not yet ended.", "quantifier": "every such run, every random outcome, every argsort", "why_tests_cant": "Every multiset of threads may be drawn.", "anchors": ["nestcheck/error_analysis.py:bootstrap_resample_run", "nestcheck/ns_run_utils.py:combine_threads"]}
{"id": "C26", "title": "Bootstrap with a seed is reproducible and side-effect free", "statement": "With random_seed not False, the result of bootstrap_resample_run does not depend on the global random state, and the state after a successful call equals the state before; the same for run_bootstrap_values with its default seeds.", "quantifier": "every run, every seed, every initial random state", "why_tests_cant": "Hidden global state.", "anchors": ["nestcheck/error_analysis.py:bootstrap_resample_run", "nestcheck/error_analysis.py:run_bootstrap_values"]}
{"id": "C27", "title": "ninit_sep keeps the initial threads", "statement": "With ninit_sep=True and settings ninit, the resample contains exactly ninit threads drawn from the first ninit and n-ninit from the others, for every random outcome. Without ninit in the settings there is one warning and the result is that of ninit_sep=False.", "quantifier": "every run and random outcome", "why_tests_cant": "Random.", "anchors": ["nestcheck/error_analysis.py:bootstrap_resample_run"]}
{"id": "C28", "title": "Runs with settings are rejected", "statement": "check_ns_run raises AssertionError for every run carrying the settings key which ninit_sep needs, and combine_ns_runs fails for every list containing such a run.", "quantifier": "every run with settings", "why_tests_cant": "Interaction of two features.", "anchors": ["nestcheck/ns_run_utils.py:check_ns_run_members", "nestcheck/error_analysis.py:bootstrap_resample_run"]}
{"id": "C29", "title": "Prior volumes shrink", "statement": "get_logx is strictly decreasing and negative for positive nlive, both for expected values and for simulated values with any draws in (0,1); nonpositive nlive raises AssertionError.", "quantifier": "every nlive array, every random draws", "why_tests_cant": "All sizes and draws.", "anchors": ["nestcheck/ns_run_utils.py:get_logx"]}
{"id": "C30", "title": "Weights partition the prior volume", "statement": "exp(get_logw - logl) are all positive and sum to exactly 1 (trapezium rule assigns all of the prior volume), for every number of samples including 1 and 2, expected or simulated.", "quantifier": "every nlive array, every draws, exact real arithmetic", "why_tests_cant": "Algebraic identity for all n.", "anchors": ["nestcheck/ns_run_utils.py:get_logw", "nestcheck/ns_run_utils.py:log_subtract"]}
{"id": "C31", "title": "Trapezium rule", "statement": "exp(get_logw)[i] = L_i (X_{i-1}-X_{i+1})/2 for inner points, with the documented end corrections.", "quantifier": "every run", "why_tests_cant": "For all n.", "anchors": ["nestcheck/ns_run_utils.py:get_logw"]}
{"id": "C32", "title": "Evidence lies between the extreme likelihoods", "statement": "logl.min() <= logz <= logl.max(), evidence = exp(logz); adding c to every logl adds c to logz and leaves the parameter estimators unchanged.", "quantifier": "every run, every c", "why_tests_cant": "Reals.", "anchors": ["nestcheck/estimators.py:logz", "nestcheck/estimators.py:evidence", "nestcheck/estimators.py:param_mean"]}
{"id": "C33", "title": "Relative weights", "statement": "get_w_rel has maximum exactly 1, is positive, and is proportional to exp(logw); estimators computed with w_rel equal those with the unnormalised weights.", "quantifier": "every run", "why_tests_cant": "Reals.", "anchors": ["nestcheck/ns_run_utils.py:get_w_rel", "nestcheck/estimators.py:param_mean"]}
{"id": "C34", "title": "Posterior mean estimators are averages", "statement": "param_mean lies between the least and greatest value of the parameter, is affine equivariant, param_mean^2 <= param_squared_mean, r_mean >= |param_mean|; an out of range param_ind gives nan or IndexError according to handle_indexerror.", "quantifier": "every run and parameter", "why_tests_cant": "Reals.", "anchors": ["nestcheck/estimators.py:param_mean", "nestcheck/estimators.py:param_squared_mean", "nestcheck/estimators.py:r_mean"]}
{"id": "C35", "title": "Weighted quantiles", "statement": "weighted_quantile lies between the extreme values, is nondecreasing in probability, invariant to scaling the weights, equivariant under increasing affine maps, and rejects probabilities outside (0,1).", "quantifier": "all values, weights, probabilities; every argsort", "why_tests_cant": "Reals and all sizes.", "anchors": ["nestcheck/estimators.py:weighted_quantile", "nestcheck/estimators.py:param_cred", "nestcheck/estimators.py:r_cred"]}
{"id": "C36", "title": "Quantiles with equal weights agree with the median", "statement": "With equal weights weighted_quantile(0.5) is the usual median (middle element, or mean of the two middle elements).", "quantifier": "every list of values", "why_tests_cant": "All sizes.", "anchors": ["nestcheck/estimators.py:weighted_quantile"]}
{"id": "C37", "title": "run_estimators evaluates each estimator on the same weights", "statement": "run_estimators returns one value per estimator, in order, each equal to calling the estimator alone on the run.", "quantifier": "every estimator list, every run", "why_tests_cant": "All lists.", "anchors": ["nestcheck/ns_run_utils.py:run_estimators"]}
{"id": "C38", "title": "flip_skew preserves mean and standard deviation", "statement": "Mapping bootstrap values X to 2 mean - X leaves mean and sample standard deviation unchanged and is an involution.", "quantifier": "all values", "why_tests_cant": "Reals.", "anchors": ["nestcheck/error_analysis.py:run_bootstrap_values"]}
{"id": "C39", "title": "One-thread runs have zero bootstrap error", "statement": "For a run with one thread every bootstrap replication reproduces the run, so run_std_bootstrap is 0 and run_ci_bootstrap equals the estimator value, for every estimator that depends on samples and weights.", "quantifier": "every one-thread run, estimators, seeds", "why_tests_cant": "Random.", "anchors": ["nestcheck/error_analysis.py:run_std_bootstrap", "nestcheck/error_analysis.py:run_ci_bootstrap"]}
{"id": "C40", "title": "Bootstrap credible intervals are monotone", "statement": "run_ci_bootstrap is nondecreasing in cred_int and bounded by 2T - max and 2T - min of the bootstrap values. Without replications it raises ValueError.", "quantifier": "all bootstrap values and levels", "why_tests_cant": "Reals.", "anchors": ["nestcheck/error_analysis.py:run_ci_bootstrap"]}
{"id": "C41", "title": "Implementation error estimate", "statement": "implementation_std returns imp_std = sqrt(max(0, vals_std^2 - bs_std^2)), hence imp_std^2 + bs_std^2 = vals_std^2 when vals_std >= bs_std, 0 <= imp_frac <= 1; and leaves the random state unchanged. Their uncertainties are the unbiased standard deviations over the simulations of the signed root of x^2 - y^2 and of its ratio to x, with x and y drawn from the same seeded state for every position; nan if a simulated value is.", "quantifier": "all inputs", "why_tests_cant": "Reals.", "anchors": ["nestcheck/error_analysis.py:implementation_std"]}
{"id": "C42", "title": "Pairwise distances enumerate each unordered pair once", "statement": "pairwise_distances has one row per unordered pair (i, j), j < i, in order, n(n-1)/2 in total.", "quantifier": "every list", "why_tests_cant": "All sizes.", "anchors": ["nestcheck/error_analysis.py:pairwise_distances"]}
{"id": "C43", "title": "Error summaries do not depend on the parallel schedule", "statement": "Means and standard deviations over runs (and over pairs for symmetric distances) reported by the error summary do not change when workers finish in a different order; whether it succeeds does not either, if no thread values are asked for or all runs have equally many threads; and it succeeds for three or more runs whenever the values can be computed.", "quantifier": "every completion order", "why_tests_cant": "Nondeterministic schedule.", "anchors": ["nestcheck/diagnostics_tables.py:run_list_error_values", "nestcheck/diagnostics_tables.py:error_values_summary", "nestcheck/pandas_functions.py:summary_df"]}
{"id": "C44", "title": "When thread_values_df succeeds", "statement": "thread_values_df succeeds exactly when the run whose computation finishes first has as many threads as the first run of the list, otherwise it raises AssertionError: so with parallel=True success depends on the order of completion. On success the rows are those of all the runs in order of completion.", "quantifier": "every completion order, runs with different thread counts", "why_tests_cant": "Schedule dependent.", "anchors": ["nestcheck/diagnostics_tables.py:thread_values_df"]}
{"id": "C45", "title": "parallel_apply and parallel_map compute the map", "statement": "parallel_map returns [f(x)] in input order for every schedule; parallel_apply returns a permutation of it, in input order when parallel=False; if f raises, one of the raised errors is raised. A chunksize of 0 is a ValueError.", "quantifier": "every schedule, function, input", "why_tests_cant": "Nondeterministic schedule.", "anchors": ["nestcheck/parallel_utils.py:parallel_map", "nestcheck/parallel_utils.py:parallel_apply"]}
{"id": "C46", "title": "Saved results are reloaded exactly", "statement": "After a successful pickle_save, pickle_load of the same name returns the saved object; saving does not touch any other file; a decorated function with save_name computes once and then returns the stored value without being called. The directory made is the part of the name before the last slash, without slashes at its end, and none is made if there is no such part. pickle_load of a name which was not saved raises FileNotFoundError and changes nothing.", "quantifier": "every file system state, every history of calls", "why_tests_cant": "All histories.", "anchors": ["nestcheck/io_utils.py:pickle_save", "nestcheck/io_utils.py:pickle_load", "nestcheck/io_utils.py:save_load_result"]}
{"id": "C47", "title": "What pickle_save without overwriting may change", "statement": "With overwrite_existing=False the file with the requested name, if there is one, never changes, and only the time-stamped file can change; it is overwritten if it exists already (three saves within a second lose the second).", "quantifier": "every file system state and clock", "why_tests_cant": "Needs two saves in the same second.", "anchors": ["nestcheck/io_utils.py:pickle_save"]}
{"id": "C48", "title": "Crashes of pickle_save", "statement": "At every point of pickle_save each file is as before, except that the file being written may hold a beginning of the new pickle; the old contents are lost as soon as it is opened. A file with a truncated pickle makes every later decorated call with that name fail without calling the function, for ever; the same after a result which cannot be pickled.", "quantifier": "every crash point", "why_tests_cant": "Crash points.", "anchors": ["nestcheck/io_utils.py:pickle_save", "nestcheck/io_utils.py:save_load_result"]}
{"id": "C49", "title": "pickle_save never raises on operating-system write errors", "statement": "Any OSError or MemoryError while opening or writing is turned into a warning (not only permission errors).", "quantifier": "every OS error", "why_tests_cant": "The PermissionError name is shadowed, invisible to tests.", "anchors": ["nestcheck/io_utils.py:pickle_save"]}
{"id": "C50", "title": "Stats files round-trip", "statement": "process_polychord_stats reads back from the file written by write_stats_file exactly the dictionary it returned, for any number of clusters, parameters and parameter speeds, if and only if ncluster is the length of logZs and logZerrs, param_means and param_mean_errs have the same length, and no nlike/avnlike/avnlikeslice is a tuple or a list of one number. Otherwise the lists are cut to the common length, ncluster is their length, one-element lists become numbers and tuples become lists. Writing changes only the one file, keeps every given key, uses the documented defaults for missing keys, and is refused exactly for a missing mandatory or unknown key. From any file of the layout which PolyChord writes, with or without a final newline and for any number of clusters, what its lines say is read; nlike is nan if it is not made of integers, and the means of parameters are missing for the shorter files of old versions. Conversely, whatever is returned is what the lines of the file say. Errors of an existing file are only IndexError and ValueError: an IndexError for a file cut off before the line of the mean numbers of likelihood calls, a ValueError or IndexError for an evidence which is not a number or is missing; a file cut off later is read, with a prefix of the means of parameters or without them. The written file has a fixed layout: headings, the words of every line, the numbering of clusters and parameters from 1, aligned columns for up to 99 clusters and 999 parameters; ncluster is not written.", "quantifier": "every output dictionary (lists of any length)", "why_tests_cant": "Line offsets depend on the number of clusters.", "anchors": ["nestcheck/write_polychord_output.py:write_stats_file", "nestcheck/data_processing.py:process_polychord_stats"]}
{"id": "C51", "title": "Latex names identify estimators", "statement": "get_latex_name gives different names to different (estimator, param_ind, probability to 1e-6 percent) triples where these apply; there are different probabilities closer than that with the same name. The name shows param_ind + 1 in decimal digits and the probability as a percentage correct to half of a millionth without superfluous zeros, or as the median exactly for 0.5. Unknown functions are a KeyError, unknown keywords a TypeError; a functools.partial has the name of the function with the keywords of both, and a keyword in both is an AssertionError.", "quantifier": "every param_ind and probability", "why_tests_cant": "All integers.", "anchors": ["nestcheck/estimators.py:get_latex_name"]}
{"id": "C52", "title": "Interleaving for fgivenx is lossless", "statement": "alternate_helper applied to nan-padded interleaved arrays calls func with exactly the two original arrays, when those contain no nan.", "quantifier": "all arrays and pads", "why_tests_cant": "All sizes.", "anchors": ["nestcheck/plots.py:alternate_helper", "nestcheck/plots.py:plot_bs_dists"]}
{"id": "C53", "title": "Relative posterior mass is normalised", "statement": "rel_posterior_mass integrates (trapezium rule) to 1 over ascending logx and is positive.", "quantifier": "all logx, logl", "why_tests_cant": "Reals.", "anchors": ["nestcheck/plots.py:rel_posterior_mass"]}
{"id": "C54", "title": "Weighted KDE effective sample size", "statement": "weighted_1d_gaussian_kde has 1 <= nsamp_eff <= n, nsamp_eff = n for equal weights, is nonnegative and does not change when weights are rescaled. Without two samples of different values and nonzero weights it is nan, without samples 0.", "quantifier": "all samples and weights", "why_tests_cant": "Reals.", "anchors": ["nestcheck/plots.py:weighted_1d_gaussian_kde"]}
{"id": "C55", "title": "Random state after plotting", "statement": "A successful bs_param_dists, or param_logx_diagram with thin=1, leaves the global random state as it was, and what is plotted does not depend on it. param_logx_diagram with thin != 1 leaves a state which does not depend on the state before the call, because the saved state is overwritten. A random_seed which np.random.seed does not accept (negative, or at least 2^32) is a ValueError in both, with nothing plotted or changed.", "quantifier": "every input and initial random state", "why_tests_cant": "Hidden state.", "anchors": ["nestcheck/plots.py:param_logx_diagram", "nestcheck/plots.py:bs_param_dists"]}
{"id": "C56", "title": "Efficiency gains", "statement": "get_eff_gain is adjust * (base_std/meth_std)^2, equals adjust for identical methods, and its uncertainty is the first-order propagated one, unchanged by rescaling units; efficiency_gain_df accepts only distinct names and its gains are the ratio of the variances of the first method and of each other method times the ratio of sample numbers; those in rmse are the ratio of mean squared errors times the ratio of sample numbers, with propagated uncertainty. AssertionError if the lengths of the arguments differ; otherwise the error of the first method whose values cannot be summarised; otherwise ValueError without methods or for an empty or repeated name; otherwise it works.", "quantifier": "all inputs", "why_tests_cant": "Reals.", "anchors": ["nestcheck/pandas_functions.py:get_eff_gain", "nestcheck/pandas_functions.py:array_ratio_std"]}
{"id": "C57", "title": "Summary statistics", "statement": "summary_df: std^2 is the unbiased variance, mean uncertainty = std/sqrt(n), std uncertainty = std/sqrt(2(n-1)), rmse^2 = (mean - true)^2 + (n-1)/n std^2 with the true value of the same column, with uncertainty that of the mean squared error over 2 rmse (nan if rmse is 0, or with a nan); all invariant to row order. It fails exactly if the number of true values is wrong or rmse is asked for without them (AssertionError), or for a single row (ZeroDivisionError).", "quantifier": "all data", "why_tests_cant": "Reals.", "anchors": ["nestcheck/pandas_functions.py:summary_df", "nestcheck/pandas_functions.py:rmse_and_unc"]}
{"id": "C58", "title": "Dummy runs are valid", "statement": "get_dummy_thread and get_dummy_run give runs accepted by check_ns_run for every random outcome with distinct draws. A seed which np.random.seed does not accept is a ValueError, and nothing is drawn.", "quantifier": "every random outcome", "why_tests_cant": "Random.", "anchors": ["nestcheck/dummy_data.py:get_dummy_thread", "nestcheck/dummy_data.py:get_dummy_run"]}
{"id": "C59", "title": "When dummy dynamic runs can be made", "statement": "get_dummy_dynamic_run raises AssertionError if exactly one dynamic thread starts at the lowest initial point; otherwise it returns a complete valid run with the points of the initial and dynamic threads and nlive_array counting the threads alive.", "quantifier": "every random outcome", "why_tests_cant": "Seed dependent.", "anchors": ["nestcheck/dummy_data.py:get_dummy_dynamic_run"]}
{"id": "C60", "title": "check_ns_run accepts exactly the documented format", "statement": "check_ns_run succeeds if and only if the run has exactly the documented keys and shapes, logl is ascending, labels are exactly 0..T-1, some thread starts at -inf, and each thread starts at or above its birth contour and ends at its recorded maximum. Repeated logls are an error if dup_assert, otherwise a warning exactly if dup_warn.", "quantifier": "every run dictionary", "why_tests_cant": "All inputs.", "anchors": ["nestcheck/ns_run_utils.py:check_ns_run", "nestcheck/ns_run_utils.py:check_ns_run_members", "nestcheck/ns_run_utils.py:check_ns_run_logls", "nestcheck/ns_run_utils.py:check_ns_run_threads"]}
{"id": "C61", "title": "get_run_threads partitions the run", "statement": "get_run_threads of a valid run returns one thread per label, in label order, each with exactly the samples carrying that label in order, one live point throughout, a constant label and its own row of thread_min_max, and does not touch the random state.", "quantifier": "every valid run (ties allowed), every random state", "why_tests_cant": "All runs.", "anchors": ["nestcheck/ns_run_utils.py:get_run_threads"]}
{"id": "C62", "title": "When bootstrap with ninit_sep succeeds", "statement": "For a complete run whose first ninit threads are exactly those starting from the whole prior (none of them with its first point on the start contour of another), bootstrap_resample_run with ninit_sep=True succeeds for every random outcome if and only if each of these threads supports each other thread: it has a point below the start contour of the other, and is alive at its first point or has a point before it no farther from the contour. In particular it does not succeed for all valid runs.", "quantifier": "every valid dynamic run and random outcome", "why_tests_cant": "Only some draws fail.", "anchors": ["nestcheck/error_analysis.py:bootstrap_resample_run", "nestcheck/ns_run_utils.py:combine_threads"]}
{"id": "C63", "title": "Random state after a failed bootstrap", "statement": "If bootstrap_resample_run with a seed raises, the state left behind does not depend on the state before the call: it is not restored. Except for a seed which np.random.seed does not accept (negative, or at least 2^32): ValueError, and nothing is changed.", "quantifier": "every input and random state", "why_tests_cant": "Hidden state on the error path.", "anchors": ["nestcheck/error_analysis.py:bootstrap_resample_run"]}
{"id": "C64", "title": "Processed runs can be split and joined", "statement": "The run made by process_samples_array from a well formed samples array with distinct logls is complete (every thread starts on a point of the run, nlive_array counts the threads alive), and if at most one point is born on the lowest contour then splitting it into threads and joining them returns exactly that run.", "quantifier": "every well formed samples array with distinct logls", "why_tests_cant": "All arrays.", "anchors": ["nestcheck/data_processing.py:process_samples_array", "nestcheck/ns_run_utils.py:get_run_threads", "nestcheck/ns_run_utils.py:combine_threads"]}
{"id": "C65", "title": "Credible interval bounds with and without flip_skew", "statement": "With flip_skew=False run_ci_bootstrap gives 2T minus the (1 - cred_int) quantile of the bootstrap values. With the default flip_skew=True it gives 2T - 2 mean + the cred_int quantile of the bootstrap values: the reflection is undone.", "quantifier": "every run, estimator, level, seeds", "why_tests_cant": "Reals; the values differ only for skewed distributions.", "anchors": ["nestcheck/error_analysis.py:run_ci_bootstrap", "nestcheck/error_analysis.py:run_bootstrap_values"]}
{"id": "C66", "title": "Random state after implementation_std raises", "statement": "A negative uncertainty makes implementation_std raise ValueError, and the generator is left in the seeded state advanced by the draws made so far for that position; the caller's state is not restored. A seed which np.random.seed does not accept is a ValueError and leaves the state as it was.", "quantifier": "every input for which the normal draws are rejected", "why_tests_cant": "Global state after an error.", "anchors": ["nestcheck/error_analysis.py:implementation_std"]}
{"id": "C67", "title": "Pairwise diagnostics need three runs", "statement": "run_list_error_summary of exactly two runs fails whenever a pairwise diagnostic is asked for; if it succeeds without them, asking for bootstrap distances raises ZeroDivisionError.", "quantifier": "all pairs of runs, schedules", "why_tests_cant": "Size two; integers.", "anchors": ["nestcheck/diagnostics_tables.py:run_list_error_summary", "nestcheck/diagnostics_tables.py:error_values_summary", "nestcheck/pandas_functions.py:summary_df"]}
{"id": "C68", "title": "Uncertainties on standard deviations under Python 2.7", "statement": "With the integer division of Python 2.7 the uncertainty on every standard deviation in summary_df is 0 (or the standard deviation is undefined).", "quantifier": "all data", "why_tests_cant": "Tests only compare with stored values.", "anchors": ["nestcheck/pandas_functions.py:summary_df"]}
{"id": "C69", "title": "How many runs bs_param_dists can plot", "statement": "bs_param_dists succeeds for one to five static runs (total quantities, n_simulate > 0) and restores the random state; for six or more it raises IndexError and leaves the random generator seeded. Without replications plot_bs_dists raises ValueError. With a single subplot (no run and one quantity, or one run and no quantity) bs_param_dists raises TypeError, and with none ValueError; the random generator stays seeded.", "quantifier": "all lists of static runs, seeds and random states", "why_tests_cant": "Number of runs; hidden state.", "anchors": ["nestcheck/plots.py:bs_param_dists", "nestcheck/plots.py:plot_bs_dists"]}
{"id": "C70", "title": "How many runs param_logx_diagram can plot", "statement": "param_logx_diagram succeeds for one to three static runs, with any thinning factor in (0,1]; for four or more it never succeeds when threads are plotted, as by default. Without simulations and without logx_min it raises ValueError, without quantities IndexError and without runs NameError, and it leaves the random generator seeded.", "quantifier": "all lists of static runs, seeds, thinning factors and random draws", "why_tests_cant": "Number of runs.", "anchors": ["nestcheck/plots.py:param_logx_diagram"]}
{"id": "C71", "title": "Runs written as dead-birth arrays are recovered", "statement": "For every complete run without duplicate logls (and without settings), run_dead_birth_array followed by process_samples_array gives back the same logl, theta and nlive_array, and a valid complete run, for any starting value below all logls. The division into threads may differ.", "quantifier": "every complete run, every thread structure", "why_tests_cant": "All thread structures.", "anchors": ["nestcheck/write_polychord_output.py:run_dead_birth_array", "nestcheck/data_processing.py:process_samples_array"]}
{"id": "C72", "title": "combine_threads counts each start at the right sample", "statement": "When combine_threads joins threads (with ties or without, whether or not the birth points are present), each thread starting above -inf is counted as live from just after one sample: one on its start contour if there is any, otherwise the nearest (at the first of the samples on each likelihood, nlive is the number of threads from -inf, plus those starts below, minus the threads ended). Labels stay with their samples; the thread columns are kept exactly when they are valid. With assert_birth_point, a start which is not on exactly one sample raises AssertionError and leaves the generator seeded with 0; otherwise the generator is restored.", "quantifier": "every list of threads starting at -inf or above the lowest point, every argsort, every random outcome", "why_tests_cant": "Needs threads without their birth points, with ties.", "anchors": ["nestcheck/ns_run_utils.py:combine_threads", "nestcheck/ns_run_utils.py:dict_given_run_array"]}
{"id": "C73", "title": "Runs written in PolyChord format are read back", "statement": "A complete run (no settings, distinct logls, at least two samples, rows of theta of one length) written by write_run_output is read by process_polychord_run as a complete run with the same nlive_array, and logl and theta rounded to the precision of the format, if rounding keeps distinct likelihoods distinct and in order; the output key read has the numbers of samples, the evidence and the means written. A run with one sample is not read (IndexError). Files and keys of run[\"output\"] not concerned are left as they are, the random state changes only for equals=True, and writing again changes nothing. Writing succeeds if there are no unknown keys and, with stats_means_errs, all threads start from -inf (and n_simulate is at most 2^32, the number of seeds).", "quantifier": "every complete run, file format, content of the disk, keyword arguments and random state", "why_tests_cant": "Needs files; all thread structures and formats.", "anchors": ["nestcheck/write_polychord_output.py:write_run_output", "nestcheck/write_polychord_output.py:run_dead_birth_array", "nestcheck/write_polychord_output.py:write_stats_file", "nestcheck/data_processing.py:process_polychord_run", "nestcheck/data_processing.py:process_samples_array"]}
{"id": "C74", "title": "Posterior and equally weighted samples written", "statement": "write_run_output with posteriors=True writes a line for each sample with its relative weight, -2 logl and its parameters. With equals=True it writes, in order, exactly the samples whose relative weight is above the number drawn for them, at least one, and nequals is their number.", "quantifier": "every run, every outcome of the draws", "why_tests_cant": "Random.", "anchors": ["nestcheck/write_polychord_output.py:write_run_output"]}
{"id": "C75", "title": "Errors of write_run_output", "statement": "Without run[\"output\"] or its two names nothing is written. If the run is rejected nothing is written. If run[\"output\"] has a key which write_stats_file does not know, AssertionError is raised only after all other files were written and run[\"output\"] was changed.", "quantifier": "every run, disk, keyword arguments", "why_tests_cant": "State after an error.", "anchors": ["nestcheck/write_polychord_output.py:write_run_output", "nestcheck/write_polychord_output.py:write_stats_file"]}
{"id": "C76", "title": "Points without a thread", "statement": "For birth indexes not below -1, -1 among them, threads_given_birth_inds succeeds, also if indexes point forwards, in circles or out of the array. Points which can be followed back to the start of a thread get the labels of the canonical decomposition. Exactly if there are others there is one warning, and each of them is put into a thread which has a point before it and a point after it if there is one (so no thread begins earlier or ends later if there always is one), otherwise into any. The random state is left as it was.", "quantifier": "every list of birth indexes, every random outcome", "why_tests_cant": "Needs inconsistent birth contours.", "anchors": ["nestcheck/data_processing.py:threads_given_birth_inds"]}
{"id": "C77", "title": "Plots of the numbers of live points", "statement": "plot_run_nlive draws one line for each run of each method: nlive_array over logx, with the first value of logx replaced by 0, from the key 'logx', logx_given_logl or the expected shrinkages. The axis begins at logx_min or the lowest final logx. The relative posterior mass is proportional to L(X)X on those points of the grid where logl_given_logx is a number, and the area under it is the mean area under the lines of post_mass_norm (all lines if it is not one of the methods); the curve of the mass remaining is proportional to the sums of the first, and has the mean area of cum_post_mass_norm. For a static run the area under the line is its number of samples. A method without runs as norm gives nan. The runs given are changed (only) in the first element of their 'logx'; a second call gives the same plot, except if 'logx' has a single element.", "quantifier": "all dictionaries of runs, functions, grids and keys", "why_tests_cant": "Tests only check that a figure is returned.", "anchors": ["nestcheck/plots.py:plot_run_nlive", "nestcheck/plots.py:rel_posterior_mass", "nestcheck/plots.py:average_by_key"]}
{"id": "C78", "title": "Layouts of kde_plot_df", "statement": "For a frame with nonempty cells kde_plot_df works exactly if ncols is at least 2 and there are enough subplots; with the default ncols exactly if there are more columns than nrows (Python 2.7: and nrows divides their number). So a frame with one column is never plotted (TypeError, or IndexError for nrows > 1). Each column gets its own subplot, counted along the rows; the 200 points cover all its samples and a tenth of their range on both sides; with normalize=False the largest value of each curve is 1. The legend has the row names of the last column, and raises NameError without columns. The errors of other layouts are ZeroDivisionError (no rows), ValueError (no columns of subplots), TypeError (a single subplot) and IndexError.", "quantifier": "all frames, numbers of rows and columns", "why_tests_cant": "Tests use four columns only.", "anchors": ["nestcheck/plots.py:kde_plot_df"]}
{"id": "C79", "title": "Curves and points of param_logx_diagram", "statement": "The runs are drawn from the last to the first. For each there are n_simulate curves of the posterior mass: over the simulated logX of the samples from the last to the first, which increase, with positive values proportional to exp(logX + logL) of the same sample and area 1 (two samples or more). The points are all samples at their expected logX, or with thin < 1 those whose random number, from the generator seeded with random_seed, is at most thin: the same samples for every quantity. The line of a thread has the samples with its label, in order. All axes begin at logx_min, or at the smallest logX in the curves of the last run; curves of other runs can begin left of the plot.", "quantifier": "all runs, quantities, options, seeds and random draws", "why_tests_cant": "Tests only check that a figure is returned.", "anchors": ["nestcheck/plots.py:param_logx_diagram"]}
{"id": "C80", "title": "Bootstrap distributions and means which are plotted", "statement": "plot_bs_dists, bs_param_dists and param_logx_diagram give fgivenx for each quantity an array with a row for each of n_simulate bootstrap replications, the same replications for all quantities: values and relative weights of their samples in turn, then nan, as wide as needed for the largest. For static runs each replication has as many threads as the run, drawn with replacement. The means plotted are the weighted means of the run itself, nan if a value is nan.", "quantifier": "all runs, quantities, numbers of simulations, random draws", "why_tests_cant": "Tests only check that a figure is returned.", "anchors": ["nestcheck/plots.py:plot_bs_dists", "nestcheck/plots.py:bs_param_dists", "nestcheck/plots.py:param_logx_diagram", "nestcheck/plots.py:alternate_helper"]}
{"id": "C81", "title": "Inputs without data", "statement": "combine_ns_runs and combine_threads of nothing raise ValueError. A run without samples raises IndexError in get_run_threads, combine_threads, bootstrap_resample_run, run_bootstrap_values and run_thread_values. No runs raise ValueError in estimator_values_df and KeyError in thread_values_df and bs_values_df, in parallel or not. A dummy thread without samples raises IndexError. Apart from a seed set by the caller the random state and warnings are unchanged (except for the warning about parallel=False).", "quantifier": "all arguments and states", "why_tests_cant": "Edge cases.", "anchors": ["nestcheck/ns_run_utils.py:combine_ns_runs", "nestcheck/ns_run_utils.py:combine_threads", "nestcheck/ns_run_utils.py:get_run_threads", "nestcheck/error_analysis.py:bootstrap_resample_run", "nestcheck/error_analysis.py:run_thread_values", "nestcheck/diagnostics_tables.py:estimator_values_df", "nestcheck/diagnostics_tables.py:thread_values_df", "nestcheck/diagnostics_tables.py:bs_values_df", "nestcheck/dummy_data.py:get_dummy_thread"]}
{"id": "C82", "title": "Simulated weights errors", "statement": "run_std_simulate gives for each estimator the square root of the unbiased variance of its values in n_simulate simulations, which use successive random numbers (as many as there are samples); nan if a value is nan or n_simulate is 1; AssertionError without n_simulate.", "quantifier": "every run, estimators, random numbers", "why_tests_cant": "Random.", "anchors": ["nestcheck/error_analysis.py:run_std_simulate"]}
{"id": "C83", "title": "PolyChord runs without a readable .stats file", "statement": "process_polychord_run gives the run of the dead-birth file (columns: parameters, logl, birth contour) with the dictionary read from the .stats file as output. If reading it fails with OSError, ValueError, IndexError, NameError or TypeError there is one warning and the output has the file_root only; any other error is raised, as is any error for the samples. With process_stats_file=False it is not read.", "quantifier": "every array, every outcome of reading", "why_tests_cant": "Needs broken files.", "anchors": ["nestcheck/data_processing.py:process_polychord_run"]}
{"id": "C84", "title": "Rows of summary_df and summary_df_from_array", "statement": "The frame returned by summary_df has the rows true values (if asked for), mean, std and rmse (if asked for), each as value and then uncertainty (true values: value only), in this order, with the numbers of C57. Asking for true values without giving them raises AssertionError; otherwise the errors are those of C57. summary_df_from_array summarises the columns for axis 0 and the rows for axis 1; another axis raises AssertionError.", "quantifier": "all arrays, true values and options", "why_tests_cant": "All shapes; the order of rows.", "anchors": ["nestcheck/pandas_functions.py:summary_df", "nestcheck/pandas_functions.py:summary_df_from_array"]}
{"id": "C85", "title": "Groups of summary_df_from_multi", "statement": "For a frame with several index levels, the groups summarised are exactly the combinations of labels (of the levels kept) which occur, in increasing order; each summary is of all rows with these labels and no others, in their order; its rows carry the labels of the group; the row of true values comes last. Errors: no level (ValueError), an unknown level (KeyError), otherwise the error of a group or of missing true values.", "quantifier": "all frames, levels, labels", "why_tests_cant": "All index structures.", "anchors": ["nestcheck/pandas_functions.py:summary_df_from_multi"]}
{"id": "C86", "title": "Rows of the table of errors", "statement": "error_values_summary and run_list_error_summary return exactly the rows: true values (if asked for), mean, std and rmse of the values, bootstrap std, implementation std and its fraction, likewise for rmse if asked for, then thread and bootstrap statistics if calculated; each value followed by its uncertainty, in this order, with the numbers of C41 and C57, for any schedules of the parallel calls. Asking for true values without giving them raises AssertionError.", "quantifier": "all data, options, schedules and random draws", "why_tests_cant": "The order of rows; all options.", "anchors": ["nestcheck/diagnostics_tables.py:error_values_summary", "nestcheck/diagnostics_tables.py:run_list_error_summary"]}
{"id": "C87", "title": "Rows of the table of efficiency gains", "statement": "efficiency_gain_df returns the true values (if asked for; nan if there are none), then mean, std, rmse (if asked for), std efficiency gain and rmse efficiency gain (if asked for); in each the methods in the order given, value and then uncertainty; gains for all methods but the first; with the numbers of C56 and C57. Errors are those of C56.", "quantifier": "all methods, values, options", "why_tests_cant": "The order of rows; all options.", "anchors": ["nestcheck/pandas_functions.py:efficiency_gain_df"]}
{"id": "C88", "title": "Tables in the format of the paper", "statement": "paper_format_efficiency_gain_df applied to the table of C87 for two or more methods gives the rows 'St.Dev. M' of all methods M and 'Efficiency gain M' of all but the first, values and uncertainties, with the prefix 'dynamic ' removed from names (for names without 'std', 'dynamic ' and 'efficiency gain'). Numbers of samples and of likelihood calls are replaced by the nearest integers to their means (even ones in ties) in the St.Dev. values, nan in the other rows; a nan mean raises ValueError. Refuted: different methods have different row names ('a' and 'dynamic a' do not); names containing 'std' are kept; the result does not depend on the order of the dictionary (Python before 3.7).", "quantifier": "all tables, names and numbers", "why_tests_cant": "Text of names; ties.", "anchors": ["nestcheck/pandas_functions.py:paper_format_efficiency_gain_df"]}
{"id": "C89", "title": "Fairness of sample_less_than_condition", "statement": "For distinct choices and sorted conditions, the number of values drawn from at each step does not depend on the earlier draws (step i: the number of choices below the condition, less i), and each possible allocation (distinct choices, each below its condition) results from exactly one sequence of draws. So with fair draws all allocations are equally probable.", "quantifier": "all choices, conditions, sequences of draws", "why_tests_cant": "A claim about probabilities: needs all random outcomes.", "anchors": ["nestcheck/data_processing.py:sample_less_than_condition"]}
{"id": "C90", "title": "Bootstrap resamples on average are the run", "statement": "For a static run with n threads bootstrap_resample_run draws n times from n values, so that there are n^n equally probable sequences of draws; counting any kind of sample (for example copies of one of them) in all these resamples gives n^n times the count in the run: the expected number is that of the run.", "quantifier": "all static runs, all sequences of draws, all predicates on samples", "why_tests_cant": "A claim about expectations.", "anchors": ["nestcheck/error_analysis.py:bootstrap_resample_run"]}
{"id": "C91", "title": "Log-volumes without simulation are the expected ones", "statement": "With every number drawn from N equally spaced values in (0,1], the mean of the simulated log-volumes of get_logx over all N^n possible draws is that of simulate=False (with a relative error at most (ln N + 1)/N), and their variance is the sum of 1/n_j^2 (relative error at most ((ln N)^2 + 2 ln N + 2)/N). Both errors are at most 26/sqrt(N).", "quantifier": "all live point numbers, all N", "why_tests_cant": "A claim about expectations; all draws.", "anchors": ["nestcheck/ns_run_utils.py:get_logx"]}
{"id": "C92", "title": "Combining processed runs is processing all samples", "statement": "For two or more sets of samples with the same initial contour and logls all different, where contours with several births are not at the lowest point of all, combine_ns_runs of the processed runs gives the same logl, theta and nlive_array as process_samples_array of all the samples together.", "quantifier": "every number of sets, all samples, all options", "why_tests_cant": "Two paths through the code for all inputs.", "anchors": ["nestcheck/ns_run_utils.py:combine_ns_runs", "nestcheck/data_processing.py:process_samples_array"]}
{"id": "C93", "title": "A run given twice to combine_ns_runs is rejected", "statement": "combine_ns_runs shifts thread_labels in place in a deep copy which keeps the sharing of arrays. If two of the runs given to it share one thread_labels array (for instance the same run twice) it raises AssertionError for all runs and options. If no array is shared it does what the model of it on values does.", "quantifier": "every list of runs, every pattern of sharing, all options", "why_tests_cant": "All sharing patterns and run contents; no test combines a run with itself.", "anchors": ["nestcheck/ns_run_utils.py:combine_ns_runs"]}
{"id": "C94", "title": "check_ns_run with nan and infinite numbers", "statement": "On arrays of floats which may hold nan and infinities check_ns_run accepts a run exactly if: there is no nan among the log-likelihoods and they are in order (as extended reals); lengths agree and the labels are integers 0..n-1, all used; some thread starts at -inf; no contour is nan, each thread starts not above its first point and ends at its last one. It raises nothing but AssertionError. Points with logl -inf or +inf are accepted, and the values of theta and nlive_array are not looked at at all. For finite numbers this is the function of C60.", "quantifier": "all arrays of floats including nan and infinities, all options, every order argsort may give to equal values", "why_tests_cant": "nan compares false with everything; all contents of the arrays.", "anchors": ["nestcheck/ns_run_utils.py:check_ns_run", "nestcheck/ns_run_utils.py:check_ns_run_members", "nestcheck/ns_run_utils.py:check_ns_run_logls", "nestcheck/ns_run_utils.py:check_ns_run_threads"]}
{"id": "C95", "title": "Arguments reach the mapped function unchanged", "statement": "parallel_apply calls the function once per element x with positional arguments func_pre_args, x, func_args and keywords func_kwargs; parallel_map with func_pre_args followed by the k-th elements of its iterables, as often as the shortest has elements, and returns the values in this order. Unexpected keywords give TypeError and arguments which are not tuples AssertionError before anything is called or warned about. batch_process_data calls process_func with root, base_dir and func_kwargs without errors_to_handle; keywords called root, base_dir or process_func make every call fail. The caller gets back tqdm_kwargs with leave added and func_kwargs with errors_to_handle set (so func_kwargs is not kept: refuted), which does not change a later call.", "quantifier": "all functions without hidden state, all arguments, schedules, chunk sizes and worker numbers", "why_tests_cant": "All argument lists and schedules; the tests use one argument of each kind.", "anchors": ["nestcheck/parallel_utils.py:parallel_map", "nestcheck/parallel_utils.py:parallel_apply", "nestcheck/data_processing.py:batch_process_data", "nestcheck/data_processing.py:process_error_helper"]}
{"id": "C96", "title": "Warnings of io_utils and timing_decorator", "statement": "The warnings about a missing save_name name the function, the one about a failed save the class of the error. The warning about a failed load should name the function, the error and the file, but is the same text for all of them (msg is assigned twice): refuted. timing_decorator returns or raises what the function does, called without print_time, and prints one line exactly if print_time=True and the function returned.", "quantifier": "all names, errors, functions and keywords", "why_tests_cant": "The tests do not look at the text of warnings.", "anchors": ["nestcheck/io_utils.py:save_load_result", "nestcheck/io_utils.py:pickle_save", "nestcheck/io_utils.py:timing_decorator"]}
{"id": "C97", "title": "Processing depends on the order of log-likelihoods only", "statement": "Replacing all log-likelihoods and birth contours by a strictly increasing function of them, and the parameters by any others, changes nothing else in process_samples_array, get_run_threads, check_ns_run and combine_ns_runs: the same random draws, warnings, errors, thread labels and live points, and the results have the replaced values. The same of combine_threads if threads start on points of the threads. bootstrap_resample_run also uses distances between log-likelihoods (where a thread starts on a contour whose point was not drawn): it holds for functions keeping the order of distances too, such as shifts and rescalings, and is refuted for increasing functions in general.", "quantifier": "all runs, samples, increasing functions, random draws, options", "why_tests_cant": "Relates two executions for every input and every function.", "anchors": ["nestcheck/data_processing.py:process_samples_array", "nestcheck/ns_run_utils.py:get_run_threads", "nestcheck/ns_run_utils.py:check_ns_run", "nestcheck/ns_run_utils.py:combine_ns_runs", "nestcheck/ns_run_utils.py:combine_threads", "nestcheck/error_analysis.py:bootstrap_resample_run"]}
{"id": "C98", "title": "Estimates in other units", "statement": "If likelihoods are multiplied by a factor F > 0 and parameters by k > 0, then relative weights do not change, logZ is shifted by ln F, the evidence is multiplied by F, means, radii and credible bounds by k and mean squares by k^2. The same of every bootstrap value and bootstrap credible interval with the same random numbers; bootstrap and simulated standard deviations are multiplied accordingly without a shift, so that the error of logZ does not change.", "quantifier": "all runs, factors, estimators, random draws", "why_tests_cant": "Relates two executions for every run and factor.", "anchors": ["nestcheck/ns_run_utils.py:get_logw", "nestcheck/ns_run_utils.py:get_w_rel", "nestcheck/ns_run_utils.py:run_estimators", "nestcheck/error_analysis.py:run_bootstrap_values", "nestcheck/error_analysis.py:run_std_bootstrap", "nestcheck/error_analysis.py:run_ci_bootstrap", "nestcheck/error_analysis.py:run_std_simulate", "nestcheck/estimators.py:logz", "nestcheck/estimators.py:evidence", "nestcheck/estimators.py:param_mean", "nestcheck/estimators.py:param_cred", "nestcheck/estimators.py:param_squared_mean", "nestcheck/estimators.py:r_mean", "nestcheck/estimators.py:r_cred"]}
{"id": "C99", "title": "Order and grouping when samples and runs are put together", "statement": "With distinct log-likelihoods: process_samples_array gives the same result for the rows of the samples in any order (refuted with ties). combine_ns_runs of runs in another order gives the same log-likelihoods, parameters, live points and output, and the same threads in another order. Combining runs in groups and then the results gives exactly the run which comes of combining all at once, with labels, threads and output.", "quantifier": "all runs, permutations and groupings", "why_tests_cant": "All orders and groupings.", "anchors": ["nestcheck/data_processing.py:process_samples_array", "nestcheck/ns_run_utils.py:combine_ns_runs"]}
{"id": "C100", "title": "Weights and estimates with rounded arithmetic", "statement": "Let every operation be rounded, with exp and log approximate and sums added in any order, assuming only that rounding, exp and log keep the order, that 0, 1, 2 and rounded numbers are not changed, and that exp(0)=1 and log(1)=0; there is no overflow. If the random numbers are between 0 and 1 then: log-volumes are numbers, at most 0 and never increasing; log-weights are not nan or +inf, are at most the log-likelihood, and the last one is finite; relative weights are between 0 and 1 and one of them is exactly 1; logZ is a number not below any log-weight; evidence, means, mean squares and the mean radius are numbers (no division by zero), and not negative where they should not be. Errors do not depend on the arithmetic. Relative weights may be exactly 0 with rounding. A random number which is exactly 0 (np.random.random may return it) makes all relative weights nan, unless it belongs to one of the last two samples.", "quantifier": "all arithmetics with these properties, runs, random numbers", "why_tests_cant": "Quantifies over rounding modes, implementations of exp and log and orders of summation.", "anchors": ["nestcheck/ns_run_utils.py:get_logx", "nestcheck/ns_run_utils.py:get_logw", "nestcheck/ns_run_utils.py:get_w_rel", "nestcheck/ns_run_utils.py:log_subtract", "nestcheck/estimators.py:logz", "nestcheck/estimators.py:evidence", "nestcheck/estimators.py:param_mean", "nestcheck/estimators.py:param_squared_mean", "nestcheck/estimators.py:r_mean"]}
{"id": "C101", "title": "Rounding errors vanish with growing precision", "statement": "If the errors of rounding, exp and log are small enough, then the computed log-volumes, log-weights, relative weights, logZ, evidence, means, mean squares and mean radius of a run are as close as wanted to the values of exact arithmetic, for all orders of summation, and the computed relative weights are positive. Without rounding they are exactly the values of the model over the reals.", "quantifier": "all runs with positive numbers of live points, random numbers, required accuracies, arithmetics", "why_tests_cant": "A limit, over all arithmetics.", "anchors": ["nestcheck/ns_run_utils.py:get_logx", "nestcheck/ns_run_utils.py:get_logw", "nestcheck/ns_run_utils.py:get_w_rel", "nestcheck/ns_run_utils.py:log_subtract", "nestcheck/estimators.py:logz", "nestcheck/estimators.py:evidence", "nestcheck/estimators.py:param_mean", "nestcheck/estimators.py:param_squared_mean", "nestcheck/estimators.py:r_mean"]}
{"id": "C102", "title": "nan and infinities in a samples array", "statement": "process_samples_array raises AssertionError if a log-likelihood or a birth contour is nan, before any random number is drawn if it is a log-likelihood. On arrays without nan it does what it does on finite numbers in the same order (same draws, warnings, exceptions, labels and numbers of live points), and such finite numbers exist. A run which is returned has sorted log-likelihoods, with the parameters that were given for them. With distinct log-likelihoods, one of which may be inf, and points which die above their birth contours (-inf or the log-likelihood of a point), nlive_array[i] counts the points born below the i-th log-likelihood and dying at or above it. Refuted: that the number of live points starts at the number of initial points: a point which replaced one of log-likelihood -inf counts as an initial point.", "quantifier": "all arrays of numbers, nans and infinities, random numbers, sorting algorithms", "why_tests_cant": "The test data has finite log-likelihoods.", "anchors": ["nestcheck/data_processing.py:process_samples_array", "nestcheck/data_processing.py:birth_inds_given_contours", "nestcheck/ns_run_utils.py:check_ns_run_logls"]}
{"id": "C103", "title": "Explicit bounds on rounding errors", "statement": "Let rounding, exp and log have relative errors of at most u and np.sum add in any order. The relative error of the i-th log-volume (from 0) is at most (1+u)^(i+2) - 1: in double precision less than 1e-9 for runs of a million points. The relative error of a relative weight exp(-d) is at most (1+u)exp(ud) - 1 for computed log-weights, and it is positive. The errors of logZ (for log-weights within D of the largest) and of a parameter mean (for computed weights) have bounds in terms of u, D and the number n of points; that of the mean is (1+u)^(n+1)/(1-u)^(n-1) - 1 times the mean of the absolute values. Numbers of p bits satisfy the assumptions.", "quantifier": "all runs with positive numbers of live points, random numbers, arithmetics, u", "why_tests_cant": "Over all arithmetics and lengths of runs.", "anchors": ["nestcheck/ns_run_utils.py:get_logx", "nestcheck/ns_run_utils.py:get_logw", "nestcheck/ns_run_utils.py:get_w_rel", "nestcheck/estimators.py:logz", "nestcheck/estimators.py:param_mean"]}
{"id": "C104", "title": "Keyword arguments", "statement": "check_ns_run, combine_ns_runs (of a list which is not empty), birth_inds_given_contours, process_samples_array, process_polychord_run, process_multinest_run, run_dead_birth_array, implementation_std, count_samples, the functions making dummy runs and write_run_output raise TypeError for an unknown keyword, before anything is drawn, warned about or written (for MultiNest after the order of live and dead points was checked); known keywords in any order, and defaults for those not given, reach the computation as documented. run_bootstrap_values looks for n_simulate (KeyError), compares the number of seeds (AssertionError) and only then notices unknown keywords; run_ci_bootstrap needs cred_int, which run_std_bootstrap does not know. A decorated function with an unknown keyword raises TypeError and saves nothing, but if a saved result is loaded then no keyword is checked. Refuted: get_dummy_dynamic_run accepts its documented keyword logl_start.", "quantifier": "all dictionaries of keywords, runs, samples, files, worlds", "why_tests_cant": "Over all sets of keywords, values and orders.", "anchors": ["nestcheck/ns_run_utils.py:check_ns_run", "nestcheck/ns_run_utils.py:combine_ns_runs", "nestcheck/data_processing.py:birth_inds_given_contours", "nestcheck/data_processing.py:process_samples_array", "nestcheck/data_processing.py:process_polychord_run", "nestcheck/data_processing.py:process_multinest_run", "nestcheck/error_analysis.py:run_bootstrap_values", "nestcheck/error_analysis.py:run_std_bootstrap", "nestcheck/error_analysis.py:run_ci_bootstrap", "nestcheck/error_analysis.py:implementation_std", "nestcheck/estimators.py:count_samples", "nestcheck/dummy_data.py:get_dummy_thread", "nestcheck/dummy_data.py:get_dummy_run", "nestcheck/dummy_data.py:get_dummy_dynamic_run", "nestcheck/write_polychord_output.py:write_run_output", "nestcheck/write_polychord_output.py:run_dead_birth_array", "nestcheck/io_utils.py:save_load_result", "nestcheck/diagnostics_tables.py:run_list_error_values", "nestcheck/diagnostics_tables.py:estimator_values_df"]}
{"id": "C105", "title": "Arrays changed by the kernel density estimate", "statement": "weighted_1d_gaussian_kde normalises its argument weights in place: afterwards they sum to 1 (nan if the sum was 0) and no other memory is changed; arrays of different lengths raise AssertionError before any change. A second call with the same arrays gives the same result and changes nothing. alternate_helper works on a copy: no memory which existed before is changed. If samples and weights are one array, the samples are divided by their sum as well. Refuted: the result is a function of the values of the arrays.", "quantifier": "all memories, arrays and slices", "why_tests_cant": "Over all ways in which arrays can share memory.", "anchors": ["nestcheck/plots.py:weighted_1d_gaussian_kde", "nestcheck/plots.py:alternate_helper"]}
{"id": "C106", "title": "Names of the cache files of plots", "statement": "With cache=None, or anything to which a string cannot be added, bs_param_dists and param_logx_diagram use no cache. With a string, every run and quantity of bs_param_dists has a cache file of its own; in param_logx_diagram the weights of each run have one of their own. The two functions do not share files if given the same string. Refuted: in param_logx_diagram the distributions of different runs have different files (they share them for every two runs); with different strings the files of the two functions differ.", "quantifier": "all numbers of runs and quantities, all strings", "why_tests_cant": "Over all strings and numbers.", "anchors": ["nestcheck/plots.py:plot_bs_dists", "nestcheck/plots.py:bs_param_dists", "nestcheck/plots.py:param_logx_diagram"]}
{"id": "C107", "title": "Mean and spread of bootstrap resamples", "statement": "For a run with n threads made of a static set of live points and any number attached to each sample, the sum of these numbers over a resampled run has, over all n^n equally likely choices of threads, mean equal to the sum over the original run and variance equal to the sum over threads of the squared deviation of the sum over a thread from its mean. With ninit_sep the initial and the added threads are resampled separately: the mean is the same and the variance is the sum of the two variances, each about the mean of its own set of threads.", "quantifier": "all runs, numbers of threads, functions of samples", "why_tests_cant": "Over all runs and all n^n outcomes.", "anchors": ["nestcheck/error_analysis.py:bootstrap_resample_run", "nestcheck/ns_run_utils.py:get_run_threads", "nestcheck/ns_run_utils.py:combine_threads"]}
{"id": "C108", "title": "Expected prior volumes and evidence", "statement": "The mean over simulated draws of the prior volume of sample i is the product of n/(n+1) over the numbers of live points n of the samples up to i, with a relative error which vanishes as the grid of draws gets finer; the volume used without simulation, exp of the expected log-volume, is strictly smaller, by a factor of at least exp(-sum 1/(2 n^2)). In the same way the mean of the simulated evidences is the evidence computed with the expected volumes, and the evidence without simulation is at most this and at least this times exp(-sum 1/(2 n^2)).", "quantifier": "all numbers of live points and sorted likelihoods, all finenesses N", "why_tests_cant": "Over all runs and a limit.", "anchors": ["nestcheck/ns_run_utils.py:get_logx", "nestcheck/ns_run_utils.py:get_logw", "nestcheck/estimators.py:evidence"]}
{"id": "C109", "title": "Runs and threads with different numbers of parameters", "statement": "combine_ns_runs of two or more valid runs and combine_threads of threads raise ValueError, without changing the random state, when the numbers of parameters differ; when they succeed all runs (threads) have one number of parameters and it is that of the result. A single run is returned as it is. When there is one number of parameters the functions agree with the model without widths, so all that is proved about it holds; the resample of a run by bootstrap_resample_run then has the same number of parameters.", "quantifier": "all runs, threads, settings and random states", "why_tests_cant": "Over all runs of all dimensions.", "anchors": ["nestcheck/ns_run_utils.py:combine_ns_runs", "nestcheck/ns_run_utils.py:combine_threads", "nestcheck/error_analysis.py:bootstrap_resample_run"]}
{"id": "C110", "title": "MultiNest files", "statement": "process_multinest_run raises OSError when one of its two files is missing, IndexError when one of them has less than two rows or too few columns, AssertionError when some live point is not above all dead points, and then ValueError when the numbers of parameters in the files differ; in all these cases the random state is not changed. Otherwise the result is that of process_samples_array for the parameters, likelihoods and birth contours of all rows of both files (the last two columns of the dead file and the last one of the live file are ignored) with file_root and base_dir, or AssertionError if some thread does not start from the whole prior. Files written with np.savetxt give the samples up to the rounding of the format. With dup_assert and dup_warn given as keywords or not at all (False) this is the function of their values; an unknown keyword is a TypeError, raised only for files which pass the checks above.", "quantifier": "all files, names, options, keywords and random states", "why_tests_cant": "Over all contents of files.", "anchors": ["nestcheck/data_processing.py:process_multinest_run"]}
{"id": "C111", "title": "Keyword arguments of the plots", "statement": "bs_param_dists, param_logx_diagram, plot_bs_dists, plot_run_nlive and kde_plot_df raise TypeError for an unknown keyword, before any draw of random numbers or change of a run. With known keywords in any order they are the functions of their arguments, with the defaults: the first two parameters as quantities, as many labels and limits as quantities, 100 simulations, seed 0, thread 0 and five colours, no thinning, 100 points, one row of plots, normalised densities and no legend; plot_bs_dists plots means exactly if mean_color is not None. A seed which is neither None nor an integer is a TypeError without any change. kde_plot_df raises AssertionError if xlims is neither None nor a dictionary, and ZeroDivisionError for zero rows, whatever the other keywords.", "quantifier": "all keyword dictionaries, runs and random states", "why_tests_cant": "Over all keywords and values.", "anchors": ["nestcheck/plots.py:bs_param_dists", "nestcheck/plots.py:param_logx_diagram", "nestcheck/plots.py:plot_bs_dists", "nestcheck/plots.py:plot_run_nlive", "nestcheck/plots.py:kde_plot_df"]}
{"id": "C112", "title": "Keyword arguments of tables and of pickle_save", "statement": "summary_df, summary_df_from_array, summary_df_from_list, summary_df_from_multi, error_values_summary, run_list_error_values, run_list_error_summary, efficiency_gain_df, pickle_save and pickle_load raise TypeError for an unknown keyword, without any change of random state or files; summary_df_from_array and summary_df_from_list notice a wrong axis or wrong number of names first, summary_df_from_multi only notices if there is a group, and run_list_error_summary before it calculates anything. With known keywords in any order they are the functions of their arguments with the defaults; the keywords of run_list_error_summary are split between run_list_error_values and the summary, and true_values of summary_df_from_multi is used for the groups and for the last row. True values or adjust_nsamp which are no array are an AttributeError. With any extension a saved object is in the file of this extension, or with overwrite_existing=False and an existing file in one with the time appended, no other file is changed, and pickle_load with the extension returns it.", "quantifier": "all keyword dictionaries, tables, runs, file systems and random states", "why_tests_cant": "Over all keywords and values.", "anchors": ["nestcheck/pandas_functions.py:summary_df", "nestcheck/pandas_functions.py:summary_df_from_array", "nestcheck/pandas_functions.py:summary_df_from_list", "nestcheck/pandas_functions.py:summary_df_from_multi", "nestcheck/pandas_functions.py:efficiency_gain_df", "nestcheck/diagnostics_tables.py:error_values_summary", "nestcheck/diagnostics_tables.py:run_list_error_values", "nestcheck/diagnostics_tables.py:run_list_error_summary", "nestcheck/io_utils.py:pickle_save", "nestcheck/io_utils.py:pickle_load"]}
