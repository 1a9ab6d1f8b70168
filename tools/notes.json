{
 "C07": "REFUTED: rt1.py:1378 computes 1.0/mu_ex**(-1) = mu_ex instead of 1/mu_ex; C07_jacobian_tau_refuted is a concrete counterexample, C07_jacobian_tau_error_term the exact error for every geometry, C07_jacobian_tau_partial the cases in which the entry is right. C07_exactly: the entry is the derivative if and only if the exit direction is vertical or the volume contributes nothing.",
 "C100": "REFUTED: an existing copy of the config-file in the dumpfolder is used instead of the given config-file if there are no overrides - overrides of an earlier run stay in effect after they have been withdrawn (C100_refuted, C100_existing_copy); with overrides the existing copy is overwritten in spite of the comment \"NO files will be overwritten\" (C100_overwritten_refuted).  Proved: the configuration is config-file + overrides if the files are not copied, or there are overrides, or there is no copy in the folder, or the folder has been removed (C100_configuration).",
 "C101": "REFUTED: share_fnevals and share_auxdata have no effect (C101_options_refuted), ID and verbose are not shared (C101_ID_refuted).  Proved: all other attributes (C101_attributes; sorted dataset, no attribute None).",
 "C102": "Fits objects are created per feature (C102_own_data); for MultiFits equality with the first-feature run for every history (C102_history), except for aux_data (C67).  The least-squares fit is an arbitrary function of definition, functions of the interaction term and dataset; performfit(clear_cache=True) clears all caches first (modelled in Ses).",
 "C103": "REFUTED for MultiFits: with save_res_df every feature fails (TypeError, C103_multi_refuted).  Proved for Fits (C103_fit).",
 "C104": "check_integrity = Ok iff usable, and the exceptions otherwise.",
 "C105": "float, int and strptime are oracles on strings. The list_keys branch of _parse_dict is unreachable (both property tables leave it empty).",
 "C106": "All reachable defdicts; position 3 takes a tuple ([min],[max]).",
 "C107": "REFUTED: requesting a constant variable fails with AttributeError and the file is not exported (C107_constant_refuted); with pandas >= 1.5 (a set is no indexer) every file fails if a model contribution is requested (C107_contributions_refuted).  Proved: exact contents of both tables for the first fit if every parameter has a source (C107_requested), for all fits in C109_every_fit.",
 "C108": "REFUTED: the options are not passed on, the result does not depend on them (C108_options_refuted, C108_not_converted_refuted).  Proved: the extraction itself converts (C108_getparams).",
 "C109": "REFUTED: if the function returns a number, the name is removed from the request that all later fits share, so that it is exported for the first fit of a process only (C109_scalar_once_refuted); a function for a model contribution is not called (C109_contribution_refuted).  Proved: exact contents for every configuration of every file if no function returns a number (C109_every_fit).",
 "C110": "Every file that is written (C110_metrics); a metric that cannot be evaluated loses the file (C110_bad_metric).",
 "C111": "FULL: convergence for every continuous BRDF; real arithmetic; simps with even=\"avg\" (scipy up to 1.10).",
 "C112": "REFUTED: for Isotropic with NormBRDF = 1 (reflectance exactly 1) the warning is given for every odd simps_N >= 3, because Simpson's rule overestimates the integral; not for even simps_N (default 1000).  C112_limit: right whenever no reflectance on the grid equals 1 and simps_N is large enough.",
 "C113": "REFUTED: components of a linear combination are initialised without the values: a fixed number is not used there (C113_components_refuted, exact: C113_component_attributes), and their symbols are not in free_symbols (C113_free_symbols_refuted).  Proved: attributes and weights of the function itself (C113_attributes, C113_weights) and the exact free_symbols (C113_free_symbols).",
 "C114": "REFUTED: set_V_SRF is called with the names as strings: x + y is stored as 'xy' (C114_sum_refuted), 2 * x as 'xx' (C114_multiple_refuted), 0.5 * x is a TypeError that is logged, nothing is stored and the file cannot be loaded (C114_float_refuted).  Proved: if no operator is applied to a bare variable, original and loaded attributes both have the value that is meant (C114_loaded, C114_original).",
 "C115": "REFUTED: infinite bounds (C115_bounds_refuted), nan, arrays and dates raise a ValueError when the file is loaded (C115_error).  Proved: read back exactly when made of None, booleans, finite numbers, strings, lists, tuples and dicts (C115_literal).",
 "C116": "FULL: C116_residuals (one entry for each observation, own parameter values) and C116_objective (sum of squares over the reals).",
 "C117": "REFUTED: rows are in the order of the combined groups, not of the dataset (C117_order_refuted).  Proved: one row for each observation, and dataset order exactly if the groups are contiguous (C117_rows).",
 "C118": "REFUTED: if observations of one date belong to different groups, values are dropped (C118_refuted).  Proved: the value is the one of the first processed observation of the date (C118_res_df); of all of them if the groups do not split dates (C118_dates). C118_exactly: the table holds the value of every observation if and only if observations of the same date have the same value.",
 "C119": "FULL: C119_res_df_group.",
 "C120": "REFUTED: whether groups recur is checked on the group numbers of the combined groups in order of first appearance, so that groups 1, 2, 1, 2 get one node each at the overall mean (C120_recurring_refuted).  Proved whenever increasing numbers imply contiguous groups (C120_nodes). C120_exactly: the nodes are those of the runs if and only if increasing numbers imply contiguous groups.",
 "C121": "FULL: C121_roundtrip, C121_cycles (any sequence), C121_multi.",
 "C122": "REFUTED: a second mini dump of the loaded fit empties fit_output (C122_second_refuted); if the file cannot be opened the object stays marked and its next copy is reduced (C122_failed_refuted).  Proved: the first dump keeps them (C122_kept).",
 "C123": "FULL: C123_first_order_solution (existence and uniqueness for general functions), C123_calc (the code, all expansions).  C123_printed_formula_differs: the formula printed in doc/theory.rst (same exponential in front of both interaction terms) is not the solution; the code is right.",
 "C124": "REFUTED: names with a dot are cut (C124_suffix_refuted: results['run'] is the folder run.bak; results['v1.2'] is not found); results inside a result, as in the documentation, are not reachable (C124_nested_refuted). Holds for names without dots and up to 100 entries (C124_found, C124_each_once, C124_itself); C124_only without conditions.",
 "C125": "REFUTED for IDs that end with .dump (C125_dumpname_refuted). Otherwise C125_listing, C125_by_name, C125_missing, C125_nth, C125_dump_fits.",
 "C126": "REFUTED: return_ID=True always raises (C126_return_ID_refuted); the integer is the number of the feature, not its position (C126_nth_refuted). C126_by_name holds, C126_nth if the numbers are 0, 1, 2, ... in the order of storage. C126_exactly: load_fit(i) is the i-th feature for all i if and only if the numbers are 0, 1, 2, ... in the order of storage.",
 "C127": "REFUTED: with a relative save path no fit is loaded (C127_relative_refuted); later calls use the mode of the first one (C127_mode_refuted); a folder name with a dot raises AttributeError (C127_folder_refuted). C127_absolute, C127_mode hold.",
 "C128": "REFUTED: get_data without config raises KeyError for every table (C128_get_data_const_refuted); a table with the name of a config is hidden (C128_hidden_refuted). C128_access, C128_get_data hold otherwise.",
 "C129": "REFUTED: a table with a simple index ends the call with TypeError for 'all' and lists (C129_all_refuted), and by default its index is asked for a column '1' (C129_single_refuted). C129_levels for files with MultiIndex tables only. C129_exactly: with 'all' or a list it ends without an exception if and only if no table has a simple index; with the default a simple index never raises.",
 "C13": "REFUTED for the memoised cosine powers (lru_cache keyed by the object, rt1.py:1326-1338): C13_powers_refuted. C13_cosines_follow proves it for the cosines in every history, C13_powers_partial proves it for the powers when no zenith angle is assigned after creation / cache clearing. C13_exactly: in every history the powers are those of the angles at the first evaluation since the caches were emptied.",
 "C130": "REFUTED: with a log-file (the default) a refusal at the prompt and every error of setup() surface as UnboundLocalError, because the finally-block uses the variable queue that is not assigned yet (C130_exit_refuted, C130_errors_refuted). Proved: a refusal changes nothing (C130_untouched), exit without log-file (C130_exit), later errors are reported as they are (C130_errors).",
 "C131": "REFUTED: run_processing(logfile_level=None) always raises a TypeError (queue, proc_counter = None) and never processes a feature (C131_processing_refuted). run_finaloutput(logfile_level=None) works (C131_final).",
 "C132": "REFUTED: the handlers of py.warnings pile up, one for each run with a log-file (C132_warnings_refuted), and the level of the logger stays that of the last run (C132_level_refuted). Proved: the handlers of the rt1 logger (C132_handlers) and captureWarnings (C132_capture).",
 "C133": "REFUTED: the name stays in effect for all later calls without a name (C133_name_refuted), overrides of other sections are lost (C133_overrides_refuted), and autocontinue stays True if setup fails, so that the next run does not ask (C133_autocontinue_refuted). Proved: the name is used (C133_name), overrides are in effect afterwards (C133_override), autocontinue after a call without error (C133_autocontinue).",
 "C134": "REFUTED: the dict pool_kwargs is changed in place; with each further run with the same dict the workers are set up once more and connected to the queues of all earlier runs (C134_reuse_refuted). Proved: the initializer of the user is called once with its arguments in any case (C134_initializer), one setup in a first run (C134_first).",
 "C135": "FULL: exact decision rule.",
 "C136": "REFUTED: the constructor only accepts strings as values, setup() only dicts: no non-empty init_kwargs can be used (C136_refuted); without the argument the config-file is used as it is (C136_default).  C136_exactly: the run can be set up exactly if init_kwargs is missing or empty.",
 "C137": "FULL: no differentiability or positivity hypothesis is left; the edge of a cosine lobe is excluded exactly where the function has no derivative (C137_edge_needed).",
 "C138": "FULL: asymmetry parameters and weighting factors as numbers or symbols; in dB the total must be positive (C139).",
 "C139": "FULL",
 "C14": "expi/expn are parameters assumed to be the mathematical exponential integrals (is_expi, is_expn, shown satisfiable).",
 "C140": "FULL: surface, volume and total; the interaction term is C78.",
 "C141": "FULL for geometry 'vvvv' (mono and bistatic values of the angles); expi/expn are scipy oracles (is_expi, is_expn).",
 "C142": "FULL",
 "C143": "FULL for the objects after _set_legexpansion; cosine lobes of power 0 excluded (C70: their series has another limit); all elements of a combination get the same ncoefs N.",
 "C144": "FULL: exact results of _set_calc_values and calc for all overlaps of names (C144_routing, C144_calc, C144_shared).",
 "C145": "REFUTED: a function parameter named omega/tau/NormBRDF/bsf, and a symbol of a component of a linear combination that is also used in the definition of omega/tau/NormBRDF, pass the check at set-up but the evaluation is a NameError (C145_reserved_refuted, C145_component_refuted). Proved without reserved names for models whose symbols are known (C145_all_values_partial) and for all dicts with single functions (C145_dict_partial).",
 "C146": "REFUTED for constants that are arrays or frames: AssertionError when R is built if the name is a parameter of a function, KeyError at every evaluation if it is used in omega, tau or NormBRDF (C146_function_refuted, C146_definition_refuted). Constant numbers are put into the model and no longer required (C146_number).",
 "C147": "REFUTED: calc_model(assign=False) without explicit values writes the auxiliary values into res_dict, after which res_df raises KeyError (C147_no_assign_refuted). Proved: with assign=True (default, fits, jacobian) and for calc no dict is changed (C147_assign, C147_calc).  C147_exactly: the dicts stay unchanged exactly if the values are assigned or there are no auxiliary values; only the dict of the results can change, and its own values remain.",
 "C148": "REFUTED: with aprox=True (the default) a combination of phase functions (LinCombV) cannot be plotted: AttributeError for ncoefs (C148_lincomb_refuted). Proved for everything else: solid and dashed lines for every pair of parameters and incidence-angle (C148_lines) and uniform convergence of the dashed lines (C148_approximation).",
 "C149": "REFUTED: with given polarax everything is drawn but the call ends in an UnboundLocalError since fig is only bound for new figures (C149_axes_refuted); the tick at 125 degrees is labelled 135 (C149_ticks_refuted). Proved: without polarax the figure is returned (C149_figure_partial); range (C149_range, multip >= 5/6).",
 "C150": "REFUTED: if the root logger has handlers when rt1 is imported, the level of the logger is never set and messages below the root level reach no log-file (C150_root_refuted); a start that fails closes the log-file that was open with that name (C150_failed_start_refuted). Proved for all histories otherwise: C150_files_partial, C150_only_messages.",
 "C151": "REFUTED: stopping or starting a log-file named rt1_consolehandler raises AttributeError and removes the console (C151_console_lost_refuted); with root handlers at import there is no console handler (C151_root_refuted). Proved otherwise: C151_console_partial, C151_set_level.",
 "C152": "REFUTED: the coloured formatter raises TypeError for any level but the six known ones, the message is lost (C152_levels_refuted); process names of more than 21 characters shift the first line (C152_aligned_partial). Proved: layout in files (C152_files) and on the console (C152_console_partial).",
 "C153": "REFUTED: with copy=True two modules with the same file name in different folders both get the code of the first (C153_same_name_refuted), the documented entry 'copy' of CONFIGFILES has no effect (C153_copy_entry_refuted). Proved otherwise: C153_copies_partial (distinct file names, new folder), C153_originals (copy=False), C153_frozen (all histories).",
 "C154": "REFUTED: a file named like a module that is already imported (e.g. random.py) replaces it in sys.modules for the whole process (C154_replaced_refuted); a module whose import fails stays in sys.modules (C154_broken_refuted). Proved: C154_names_partial (other names unchanged; with distinct names each name refers to the module of the run).",
 "C155": "REFUTED: with int_Q=True the returned slope lacks the derivative of the interaction contribution that _calc_model includes (C155_interaction_refuted, exact difference given). Proved otherwise: C155_slopes_partial (int_Q=False: first and second derivative in all units, same failures), C155_components (parts).",
 "C156": "REFUTED: with 129 objects an access of fit.V (printing the model definition), or a failed evaluation, keeps V while the functions of omega/tau are evicted; they are then re-created from the numbers of an earlier evaluation and new parameters are silently ignored (C156_access_refuted, C156_failed_evaluation_refuted). Proved otherwise: C156_few_objects_partial (at most maxsize objects since the last clearing: every history), C156_many_objects_partial (any number of objects: histories of successful evaluations and assignments).",
 "C157": "REFUTED: with exactly one file in the folder a name that does not exist gives a bare KeyError (C157_wrong_name_refuted). Proved otherwise: C157_by_name, C157_unnamed (exactly which file is opened), C157_cfg.",
 "C158": "REFUTED: a file re-written while it is open is read in its old version (C158_stale_refuted), one created after the folder was scanned is not found (C158_created_refuted). Proved: C158_rescan (after a re-scan the current file, for every history), C158_unchanged (no re-writing of this result: every history). C158_version: for every history, the version used is one of this result since the last re-scan, and the only other outcome is an AssertionError for a file that is (or was, when scanned) missing.",
 "C159": "REFUTED: the order of the configurations (configs[0], and so MultiFits.ID) is that of a set, i.e. not determined by the file (C159_order_refuted); misspelled entries of fits_kwargs are silently ignored (C159_unknown_ignored_refuted). Proved: C159_single, C159_multi, C159_by_name (access by name is independent of the order), C159_accepted (exactly which files are accepted).",
 "C160": "REFUTED: add_config hands over neither reader_arg nor ID (C160_added_later_refuted); a fit object in two MultiFits objects (C160_shared_object_refuted). Proved: C160_dataset (dataset and aux_data, every history without shared fit objects), C160_reader_ID (from set_reader_arg / set_ID until a configuration is added).",
 "C161": "REFUTED: \"intercept_stderr\" (in every regression of current scipy versions) breaks the columns (C161_intercept_refuted); equal names in different sub-dicts and integers are lost in the flat table, and a constant d1 is a TypeError in scatterplot (C161_lost_refuted). Proved: C161_table (the exact text for every dict), C161_aligned (exactly when a line is aligned), C161_flatten, C161_scatter (all rows for the registered metrics).",
 "C162": "REFUTED: with save_data=False the dataset is only restored if some fitted parameter is 'manual' and no other variability needs a column (C162_reduced, an equivalence). Without a 'manual' parameter the frame has no columns, is empty for HDFStore.append, and the index is lost (C162_lost_refuted); the column of '30D + manual' is not stored (C162_combined_refuted); nothing is stored for MultiFits since self.defdict raises an AttributeError that is swallowed (C162_multi_refuted), nor with pandas >= 2 since the indexer is a set (C162_pandas_refuted). save_data=True keeps the dataset (C162_full).",
 "C163": "REFUTED: the functions of the interaction term take their arguments by position; right if the dictionaries have the order of the definition (C163_same_order), as in every fit and its result (C163_fit); any other order of distinct values gives some parameter the value of another one without an error (C163_other_order_refuted; fit.calc: C163_swapped_refuted; loaded MultiFits whose configurations define the parameters in different orders: C163_loaded_refuted). A wrong number raises a TypeError (C163_number).  C163_exactly states this as an equivalence for different values.",
 "C164": "REFUTED: right as long as nothing is assigned (C164_fresh) or assignments come before the first evaluation (C164_before). After the first evaluation no assignment of V, SRF, geometry, names, int_Q or fn changes the functions (C164_stale_refuted); __getstate__ sets fn of the object itself to None, so that pickling loses an assigned fn (C164_assigned_refuted) and changes later results after an assignment of the definition (C164_pickle_refuted), otherwise not (C164_pickle); fn read while int_Q=False stays None (C164_switch_refuted). Unknown lambda_backend: AttributeError on evaluation (C164_backend).",
 "C165": "REFUTED: right for every position that leaves room for the whole range, after any history (C165_current, C165_single; C165_initial: no figure if the range exceeds the number of measurements). For range >= 2 the last positions of the slider raise an IndexError and leave the old lines (C165_end_refuted); zooming lets the slider reach -1, which shows the last measurement, or n, an IndexError (C165_zoom_refuted).",
 "C166": "REFUTED: both plots are right exactly if equal group-numbers are adjacent or no date occurs twice (C166_scatter, C166_timeseries, equivalences). Otherwise they raise a ValueError (C166_error_refuted) or, if only measurements of the same date are interchanged, draw measurements with the estimates of others (C166_mixed_refuted).",
 "C167": "REFUTED: for groups the labels are right exactly if the group-numbers do not decrease in the dataset (C167_groups, an equivalence); for dates if no date occurs twice or groups are adjacent and dates belong to one group (C167_dates), wrong in C167_dates_refuted. The absolute value is taken after the mean: residuals that cancel are shown as 0 (C167_cancel_refuted; never larger than the mean absolute residual: C167_abs).",
 "C168": "REFUTED: right for groups (C168_groups) and for dates if the dates of the groups are ascending and each belongs to one group (C168_dates, C168_sorted). Other orders of the dates combine a date with the measurements of another one (C168_unsorted_refuted); a date in two groups raises an IndexError (C168_twice_refuted); printfullt_0=False raises an UnboundLocalError (C168_full_refuted).  C168_exactly: right exactly if no date is in two groups and the dates of the fit ascend.",
 "C169": "REFUTED: the bar is proportional, monotone and full exactly at the end (C169_bar, C169_monotone, C169_final); every shown line is consistent in every interleaving (C169_shown), and the thread only dies by a ZeroDivisionError (C169_thread). This happens if the first result is counted between two reads (C169_race_refuted); 'finished' never appears if a task has no data (C169_nodata_refuted); the final number of failed tasks is wrong while results are still in the queue (C169_failed_refuted).",
 "C170": "REFUTED: signals during a run stop it with SystemExit (C170_during) and errors of the block are passed on (C170_body). Errors of the setup are replaced by an UnboundLocalError (C170_setup_refuted); after a run no signal has its usual effect, for any later history (C170_handlers_refuted): the first one raises an error of the manager, all later ones are ignored (C170_after_refuted).",
 "C171": "REFUTED: results labels its lines correctly exactly if each selected number stands at its own position (C171_lines, an equivalence; C171_all for the default); other ascending selections raise an IndexError (C171_selection_refuted), other orders interchange labels (C171_order_refuted). Group r is drawn at one of its dates exactly if all groups before it have a single date (C171_dates, an equivalence; C171_errors, C171_dates_refuted). Relative residuals of negative estimates are negative (C171_relative_refuted). single_results is right for fit_numbers (C171_single), raises an AttributeError for fit_indexes (C171_indexes_refuted) and an IndexError by default if there is one group (C171_default_refuted).",
 "C172": "REFUTED: after any history the figure is consistent with sliders, buttons and ranges if start values lie inside their ranges and matplotlib is >= 3.5 (C172_consistent, C172_others); a button toggles its own parameter if labels are distinct from each other and from the names (C172_click); one slider per fitted/auxiliary parameter (C172_start). Exchanged labels give a button with the other parameter's name (C172_labels_refuted), with matplotlib < 3.5 every second shaded area remains (C172_old_refuted), the start value is the first fitted value and not the mean (C172_mean_refuted), a start value outside its range is not shown by the curves (C172_outside_refuted), and a single parameter gives an IndexError (C172_grid_refuted, an exact characterisation).",
 "C173": "REFUTED: holds for every model if the fitted parameters of V and SRF are defined before the auxiliary ones (C173_order); otherwise values are exchanged whenever they differ (C173_exchanged_refuted).  C173_exactly states both as one equivalence for sliders with different values.",
 "C174": "REFUTED: the record is exact for every fit with intermediate results, also if interrupted (C174_recorded, C174_interrupted, C174_none); constant parameters are shown and labelled correctly (C174_constant), lines are complete (C174_drawn), the progress is exact for an integer max_nfev (C174_progress). Later fits without intermediate results still append jacobians (C174_later_refuted); the first value is labelled '(mean)' (C174_mean_refuted); more than 18 varying parameters raise an IndexError (C174_colors_refuted, an equivalence); without max_nfev the limit shown is 1000, and max_nfev=None raises a TypeError (C174_limit_refuted).",
 "C175": "REFUTED: tables of parameters, V and SRF are complete and exact (C175_parameters, C175_scatter), an even number of keywords is complete (C175_lsq). The report exists exactly if start values and boundaries are floats or strings (C175_exists); integers raise a ValueError, which also stops a run with a dump-folder (C175_integers_refuted). The middle one of an odd number of keywords is missing (C175_lsq_refuted).",
 "C176": "REFUTED: config_fits and properties are exact in sessions where an object was created and no fit has two names (C176_configs, C176_property); callbacks run on their own fit and do not influence each other (C176_calls, exact for every sequence). After loading a MultiFits in a new interpreter all properties raise an AttributeError (C176_loaded_refuted); a fit with two names is skipped once (C176_twice_refuted); keywords of a call stay in effect (C176_kept_refuted); positional arguments always raise (C176_positional_refuted), arguments given by position can not be overridden (C176_override_refuted).",
 "C177": "FULL (C177_whole, C177_interrupted, C177_all_or_nothing) for results the writer accepts (good_task, see C48, C50); one HDFStore.append is atomic in the model.",
 "C178": "FULL (C178_by_number, C178_by_name, C178_isolated, C178_nothing_else): composition of Ids, Pip and Pag, for undisturbed complete runs whose tasks return tables indexed by their number with one row in reader_arg (sound_task). Interrupted runs: see C52; names of features that collide: see C53, C91.",
 "C179": "REFUTED: performfit(clear_cache=False), an assignment to res_dict or int_Q and MultiFits.set_dataset leave the metrics of the old state in place (C179_unnoticed_refuted); a kept metric object can compare old values of one variable with new values of the other after an eviction (C179_mixed_refuted). Proved: current after any history of the other operations, with any evictions (C179_current), AttributeError before a fit (C179_before_fit), kept pairs stay the same unless evicted (C179_static_reference).",
 "C180": "REFUTED for lists and arrays: data.values raises an AttributeError for every list and array (C180_arrays_refuted). Proved for Series and DataFrames: C180_between, C180_nodes, C180_outside, C180_bounds, C180_linear, C180_order, C180_result.",
 "C181": "REFUTED in two cases: a fit without dataset, auxiliary data or results cannot be loaded as soon as any other fit of the container has this part (KeyError, C181_lacking_refuted), and an ID that is no identifier after adding RT1_ is loaded with the prefix twice (C181_ID_refuted). Proved otherwise: C181_single, C181_multi, C181_by_name, C181_ID (results without NaN as in C63).",
 "C182": "REFUTED: reading and incrementing the counter is not atomic (initcounter.value += 1 without lock), all processes can be called RTprocess-1 (C182_at_once_refuted). Proved: the numbers are in 1..n (C182_range), they do not change (C182_kept), and they are different if the processes start one after the other (C182_one_by_one).",
 "C183": "REFUTED for two IDs with the same name: a ValueError for tables with MultiIndex (C183_same_refuted). Proved otherwise: C183_numbers, C183_names, C183_missing, C183_no_IDs.  C183_exactly: the named rows are returned exactly if every ID of the rows has a name and, with MultiIndex, the names differ.",
 "C184": "REFUTED: the selector has only a weak reference to the accessor, so using it fails with an AttributeError once the accessor is not referenced (C184_chain_refuted), with a table init_dict after the next run of the garbage collector (C184_collector_refuted). Proved: C184_held, exact condition C184_iff, C184_session.",
 "C185": "REFUTED: _clear_cache clears the cache of the surface twice and never the one of the volume, so after R.V = ... the derivative of the old function is used even after _clear_cache (C185_volume_refuted); after a change of the names in param_dict the jacobian raises a TypeError (C185_names_refuted). Proved: right for objects that are not changed after the first evaluation, as in performfit (C185_unchanged), and for a new SRF after _clear_cache (C185_surface); C185_unknown. C185_past: for every history the derivatives are with respect to this parameter, of functions that this very object had (the surface: since the last clearing); the only other outcome is a TypeError after a change of the names.",
 "C186": "REFUTED: the loop iterates over the list from which removeHandler takes elements, so of two neighbouring handlers that write into the folder the second stays open (C186_neighbours_refuted). Proved: all others are kept in order (C186_others_kept), all are stopped if no two of them are neighbours (C186_stopped), folders after setup (C186_folders). C186_exactly: all are stopped if and only if no two of them are neighbours.",
 "C187": "REFUTED: run_finaloutput after an export uses the folder and mode of the export (C187_later_refuted); an overridden dump-folder is ignored for the fits but not for the output if nothing was set up before (C187_override_refuted); the same export raises AttributeError for the second time, since the first made the parent folder one of results (C187_again_refuted). Proved: C187_named, C187_unnamed (after any history), C187_own (all sequences of calls on a configuration's own folder in one mode), C187_destination.",
 "C188": "FULL: C188_thin, C188_dense for calc with the factors F_int, C188_factors that the factors of two scattering objects are of this kind (is_expi, is_expn describe scipy's functions), C188_bound and C188_objects for the interaction term itself.",
 "C189": "FULL: C189_tau_invisible (bare_surface = half_space: the optical depth cannot be found), C189_truth, C189_reproduces, C189_sensitive, C189_unique; C189_blind shows that the conditions are needed. That scipy's optimiser reaches the minimum is outside the model; several fitted parameters at once are not treated.",
 "C190": "FULL: C190_between, C190_towards, C190_tau, C190_affine, C190_best, C190_fit, C190_linear_fit. Best fit: minimum of the objective over the box of the bounds (that scipy's optimiser finds it is outside the model). dB: the modelled backscatter is assumed positive within the bounds.",
 "C191": "REFUTED: for strings (C191_string_refuted), for from_postprocess with the function of the class (C191_direct_class_refuted), for the name of the parameter (C191_parameter_refuted) and for stored results with other configurations (C191_missing_refuted). Everything else is proved: C191_all, C191_list, C191_single, C191_direct, C191_error, C191_rejects, C191_coefficients, C191_run.",
 "C192": "REFUTED: two different geometries do not suffice for tau and NormBRDF if 0 < bsf < 1 (C192_bsf_refuted; three path lengths do: C192_three_paths). Everything else is proved: C192_unique, C192_exact, C192_units, C192_omega_NormBRDF, C192_two_angles, C192_tau_NormBRDF, C192_tau_omega, C192_tau_bsf, C192_one_measurement.",
 "C193": "REFUTED: for surfaces and non-monostatic geometries (C193_surface_refuted; exact: C193_surface, C193_surface_constant). Proved: C193_volume, C193_surface_mono, C193_rejects.",
 "C194": "FULL (exact arithmetic, no interaction term). Optimum in the sense of best_fit (the solver itself is not modelled): C194_closed, C194_noise, C194_bound, C194_mean, C194_projection.",
 "C195": "REFUTED: for levels below 10 (C195_low_levels_refuted, exact: C195_exact) and after an interruption (C195_interrupt_refuted). Proved otherwise: C195_complete, C195_process, C195_always, C195_ends, C195_no_folder.",
 "C196": "FULL",
 "C197": "FULL. Nonnegative expansions are a hypothesis: truncated expansions can be negative (see C141 ff. for the truncation error).",
 "C198": "FULL. Rotation invariance: the derivative of the integral with respect to the incidence angle is zero (integration by parts on the sphere). Energy statement for surface and volume contribution with the exact functions; for the interaction contribution see C197.",
 "C199": "FULL. Order of the names: see also the finding of C163; here it is stated for the resulting contributions, for every model with two parameters that is not symmetric.",
 "C200": "FULL: error bounds in IEEE double precision (Flocq); intermediate results normal; np.exp/np.cos accuracies are hypotheses, the BRDF and phase function enter with their accuracy",
 "C201": "REFUTED: volume() computes 1 - np.exp(-x); for optical depths with tau/cos <= 2^-56 the result is exactly 0 with a correctly rounded np.exp although the exact contribution is positive (np.expm1 would keep the accuracy). Proved: the relative error is below 2^-26 for optical paths from 2^-20 to 100, general bound in C200_volume.",
 "C202": "FULL: for all doubles, subnormal numbers included",
 "C203": "REFUTED: every name that is not used is ignored without a message because of **kwargs (a misspelled NormBRDF or omega keeps its default); for Rayleigh the documented a and ncoefs are such names; CosineLobe(ncoefs=0.5) is accepted and has 0 coefficients. Proved: exact condition of success, TypeError otherwise for calls that cannot be bound, all attributes.",
 "C204": "REFUTED: a=[..] is a mutable default argument: all objects of a class made without a share one list, changing the one in place changes all others and all later ones; appending makes later calls fail. Proved: without changes in place all lists are kept and defaults are the documented ones; a change in place concerns exactly the objects with the same list; Isotropic and Rayleigh always have a list of their own.",
 "C205": "REFUTED: Isotropic and Rayleigh neither show nor store a, an assigned list is lost. Proved: same attributes otherwise (for CosineLobe if ncoefs is at least 1).",
 "C206": "REFUTED: _func, legcoefs and _lambda_func are cached per object and never cleared: after the first use, assignments of t, i or a have no effect on values (CosineLobe, surface HenyeyGreenstein, HGRayleigh), derivatives and coefficients - unless 128 other objects of the class were used in between. Proved: everything is current if t, i, a are not assigned after the first use; the value of classes with _func_numeric, and a and ncoefs of the expansion are always current; what is used always was current at some time before.",
 "C207": "REFUTED: evaluating brdf(), assigning t and expanding gives the old function with coefficients of the new t; for classes with _func_numeric the new function with old coefficients and old derivatives. Proved: consistent if t, i, a are not assigned after the first use.",
 "C208": "REFUTED: an ID with a slash whose folder does not exist is fitted but neither dumped nor stored (with dump_fit only); an absolute ID is written outside of the folder; IDs with the same text replace each other's file. Proved for distinct IDs without slashes, with loading; results without dump_fit for all IDs.",
 "C209": "REFUTED: the stored results get the name of the feature as index instead of the number assigned to it, the reader_arg of the earlier run, and hdf_export_kwargs are ignored. Proved: the exact row, that no file changes, and that a missing file means skipping.",
 "C210": "REFUTED: a process-spec with the name of a function of the class hides it (TypeError when it is called). Proved: when creation succeeds, all specs, the paths, and functions whose names are no specs.",
 "C211": "REFUTED: np.any instead of np.all: one non-negative element is enough, negative elements and nan are accepted next to it; any four characters are accepted as geometry (a misspelled \"mono\" is a bistatic geometry), bsf is not checked. Proved: exactly which arguments are accepted and which errors are raised; for numbers this is what is meant.",
 "C212": "FULL. Discharges the restriction to one element in the other models of RT1 for these contributions (C01-C13).",
 "C213": "REFUTED: if tau or a parameter has more axes than the zenith angle, the axis of the coefficients is aligned with another axis (ValueError, although surface() and volume() can be evaluated); if all coefficients are constants (sympy backend, e.g. HenyeyGreenstein(t=0) over an isotropic surface) a single angle gives as many values as there are coefficients. Proved for all shapes where no array has more axes than the zenith angle and a coefficient depends on an angle or parameter.",
 "C214": "REFUTED: with tau = 0 given as number the volume contribution has a single element, whatever the angles are. Proved: elements for all cases, shapes for positive tau and arrays. C214_exactly: total and surface always have all elements; the volume exactly if tau is an array or positive, or there is one angle.",
 "C215": "FULL. Discharges the restriction to one element in the other models of RT1 for slopes and curvatures (C01-C03). Side condition of the element theorem: the index is an index of the azimuth array as well (always the case for a single azimuth, C215_one_azimuth).",
 "C216": "FULL. Whether an entry is the derivative of the total contribution is C04-C09. The entries of omega, NormBRDF and bsf do not have the shape of these parameters unless another array has it.",
 "C217": "FULL with the side conditions of the statement. Together with C74 each element is the first-order interaction integral. The compiled coefficients of each element are those of Int_Model (hypothesis `coefficients`, met for all bounded scattering functions with three or more coefficients in total: C217_coefficients).",
 "C218": "REFUTED: configurations added to an object that was loaded from an old dump are listed in config_names but not found (C218_add_refuted: the container belongs to another MultiFits object); unpickling an old dump without load() gives fits without dataset and aux_data (C218_unpickle_refuted); a dump without configurations cannot be loaded (C218_empty_refuted); fits without config_name are an AttributeError although __setstate__ wants to add the name (C218_no_name_refuted). Proved for all dumps of objects with at least one configuration: C218_load; C218_add for current dumps.",
 "C219": "REFUTED: in a process that has only loaded current dumps no property or attribute can be read (C219_loaded_refuted); res_dict, fit_output, aux_data, reader_arg and config_name never (C219_results_refuted). Proved: properties and the attributes of a new Fits object once a MultiFits object has been created (C219_attributes), functions always (C219_functions).",
 "C220": "REFUTED: lists of IDs are a TypeError, arrays of several IDs a ValueError (C220_list_refuted); an array with one ID gives its rows (C220_array) but all rows if the number of the ID is not less than the number of IDs (C220_array_all_refuted). Proved: negative start (C220_last), negative numbers (C220_negative); natural numbers are C64.",
 "C221": "FULL, for one thread.",
 "C222": "FULL; entries are keys, nested reads of cached properties are separate operations before.",
 "C223": "FULL, for a given table (its rows: C166, its units: C25); styles, ticks and order of the points of a scatter plot are not modelled.",
 "C224": "REFUTED for the 2D image and for short fits: the image covers only the range from the first to the last bin that holds a value, but has a row for every bin (C224_image_bins_refuted; C224_image_bins: right if and only if all bins have the same width and the outer ones are not empty), with a negative step the iterations are reversed (C224_image_iterations, if and only if); the default slice(2, None) raises after at most two evaluations (C224_few_refuted; C224_outcome is exact). Proved: C224_iterations, C224_values, C224_bins, C224_points, C224_image_groups. When a residual is at the position of its observation is C167.",
 "C225": "REFUTED: SRF.hemreflect() with a symbolic NormBRDF is a TypeError whatever parameters are given, since rtplots.py:337 uses NormBRDF[0] (C225_SRF_refuted); a plain array with as many values as angles is combined with the angles, with any other number it is a ValueError (C225_array_refuted); for a column of values the axis is scaled to the last line only (C225_plot_column_refuted: all lines are within it if and only if no value exceeds 1.1 times the last one). Proved: C225_R (value of NormBRDF with R=), C225_SRF (numbers), C225_missing, C225_none, C225_column, C225_plot. The integrals are those of C111; arrays of symbols are not modelled.",
 "C226": "REFUTED: run_starmap discards the thread and stop() shuts down the manager without waiting for it, so that a tick after manager.shutdown() accesses a dead proxy and the thread ends with an exception (C226_race_refuted: after every ordinary history). Proved for all interleavings: C226_prints (a line per tick while the processing goes on), C226_ends (it always ends), C226_last_lines (at most two more lines), C226_clean and C226_ended (no exception as long as the manager runs). Time (0.25 s per tick) and exceptions inside of the text of the line (C169) are not modelled. C226_exactly: it ends with an exception if and only if it does a step after the shutdown while it is neither ended nor cancelled and waiting.",
 "C227": "FULL: C227_overview for every listing; the folder does not change during the call; xarray.open_dataset is a parameter",
 "C36": "REFUTED: _to_dict takes .value of values that are already unboxed; to_dict(props='dict') raises AttributeError for every defdict with a variable. from_dict of the documented dictionaries is proved correct.  C36_exactly: it succeeds exactly for a defdict without variables.",
 "C38": "REFUTED: a list is passed positionally to add_variable, so ([min],[max]) becomes minval and interpQ becomes maxval; proved different from from_dict for every list that both accept. Dictionaries agree.",
 "C43": "REFUTED: 'None' raises for every typed entry (AttributeError for datetime__/path__/list__, ValueError for bool__/float__/int__) whenever the number parsers reject 'None'; proved for untyped entries.",
 "C44": "REFUTED: with missing values bias uses all values of each series but rmsd only the common ones, so the identity fails (C44_gaps_refuted).  C44_decomposition proves it for complete series with equal labels, C44_general gives the exact condition for all series.",
 "C45": "REFUTED: with missing values |bias| <= mae and ub_rmsd <= rmsd fail (C45_gaps_refuted).  Symmetry, antisymmetry, zero on equal series, mae <= rmsd and shift invariance are proved for all series, the rest (and the triangle inequality) for complete series with equal labels.",
 "C46": "Proved for all series (labels, lengths, missing values); the pairs entering the correlation are characterised by C46_common_values.",
 "C47": "REFUTED: names that end with a source suffix break the resolution (C47_suffix_refuted).  C47_keys_resolve proves the bijection when no name ends with __<source> and no source lists a name twice.  C47_exactly gives the exact condition: the bijection holds if and only if no name of a single source ends with the suffix of that source and none equals the suffixed form of a name shared by several sources.",
 "C50": "REFUTED: str.lstrip strips a set of characters, so 'const__count' is stored under 'unt' (C50_refuted).  The name is kept exactly if it does not start with c, o, n, s, t or _ (C50_safe_names).",
 "C51": "REFUTED: after a failed write the writers end and waiting workers block for ever (C51_refuted, C51_when_stuck).  Termination stays possible if all tasks have been started (C51_all_started_partial). C51_exactly closes the gap: for every state after a failed write (or signal), the processing can end iff all tasks were started, the gate for new tasks is open, or a writer that has not yet noticed the stop may open it (exact condition on the output queue); otherwise it is stuck for every continuation.",
 "C52": "REFUTED: the table of IDs may be written before the other layers of a result (C52_refuted); it holds if the table is the last layer of every result (C52_table_last).",
 "C53": "REFUTED in its second half: '1' and 'RT1_1' are taken for the same ID, and a file without the table makes every later run fail.  Uniqueness of ID numbers holds for all histories; with collision-free IDs exactly the IDs not yet stored are processed.",
 "C55": "REFUTED: combined numbers above 2^53 (mixed with larger ones) are rounded by numpy, so observations with different group numbers share a combined group (C55_refuted).  C55_group_index proves the equivalence for all tables whose padded numbers have at most 18 digits in total.",
 "C56": "Proved for all sorted date lists; C56_too_few_dates gives the exception for all other N, C56_offset_strings and C56_index treat the other frequencies.",
 "C57": "REFUTED: decimals are cut off, 17-digit numbers collapse, negative numbers raise (C57_refuted).  C57_manual and C57_manual_combined prove the claim for non-negative integers of at most 14 digits, C57_decimals_truncated says what happens with decimals.",
 "C58": "Proved for all group assignments that refine the combined groups (given by C55_refines).",
 "C59": "REFUTED: lists of start values of the wrong length are not detected and shift the segments (C59_refuted); auxiliary start values with 'index' variability give one value per combined group (C59_auxiliary_index_refuted).  C59_alignment proves the claim when every list has the right length. C59_exactly: for a start vector of the right total length, every parameter starts with its own values iff each list has one value per group.",
 "C60": "REFUTED for interleaved groups (C60_refuted).  C60_jacobian_columns proves the placement when every parameter's groups are contiguous along the combined groups, C60_sorted_groups when the group numbers do not decrease along the dataset.",
 "C61": "REFUTED: the functions of the interaction term stay those of the first evaluation after assigning another set_V_SRF (C61_interaction_refuted); after MultiFits.set_dataset the caches still hold the previous dataset (C61_multifits_dataset_refuted); changes of the defdict in place are not noticed (C61_edit_defdict_refuted).  Proved for every history of assignments and evaluations: the attributes assigned last are used if there is no interaction term (C61_current_attributes); directly after an assignment from any state (C61_after_assignment); with interaction term all but its functions are current (C61_interaction_first_definition).",
 "C62": "REFUTED: config_names repeats a name that is added twice (C62_refuted); an object added under two names loses the first one in the accessor (C62_same_object_refuted); the accepted name _parent makes all configurations inaccessible (C62_parent_refuted).  Proved: names, order and access by name or number for different names and objects (C62_distinct_names); a name refers to the object added last for any sequence (C62_last_wins). C62_exactly: after any calls config_names are the accepted names in the order of the calls, each once if and only if no name was accepted twice.",
 "C63": "REFUTED: a NaN among the results is dropped and the following values shift (C63_refuted).  Proved: every parameter is loaded with its values that are not NaN, for any number of stored fits (C63_single, C63_multi), and the results are recovered exactly iff no value is NaN (C63_single_exact) and, with several configurations, every parameter has values (C63_multi_exact).",
 "C64": "REFUTED: for a multi-indexed table and the default chunksize every table with more than 10 IDs per page, the number not being a multiple of 10, yields an ID on two pages or an exception (C64_default_refuted); the last page shows numbers although names are requested (C64_names_refuted).  Proved: every ID once and in order if the chunk divides the page (C64_dividing_chunks) or the page has at most 10 IDs / single index (C64_default_chunks); the first page of get_nids (C64_get_nids, incl. the RuntimeError if the IDs left fill the chunks exactly).",
 "C65": "REFUTED: overrides of sections that are not mentioned again are dropped (C65_refuted).  Proved: in the given sections exactly the given keys change (C65_given_sections); everything else is kept iff every section with earlier values is given again (C65_kept_iff); override=True replaces all (C65_override_replaces).",
 "C66": "Confirmation dialogue for all answers (upper/lower case as str.upper does for ASCII letters) and its effect on the file system in RTprocess.setup: nothing lost unless REMOVE and confirmed; other folders never touched; worker processes change nothing.  The copy of the config-file itself is the subject of C100.",
 "C67": "REFUTED: for a MultiFits object a feature without auxiliary data is stored with those of an earlier one (C67_multi_refuted; exactly the latest returned: C67_multi_latest); with a Fits parent that has aux_data these are stored for features without (C67_parent_refuted); two or more auxiliary values are never stored (C67_several_refuted).  Proved: right for Fits parents without aux_data (C67_single), and for MultiFits if the feature returns some or none was returned before (C67_multi).",
 "C68": "C68_partition and C68_meaning: exactly one class each.  C68_kinds: the subdivision of the dynamic parameters; a float as variability (e.g. 3.0) is in none of the subdivisions (example).  Frequencies are None, bool, int, float or str; lists and arrays are not modelled.",
 "C69": "REFUTED: for p_ex the code checks np.unique(p_0) instead of p_ex (volume.py 256/429, surface.py 257/391): C69_fixed_angle_refuted. C69_fixed_angle_partial: holds for the other three angles, and for p_ex if it is in fact constant. C69_exactly: the angles used are the given ones if and only if p_ex is constant or not declared as fixed; C69_accepted: which arguments are accepted.",
 "C70": "REFUTED at i=0 (0**0=1 makes the function constant, the coefficients are those of the half-range step): C70_coslobe_projection_refuted; proved for every i>=1 and every n, and there the series converges uniformly to the lobe (C70_coslobe_series). C70_power_zero: for i=0 the coefficients are the projection of the half-range step.",
 "C72": "REFUTED for LinCombV: ncoefs is only set by _set_legexpansion, which LinCombV never calls; proved for LinCombSRF. C72_volume_never: no LinCombV can be expanded as constructed.",
 "C73": "REFUTED for the surface function and for the coefficients (memoised _func/legcoefs); proved for the volume function in every history and for the surface when all assignments precede the first evaluation. C73_surface_exactly, C73_coefficients_exactly: in every history the attributes at the first evaluation (the first use of the coefficients) are the ones that count.",
 "C75": "REFUTED: NaN at nadir (t_0 = 0) and at tau = 0 for every volume and surface; C75_finite_partial shows it is finite for cosines in (0,1) and tau > 0. C75_exactly: on the admissible range it is NaN if and only if tau = 0 or one of the directions is vertical, and finite otherwise.",
 "C76": "REFUTED: with a fixed zenith angle the coefficients of the second F_int are evaluated at the wrong angles; proved equal for 'mono' and for fixed azimuths with a_1 = a_2.",
 "C77": "FULL. C77_lincomb: components with the same a have the same ncoefs; C77_lincomb_surface and C77_lincomb_volume (Lin_Props.v): no restriction, every component with the largest ncoefs of its group, which is how the code expands it (C24).",
 "C79": "REFUTED for lists: omitted properties become None (also minval/maxval/interpQ). Proved for dictionaries.  C79_list_exactly: the items go to the properties in order, the others become None, and all omitted properties have their defaults only for a complete list.",
 "C80": "REFUTED: the assignment only creates a plain attribute, the definition is unchanged. add_variable does replace.",
 "C81": "REFUTED for from_dict: unknown keys become plain attributes. Proved for add_variable and attribute assignment.",
 "C82": "REFUTED: without repeating V_name the components are unchanged and the entries become stray arguments of the linear combination; with V_name the whole component list is replaced (both proved for all files).",
 "C83": "REFUTED: sections other than the five configuration sections are accepted and ignored (proved for all of them, including PROCESS_SPECS); for the five sections C39 gives the effect.",
 "C84": "REFUTED for n = 0 ('[]' gives [''] or a ValueError); proved for all n >= 1.",
 "C85": "REFUTED for equal names with different type prefixes (the later replaces the earlier); the exact combination of the single-entry results is proved for all sections.",
 "C86": "REFUTED: _unify_idx_data raises for series sharing labels if the numbers of present values differ and leaves disjoint labels untouched for equal lengths (C86_common_index_refuted); C86_unify_partial is what it does guarantee. C86_exactly: when the compared series have the same labels (necessary and sufficient).",
 "C88": "REFUTED: linregress goes by position and pearson by label, so they differ for reordered labels (C88_order_refuted).  Optimality and uniqueness hold for all complete series, equality with pearson for equal labels (C88_least_squares).",
 "C91": "REFUTED for custom get_names_ids (the check uses feature_id, the table stores reader_arg['ID']) and for repeated arguments; proved for the default getter and arguments without repetition. C91_times: for every history, the default getter stores an ID at most as often as it occurs in one list of arguments.",
 "C93": "REFUTED for a list or tuple that holds only the table (UnboundLocalError); proved for the table alone and for any number >= 1 of further elements. C93_exactly: with a fit that succeeds, the feature is fitted if and only if the reader returns a table with rows, alone or followed by at least one element.",
 "C94": "REFUTED: data_weights enter the residuals but not the jacobian (C94_refuted).  C94_jacobian_is_derivative proves the claim for unit weights and contiguous groups. C94_exactly: for all weights the derivative of a residual is the entry of the jacobian times its weight, so an entry is right iff the weight is 1 or the entry 0.",
 "C95": "REFUTED: the jacobian uses the step assignment also for interpolated parameters (C95_refuted).  C95_interpolation_exact: an entry is right iff the interpolation weight equals the step assignment or the model does not depend on the parameter.",
 "C96": "REFUTED: the inner derivative is evaluated with the list of the fitted values instead of the values of the observations. Derivatives that contain fitted parameters only are an error (C96_fitted_refuted); mixed with auxiliary data they can be silently wrong (C96_axis_refuted, C96_repeat_refuted). A symbol shared by two definitions is an error, one also used elsewhere in the model loses a contribution. C96_chain_rule: right for all other definitions (in particular those linear in the fitted symbols).",
 "C97": "REFUTED: a value passed for a constant omega, tau or NormBRDF is written into the cached scattering objects and stays in effect (C97_refuted) until an attribute of any fit object is assigned (C97_other_object_refuted).  Proved for every sequence of evaluations that passes no values for constants (C97_evaluations_independent).",
 "C98": "REFUTED: positional arguments can never be replaced (tuple item assignment, C98_positional_refuted) and keywords of a call stay for the later calls (C98_sticky_refuted).  Proved: keywords of the call take precedence (C98_keywords_override); calls with the same keywords do not influence each other (C98_same_keywords).  C98_exactly gives the arguments of every call in every sequence of calls: each keyword has the value of the latest call that gives it, positional arguments raise and leave no trace.",
 "C99": "For all tables whose rows are grouped by ID (as written by the HDF writer); get_vals/select of pandas is modelled as row filter."
}