{
 "claims": [
  {
   "property": "C01",
   "status": "proved",
   "theorems": [
    "C01_surface_slope"
   ],
   "note": ""
  },
  {
   "property": "C02",
   "status": "proved",
   "theorems": [
    "C02_volume_slope"
   ],
   "note": ""
  },
  {
   "property": "C03",
   "status": "proved",
   "theorems": [
    "C03_surface_slope_units",
    "C03_volume_slope_units",
    "C03_total_slope_units"
   ],
   "note": ""
  },
  {
   "property": "C04",
   "status": "proved",
   "theorems": [
    "C04_surface_curv",
    "C04_volume_curv"
   ],
   "note": ""
  },
  {
   "property": "C05",
   "status": "proved",
   "theorems": [
    "C05_surface_curv_units",
    "C05_volume_curv_units",
    "C05_total_curv_units"
   ],
   "note": ""
  },
  {
   "property": "C06",
   "status": "proved",
   "theorems": [
    "C06_jacobian_linear_parameters"
   ],
   "note": ""
  },
  {
   "property": "C07",
   "status": "partial",
   "theorems": [
    "C07_exactly",
    "C07_jacobian_tau_error_term",
    "C07_jacobian_tau_partial",
    "C07_jacobian_tau_refuted"
   ],
   "note": "REFUTED: rt1.py:1378 computes 1.0/mu_ex**(-1) = mu_ex instead of 1/mu_ex; C07_jacobian_tau_refuted is a concrete counterexample, C07_jacobian_tau_error_term the exact error for every geometry, C07_jacobian_tau_partial the cases in which the entry is right. C07_exactly: the entry is the derivative if and only if the exit direction is vertical or the volume contributes nothing."
  },
  {
   "property": "C08",
   "status": "proved",
   "theorems": [
    "C08_jacobian_free_parameter"
   ],
   "note": ""
  },
  {
   "property": "C09",
   "status": "proved",
   "theorems": [
    "C09_jacobian_units",
    "C09_jacobian_unknown_key",
    "C09_jacobian_list"
   ],
   "note": ""
  },
  {
   "property": "C10",
   "status": "proved",
   "theorems": [
    "C10_calc_decomposition",
    "C10_calc_tau_zero",
    "C10_calc_bare_soil",
    "C10_calc_omega_zero",
    "C10_calc_array_matches_scalar"
   ],
   "note": ""
  },
  {
   "property": "C11",
   "status": "proved",
   "theorems": [
    "C11_surface_bounds",
    "C11_volume_bounds",
    "C11_monotone_in_tau",
    "C11_affine_in_bsf_linear_in_omega"
   ],
   "note": ""
  },
  {
   "property": "C12",
   "status": "proved",
   "theorems": [
    "C12_mono_geometry_invariant"
   ],
   "note": ""
  },
  {
   "property": "C13",
   "status": "partial",
   "theorems": [
    "C13_exactly",
    "C13_cosines_follow",
    "C13_powers_partial",
    "C13_powers_refuted"
   ],
   "note": "REFUTED for the memoised cosine powers (lru_cache keyed by the object, rt1.py:1326-1338): C13_powers_refuted. C13_cosines_follow proves it for the cosines in every history, C13_powers_partial proves it for the powers when no zenith angle is assigned after creation / cache clearing. C13_exactly: in every history the powers are those of the angles at the first evaluation since the caches were emptied."
  },
  {
   "property": "C14",
   "status": "proved",
   "theorems": [
    "C14_lengths",
    "C14_interaction_integral"
   ],
   "note": "expi/expn are parameters assumed to be the mathematical exponential integrals (is_expi, is_expn, shown satisfiable)."
  },
  {
   "property": "C15",
   "status": "proved",
   "theorems": [
    "C15_dot_product",
    "C15_bounds",
    "C15_exchange",
    "C15_rotation",
    "C15_backscatter"
   ],
   "note": ""
  },
  {
   "property": "C16",
   "status": "proved",
   "theorems": [
    "C16_isotropic_exact",
    "C16_rayleigh_exact",
    "C16_expansions_exact"
   ],
   "note": ""
  },
  {
   "property": "C17",
   "status": "proved",
   "theorems": [
    "C17_volume_hg_series",
    "C17_surface_hg_series",
    "C17_expansions_converge"
   ],
   "note": ""
  },
  {
   "property": "C18",
   "status": "proved",
   "theorems": [
    "C18_hgrayleigh_series",
    "C18_expansion_converges"
   ],
   "note": ""
  },
  {
   "property": "C19",
   "status": "proved",
   "theorems": [
    "C19_normalised_cosine",
    "C19_normalised_sphere"
   ],
   "note": ""
  },
  {
   "property": "C20",
   "status": "proved",
   "theorems": [
    "C20_nadir_reflectance"
   ],
   "note": ""
  },
  {
   "property": "C21",
   "status": "proved",
   "theorems": [
    "C21_cosine_powers"
   ],
   "note": ""
  },
  {
   "property": "C22",
   "status": "proved",
   "theorems": [
    "C22_azimuth_integration",
    "C22_interaction_expansion",
    "C22_degree_bound_needed"
   ],
   "note": ""
  },
  {
   "property": "C23",
   "status": "proved",
   "theorems": [
    "C23_extraction",
    "C23_fn_coefficients"
   ],
   "note": ""
  },
  {
   "property": "C24",
   "status": "proved",
   "theorems": [
    "C24_function",
    "C24_expansion",
    "C24_expansion_plain",
    "C24_order_independent"
   ],
   "note": ""
  },
  {
   "property": "C25",
   "status": "proved",
   "theorems": [
    "C25_convert_preserves_intensity",
    "C25_convert_compose",
    "C25_convert_roundtrip",
    "C25_no_logarithm"
   ],
   "note": ""
  },
  {
   "property": "C26",
   "status": "proved",
   "theorems": [
    "C26_no_rows_raises",
    "C26_rectangularize",
    "C26_rectangularize_empty_row_raises"
   ],
   "note": ""
  },
  {
   "property": "C27",
   "status": "proved",
   "theorems": [
    "C27_mean_in_range",
    "C27_mean_error",
    "C27_mean_exact",
    "C27_mean_defined_and_shift"
   ],
   "note": ""
  },
  {
   "property": "C28",
   "status": "proved",
   "theorems": [
    "C28_windows"
   ],
   "note": ""
  },
  {
   "property": "C29",
   "status": "proved",
   "theorems": [
    "C29_split_sizes",
    "C29_split_none_takes_rest",
    "C29_split_roundtrip",
    "C29_split_negative_raises"
   ],
   "note": ""
  },
  {
   "property": "C30",
   "status": "proved",
   "theorems": [
    "C30_no_values_raises",
    "C30_scale",
    "C30_scale_back"
   ],
   "note": ""
  },
  {
   "property": "C31",
   "status": "proved",
   "theorems": [
    "C31_dt_to_hms"
   ],
   "note": ""
  },
  {
   "property": "C32",
   "status": "proved",
   "theorems": [
    "C32_groups",
    "C32_first_occurrence_order",
    "C32_sorted"
   ],
   "note": ""
  },
  {
   "property": "C33",
   "status": "proved",
   "theorems": [
    "C33_find_missing",
    "C33_find_missing_fills_gaps",
    "C33_find_missing_empty_starts_at_one"
   ],
   "note": ""
  },
  {
   "property": "C34",
   "status": "proved",
   "theorems": [
    "C34_chunkit",
    "C34_chunkit_zero_raises",
    "C34_chunkit_negative"
   ],
   "note": ""
  },
  {
   "property": "C35",
   "status": "proved",
   "theorems": [
    "C35_list_roundtrip",
    "C35_documented_lists",
    "C35_items"
   ],
   "note": ""
  },
  {
   "property": "C36",
   "status": "partial",
   "theorems": [
    "C36_dict_representation_refuted",
    "C36_documented_dicts",
    "C36_exactly"
   ],
   "note": "REFUTED: _to_dict takes .value of values that are already unboxed; to_dict(props='dict') raises AttributeError for every defdict with a variable. from_dict of the documented dictionaries is proved correct.  C36_exactly: it succeeds exactly for a defdict without variables."
  },
  {
   "property": "C37",
   "status": "proved",
   "theorems": [
    "C37_listing",
    "C37_definitions_listed",
    "C37_calls_are_local",
    "C37_set_then_read",
    "C37_add_sets_properties"
   ],
   "note": ""
  },
  {
   "property": "C38",
   "status": "partial",
   "theorems": [
    "C38_list_assignment_refuted",
    "C38_dict_assignment",
    "C38_bounds_rejected"
   ],
   "note": "REFUTED: a list is passed positionally to add_variable, so ([min],[max]) becomes minval and interpQ becomes maxval; proved different from from_dict for every list that both accept. Dictionaries agree."
  },
  {
   "property": "C39",
   "status": "proved",
   "theorems": [
    "C39_overrides",
    "C39_locality"
   ],
   "note": ""
  },
  {
   "property": "C40",
   "status": "proved",
   "theorems": [
    "C40_entry",
    "C40_short_entry",
    "C40_blanks_irrelevant",
    "C40_rejected",
    "C40_to_definition"
   ],
   "note": ""
  },
  {
   "property": "C41",
   "status": "proved",
   "theorems": [
    "C41_lincomb",
    "C41_plain"
   ],
   "note": ""
  },
  {
   "property": "C42",
   "status": "proved",
   "theorems": [
    "C42_names",
    "C42_rejected"
   ],
   "note": ""
  },
  {
   "property": "C43",
   "status": "partial",
   "theorems": [
    "C43_typed_none_refuted",
    "C43_untyped_none",
    "C43_date"
   ],
   "note": "REFUTED: 'None' raises for every typed entry (AttributeError for datetime__/path__/list__, ValueError for bool__/float__/int__) whenever the number parsers reject 'None'; proved for untyped entries."
  },
  {
   "property": "C44",
   "status": "partial",
   "theorems": [
    "C44_decomposition",
    "C44_general",
    "C44_gaps_refuted"
   ],
   "note": "REFUTED: with missing values bias uses all values of each series but rmsd only the common ones, so the identity fails (C44_gaps_refuted).  C44_decomposition proves it for complete series with equal labels, C44_general gives the exact condition for all series."
  },
  {
   "property": "C45",
   "status": "partial",
   "theorems": [
    "C45_symmetric",
    "C45_mae_le_rmsd",
    "C45_zero",
    "C45_complete",
    "C45_triangle",
    "C45_ub_invariant",
    "C45_gaps_refuted"
   ],
   "note": "REFUTED: with missing values |bias| <= mae and ub_rmsd <= rmsd fail (C45_gaps_refuted).  Symmetry, antisymmetry, zero on equal series, mae <= rmsd and shift invariance are proved for all series, the rest (and the triangle inequality) for complete series with equal labels."
  },
  {
   "property": "C46",
   "status": "proved",
   "theorems": [
    "C46_constant_series",
    "C46_common_values",
    "C46_value",
    "C46_symmetric",
    "C46_affine",
    "C46_extreme",
    "C46_std_ratio"
   ],
   "note": "Proved for all series (labels, lengths, missing values); the pairs entering the correlation are characterised by C46_common_values."
  },
  {
   "property": "C47",
   "status": "partial",
   "theorems": [
    "C47_exactly",
    "C47_keys_resolve",
    "C47_suffix_refuted"
   ],
   "note": "REFUTED: names that end with a source suffix break the resolution (C47_suffix_refuted).  C47_keys_resolve proves the bijection when no name ends with __<source> and no source lists a name twice.  C47_exactly gives the exact condition: the bijection holds if and only if no name of a single source ends with the suffix of that source and none equals the suffixed form of a name shared by several sources."
  },
  {
   "property": "C48",
   "status": "proved",
   "theorems": [
    "C48_exactly_once",
    "C48_never_twice"
   ],
   "note": ""
  },
  {
   "property": "C49",
   "status": "proved",
   "theorems": [
    "C49_counters_bounded",
    "C49_counters_exact",
    "C49_counters_final"
   ],
   "note": ""
  },
  {
   "property": "C50",
   "status": "partial",
   "theorems": [
    "C50_safe_names",
    "C50_refuted"
   ],
   "note": "REFUTED: str.lstrip strips a set of characters, so 'const__count' is stored under 'unt' (C50_refuted).  The name is kept exactly if it does not start with c, o, n, s, t or _ (C50_safe_names)."
  },
  {
   "property": "C51",
   "status": "partial",
   "theorems": [
    "C51_exactly",
    "C51_refuted",
    "C51_when_stuck",
    "C51_all_started_partial"
   ],
   "note": "REFUTED: after a failed write the writers end and waiting workers block for ever (C51_refuted, C51_when_stuck).  Termination stays possible if all tasks have been started (C51_all_started_partial). C51_exactly closes the gap: for every state after a failed write (or signal), the processing can end iff all tasks were started, the gate for new tasks is open, or a writer that has not yet noticed the stop may open it (exact condition on the output queue); otherwise it is stuck for every continuation."
  },
  {
   "property": "C52",
   "status": "partial",
   "theorems": [
    "C52_refuted",
    "C52_table_last"
   ],
   "note": "REFUTED: the table of IDs may be written before the other layers of a result (C52_refuted); it holds if the table is the last layer of every result (C52_table_last)."
  },
  {
   "property": "C53",
   "status": "partial",
   "theorems": [
    "C53_names",
    "C53_unique_numbers",
    "C53_processed",
    "C53_default_processed",
    "C53_refuted",
    "C53_no_table_refuted"
   ],
   "note": "REFUTED in its second half: '1' and 'RT1_1' are taken for the same ID, and a file without the table makes every later run fail.  Uniqueness of ID numbers holds for all histories; with collision-free IDs exactly the IDs not yet stored are processed."
  },
  {
   "property": "C54",
   "status": "proved",
   "theorems": [
    "C54_raises",
    "C54_reloads",
    "C54_otherwise"
   ],
   "note": ""
  },
  {
   "property": "C55",
   "status": "partial",
   "theorems": [
    "C55_group_index",
    "C55_refines",
    "C55_refuted"
   ],
   "note": "REFUTED: combined numbers above 2^53 (mixed with larger ones) are rounded by numpy, so observations with different group numbers share a combined group (C55_refuted).  C55_group_index proves the equivalence for all tables whose padded numbers have at most 18 digits in total."
  },
  {
   "property": "C56",
   "status": "proved",
   "theorems": [
    "C56_integer_frequency",
    "C56_too_few_dates",
    "C56_offset_strings",
    "C56_static",
    "C56_index"
   ],
   "note": "Proved for all sorted date lists; C56_too_few_dates gives the exception for all other N, C56_offset_strings and C56_index treat the other frequencies."
  },
  {
   "property": "C57",
   "status": "partial",
   "theorems": [
    "C57_float",
    "C57_manual",
    "C57_manual_combined",
    "C57_decimals_truncated",
    "C57_refuted"
   ],
   "note": "REFUTED: decimals are cut off, 17-digit numbers collapse, negative numbers raise (C57_refuted).  C57_manual and C57_manual_combined prove the claim for non-negative integers of at most 14 digits, C57_decimals_truncated says what happens with decimals."
  },
  {
   "property": "C58",
   "status": "proved",
   "theorems": [
    "C58_values"
   ],
   "note": "Proved for all group assignments that refine the combined groups (given by C55_refines)."
  },
  {
   "property": "C59",
   "status": "partial",
   "theorems": [
    "C59_exactly",
    "C59_number_of_groups",
    "C59_alignment",
    "C59_refuted",
    "C59_auxiliary_index_refuted"
   ],
   "note": "REFUTED: lists of start values of the wrong length are not detected and shift the segments (C59_refuted); auxiliary start values with 'index' variability give one value per combined group (C59_auxiliary_index_refuted).  C59_alignment proves the claim when every list has the right length. C59_exactly: for a start vector of the right total length, every parameter starts with its own values iff each list has one value per group."
  },
  {
   "property": "C60",
   "status": "partial",
   "theorems": [
    "C60_jacobian_columns",
    "C60_sorted_groups",
    "C60_refuted"
   ],
   "note": "REFUTED for interleaved groups (C60_refuted).  C60_jacobian_columns proves the placement when every parameter's groups are contiguous along the combined groups, C60_sorted_groups when the group numbers do not decrease along the dataset."
  },
  {
   "property": "C61",
   "status": "partial",
   "theorems": [
    "C61_current_attributes",
    "C61_after_assignment",
    "C61_interaction_first_definition",
    "C61_interaction_refuted",
    "C61_multifits_dataset_refuted",
    "C61_edit_defdict_refuted"
   ],
   "note": "REFUTED: the functions of the interaction term stay those of the first evaluation after assigning another set_V_SRF (C61_interaction_refuted); after MultiFits.set_dataset the caches still hold the previous dataset (C61_multifits_dataset_refuted); changes of the defdict in place are not noticed (C61_edit_defdict_refuted).  Proved for every history of assignments and evaluations: the attributes assigned last are used if there is no interaction term (C61_current_attributes); directly after an assignment from any state (C61_after_assignment); with interaction term all but its functions are current (C61_interaction_first_definition)."
  },
  {
   "property": "C62",
   "status": "partial",
   "theorems": [
    "C62_reserved",
    "C62_exactly",
    "C62_distinct_names",
    "C62_last_wins",
    "C62_refuted",
    "C62_same_object_refuted",
    "C62_parent_refuted"
   ],
   "note": "REFUTED: config_names repeats a name that is added twice (C62_refuted); an object added under two names loses the first one in the accessor (C62_same_object_refuted); the accepted name _parent makes all configurations inaccessible (C62_parent_refuted).  Proved: names, order and access by name or number for different names and objects (C62_distinct_names); a name refers to the object added last for any sequence (C62_last_wins). C62_exactly: after any calls config_names are the accepted names in the order of the calls, each once if and only if no name was accepted twice."
  },
  {
   "property": "C63",
   "status": "partial",
   "theorems": [
    "C63_single",
    "C63_single_exact",
    "C63_refuted",
    "C63_multi",
    "C63_multi_exact"
   ],
   "note": "REFUTED: a NaN among the results is dropped and the following values shift (C63_refuted).  Proved: every parameter is loaded with its values that are not NaN, for any number of stored fits (C63_single, C63_multi), and the results are recovered exactly iff no value is NaN (C63_single_exact) and, with several configurations, every parameter has values (C63_multi_exact)."
  },
  {
   "property": "C64",
   "status": "partial",
   "theorems": [
    "C64_dividing_chunks",
    "C64_default_chunks",
    "C64_default_refuted",
    "C64_names_refuted",
    "C64_get_nids"
   ],
   "note": "REFUTED: for a multi-indexed table and the default chunksize every table with more than 10 IDs per page, the number not being a multiple of 10, yields an ID on two pages or an exception (C64_default_refuted); the last page shows numbers although names are requested (C64_names_refuted).  Proved: every ID once and in order if the chunk divides the page (C64_dividing_chunks) or the page has at most 10 IDs / single index (C64_default_chunks); the first page of get_nids (C64_get_nids, incl. the RuntimeError if the IDs left fill the chunks exactly)."
  },
  {
   "property": "C65",
   "status": "partial",
   "theorems": [
    "C65_given_sections",
    "C65_kept_iff",
    "C65_refuted",
    "C65_override_replaces"
   ],
   "note": "REFUTED: overrides of sections that are not mentioned again are dropped (C65_refuted).  Proved: in the given sections exactly the given keys change (C65_given_sections); everything else is kept iff every section with earlier values is given again (C65_kept_iff); override=True replaces all (C65_override_replaces)."
  },
  {
   "property": "C66",
   "status": "proved",
   "theorems": [
    "C66_confirmation",
    "C66_setup",
    "C66_workers"
   ],
   "note": "Confirmation dialogue for all answers (upper/lower case as str.upper does for ASCII letters) and its effect on the file system in RTprocess.setup: nothing lost unless REMOVE and confirmed; other folders never touched; worker processes change nothing.  The copy of the config-file itself is the subject of C100."
  },
  {
   "property": "C67",
   "status": "partial",
   "theorems": [
    "C67_single",
    "C67_parent_refuted",
    "C67_multi_latest",
    "C67_multi",
    "C67_multi_refuted",
    "C67_several_refuted",
    "C67_configurations"
   ],
   "note": "REFUTED: for a MultiFits object a feature without auxiliary data is stored with those of an earlier one (C67_multi_refuted; exactly the latest returned: C67_multi_latest); with a Fits parent that has aux_data these are stored for features without (C67_parent_refuted); two or more auxiliary values are never stored (C67_several_refuted).  Proved: right for Fits parents without aux_data (C67_single), and for MultiFits if the feature returns some or none was returned before (C67_multi)."
  },
  {
   "property": "C68",
   "status": "proved",
   "theorems": [
    "C68_partition",
    "C68_meaning",
    "C68_kinds"
   ],
   "note": "C68_partition and C68_meaning: exactly one class each.  C68_kinds: the subdivision of the dynamic parameters; a float as variability (e.g. 3.0) is in none of the subdivisions (example).  Frequencies are None, bool, int, float or str; lists and arrays are not modelled."
  },
  {
   "property": "C69",
   "status": "partial",
   "theorems": [
    "C69_accepted",
    "C69_exactly",
    "C69_fixed_angle_partial",
    "C69_fixed_angle_refuted"
   ],
   "note": "REFUTED: for p_ex the code checks np.unique(p_0) instead of p_ex (volume.py 256/429, surface.py 257/391): C69_fixed_angle_refuted. C69_fixed_angle_partial: holds for the other three angles, and for p_ex if it is in fact constant. C69_exactly: the angles used are the given ones if and only if p_ex is constant or not declared as fixed; C69_accepted: which arguments are accepted."
  },
  {
   "property": "C70",
   "status": "partial",
   "theorems": [
    "C70_coslobe_series",
    "C70_power_zero",
    "C70_coslobe_projection_partial",
    "C70_coslobe_projection_refuted"
   ],
   "note": "REFUTED at i=0 (0**0=1 makes the function constant, the coefficients are those of the half-range step): C70_coslobe_projection_refuted; proved for every i>=1 and every n, and there the series converges uniformly to the lobe (C70_coslobe_series). C70_power_zero: for i=0 the coefficients are the projection of the half-range step."
  },
  {
   "property": "C71",
   "status": "proved",
   "theorems": [
    "C71_nadirnorm_series"
   ],
   "note": ""
  },
  {
   "property": "C72",
   "status": "partial",
   "theorems": [
    "C72_no_functions",
    "C72_volume_never",
    "C72_lincomb_surface_usable",
    "C72_lincomb_volume_refuted",
    "C72_lincomb_volume_partial"
   ],
   "note": "REFUTED for LinCombV: ncoefs is only set by _set_legexpansion, which LinCombV never calls; proved for LinCombSRF. C72_volume_never: no LinCombV can be expanded as constructed."
  },
  {
   "property": "C73",
   "status": "partial",
   "theorems": [
    "C73_surface_exactly",
    "C73_coefficients_exactly",
    "C73_volume_evaluation_follows",
    "C73_surface_evaluation_partial",
    "C73_surface_evaluation_refuted",
    "C73_volume_coefficients_refuted"
   ],
   "note": "REFUTED for the surface function and for the coefficients (memoised _func/legcoefs); proved for the volume function in every history and for the surface when all assignments precede the first evaluation. C73_surface_exactly, C73_coefficients_exactly: in every history the attributes at the first evaluation (the first use of the coefficients) are the ones that count."
  },
  {
   "property": "C74",
   "status": "proved",
   "theorems": [
    "C74_interaction",
    "C74_rayleigh_lambert",
    "C74_lincomb_surface"
   ],
   "note": ""
  },
  {
   "property": "C75",
   "status": "partial",
   "theorems": [
    "C75_infinite",
    "C75_exactly",
    "C75_nadir_refuted",
    "C75_no_vegetation_refuted",
    "C75_finite_partial"
   ],
   "note": "REFUTED: NaN at nadir (t_0 = 0) and at tau = 0 for every volume and surface; C75_finite_partial shows it is finite for cosines in (0,1) and tau > 0. C75_exactly: on the admissible range it is NaN if and only if tau = 0 or one of the directions is vertical, and finite otherwise."
  },
  {
   "property": "C76",
   "status": "partial",
   "theorems": [
    "C76_mono",
    "C76_fixed_azimuths",
    "C76_fixed_zenith_refuted"
   ],
   "note": "REFUTED: with a fixed zenith angle the coefficients of the second F_int are evaluated at the wrong angles; proved equal for 'mono' and for fixed azimuths with a_1 = a_2."
  },
  {
   "property": "C77",
   "status": "proved",
   "theorems": [
    "C77_nonnegative",
    "C77_lincomb",
    "C77_lincomb_surface",
    "C77_lincomb_volume"
   ],
   "note": "FULL. C77_lincomb: components with the same a have the same ncoefs; C77_lincomb_surface and C77_lincomb_volume (Lin_Props.v): no restriction, every component with the largest ncoefs of its group, which is how the code expands it (C24)."
  },
  {
   "property": "C78",
   "status": "proved",
   "theorems": [
    "C78_reciprocity",
    "C78_rotation"
   ],
   "note": ""
  },
  {
   "property": "C79",
   "status": "partial",
   "theorems": [
    "C79_omitted_in_dict",
    "C79_omitted_in_list_refuted",
    "C79_list_exactly"
   ],
   "note": "REFUTED for lists: omitted properties become None (also minval/maxval/interpQ). Proved for dictionaries.  C79_list_exactly: the items go to the properties in order, the others become None, and all omitted properties have their defaults only for a complete list."
  },
  {
   "property": "C80",
   "status": "partial",
   "theorems": [
    "C80_reassignment_refuted",
    "C80_add_replaces"
   ],
   "note": "REFUTED: the assignment only creates a plain attribute, the definition is unchanged. add_variable does replace."
  },
  {
   "property": "C81",
   "status": "partial",
   "theorems": [
    "C81_unknown_key_refuted",
    "C81_unknown_key_rejected",
    "C81_item_rejected",
    "C81_name"
   ],
   "note": "REFUTED for from_dict: unknown keys become plain attributes. Proved for add_variable and attribute assignment."
  },
  {
   "property": "C82",
   "status": "partial",
   "theorems": [
    "C82_component_override_refuted",
    "C82_restated_components"
   ],
   "note": "REFUTED: without repeating V_name the components are unchanged and the entries become stray arguments of the linear combination; with V_name the whole component list is replaced (both proved for all files)."
  },
  {
   "property": "C83",
   "status": "partial",
   "theorems": [
    "C83_no_effect_refuted"
   ],
   "note": "REFUTED: sections other than the five configuration sections are accepted and ignored (proved for all of them, including PROCESS_SPECS); for the five sections C39 gives the effect."
  },
  {
   "property": "C84",
   "status": "partial",
   "theorems": [
    "C84_lists",
    "C84_empty_list_refuted",
    "C84_whitespace",
    "C84_stripped"
   ],
   "note": "REFUTED for n = 0 ('[]' gives [''] or a ValueError); proved for all n >= 1."
  },
  {
   "property": "C85",
   "status": "partial",
   "theorems": [
    "C85_entries",
    "C85_name_clash_refuted"
   ],
   "note": "REFUTED for equal names with different type prefixes (the later replaces the earlier); the exact combination of the single-entry results is proved for all sections."
  },
  {
   "property": "C86",
   "status": "partial",
   "theorems": [
    "C86_exactly",
    "C86_unify_partial",
    "C86_common_index_refuted"
   ],
   "note": "REFUTED: _unify_idx_data raises for series sharing labels if the numbers of present values differ and leaves disjoint labels untouched for equal lengths (C86_common_index_refuted); C86_unify_partial is what it does guarantee. C86_exactly: when the compared series have the same labels (necessary and sufficient)."
  },
  {
   "property": "C87",
   "status": "proved",
   "theorems": [
    "C87_monotone",
    "C87_value"
   ],
   "note": ""
  },
  {
   "property": "C88",
   "status": "partial",
   "theorems": [
    "C88_least_squares",
    "C88_order_refuted"
   ],
   "note": "REFUTED: linregress goes by position and pearson by label, so they differ for reordered labels (C88_order_refuted).  Optimality and uniqueness hold for all complete series, equality with pearson for equal labels (C88_least_squares)."
  },
  {
   "property": "C89",
   "status": "proved",
   "theorems": [
    "C89_value",
    "C89_scale"
   ],
   "note": ""
  },
  {
   "property": "C90",
   "status": "proved",
   "theorems": [
    "C90_can_finish",
    "C90_needs_cache"
   ],
   "note": ""
  },
  {
   "property": "C91",
   "status": "partial",
   "theorems": [
    "C91_times",
    "C91_stored_once",
    "C91_custom_names_refuted",
    "C91_repeated_argument_refuted"
   ],
   "note": "REFUTED for custom get_names_ids (the check uses feature_id, the table stores reader_arg['ID']) and for repeated arguments; proved for the default getter and arguments without repetition. C91_times: for every history, the default getter stores an ID at most as often as it occurs in one list of arguments."
  },
  {
   "property": "C92",
   "status": "proved",
   "theorems": [
    "C92_contained",
    "C92_outcomes",
    "C92_empty_dataset",
    "C92_every_argument_counted"
   ],
   "note": ""
  },
  {
   "property": "C93",
   "status": "partial",
   "theorems": [
    "C93_exactly",
    "C93_reader_values",
    "C93_singleton_refuted"
   ],
   "note": "REFUTED for a list or tuple that holds only the table (UnboundLocalError); proved for the table alone and for any number >= 1 of further elements. C93_exactly: with a fit that succeeds, the feature is fitted if and only if the reader returns a table with rows, alone or followed by at least one element."
  },
  {
   "property": "C94",
   "status": "partial",
   "theorems": [
    "C94_exactly",
    "C94_jacobian_is_derivative",
    "C94_refuted"
   ],
   "note": "REFUTED: data_weights enter the residuals but not the jacobian (C94_refuted).  C94_jacobian_is_derivative proves the claim for unit weights and contiguous groups. C94_exactly: for all weights the derivative of a residual is the entry of the jacobian times its weight, so an entry is right iff the weight is 1 or the entry 0."
  },
  {
   "property": "C95",
   "status": "partial",
   "theorems": [
    "C95_interpolation_exact",
    "C95_refuted"
   ],
   "note": "REFUTED: the jacobian uses the step assignment also for interpolated parameters (C95_refuted).  C95_interpolation_exact: an entry is right iff the interpolation weight equals the step assignment or the model does not depend on the parameter."
  },
  {
   "property": "C97",
   "status": "partial",
   "theorems": [
    "C97_evaluations_independent",
    "C97_refuted",
    "C97_other_object_refuted"
   ],
   "note": "REFUTED: a value passed for a constant omega, tau or NormBRDF is written into the cached scattering objects and stays in effect (C97_refuted) until an attribute of any fit object is assigned (C97_other_object_refuted).  Proved for every sequence of evaluations that passes no values for constants (C97_evaluations_independent)."
  },
  {
   "property": "C98",
   "status": "partial",
   "theorems": [
    "C98_exactly",
    "C98_keywords_override",
    "C98_positional_refuted",
    "C98_sticky_refuted",
    "C98_same_keywords"
   ],
   "note": "REFUTED: positional arguments can never be replaced (tuple item assignment, C98_positional_refuted) and keywords of a call stay for the later calls (C98_sticky_refuted).  Proved: keywords of the call take precedence (C98_keywords_override); calls with the same keywords do not influence each other (C98_same_keywords).  C98_exactly gives the arguments of every call in every sequence of calls: each keyword has the value of the latest call that gives it, positional arguments raise and leave no trace."
  },
  {
   "property": "C99",
   "status": "proved",
   "theorems": [
    "C99_single_id",
    "C99_single_name",
    "C99_unknown"
   ],
   "note": "For all tables whose rows are grouped by ID (as written by the HDF writer); get_vals/select of pandas is modelled as row filter."
  },
  {
   "property": "C100",
   "status": "partial",
   "theorems": [
    "C100_configuration",
    "C100_existing_copy",
    "C100_refuted",
    "C100_overwritten_refuted"
   ],
   "note": "REFUTED: an existing copy of the config-file in the dumpfolder is used instead of the given config-file if there are no overrides - overrides of an earlier run stay in effect after they have been withdrawn (C100_refuted, C100_existing_copy); with overrides the existing copy is overwritten in spite of the comment \"NO files will be overwritten\" (C100_overwritten_refuted).  Proved: the configuration is config-file + overrides if the files are not copied, or there are overrides, or there is no copy in the folder, or the folder has been removed (C100_configuration)."
  },
  {
   "property": "C101",
   "status": "partial",
   "theorems": [
    "C101_attributes",
    "C101_options_refuted",
    "C101_ID_refuted"
   ],
   "note": "REFUTED: share_fnevals and share_auxdata have no effect (C101_options_refuted), ID and verbose are not shared (C101_ID_refuted).  Proved: all other attributes (C101_attributes; sorted dataset, no attribute None)."
  },
  {
   "property": "C102",
   "status": "proved",
   "theorems": [
    "C102_own_data",
    "C102_history"
   ],
   "note": "Fits objects are created per feature (C102_own_data); for MultiFits equality with the first-feature run for every history (C102_history), except for aux_data (C67).  The least-squares fit is an arbitrary function of definition, functions of the interaction term and dataset; performfit(clear_cache=True) clears all caches first (modelled in Ses)."
  },
  {
   "property": "C103",
   "status": "partial",
   "theorems": [
    "C103_known_options",
    "C103_unknown_option",
    "C103_fit",
    "C103_multi_refuted"
   ],
   "note": "REFUTED for MultiFits: with save_res_df every feature fails (TypeError, C103_multi_refuted).  Proved for Fits (C103_fit)."
  },
  {
   "property": "C104",
   "status": "proved",
   "theorems": [
    "C104_accepted_iff_usable",
    "C104_errors"
   ],
   "note": "check_integrity = Ok iff usable, and the exceptions otherwise."
  },
  {
   "property": "C105",
   "status": "proved",
   "theorems": [
    "C105_arguments",
    "C105_bad_argument",
    "C105_booleans",
    "C105_booleans_consistent",
    "C105_lists",
    "C105_unreadable"
   ],
   "note": "float, int and strptime are oracles on strings. The list_keys branch of _parse_dict is unreachable (both property tables leave it empty)."
  },
  {
   "property": "C106",
   "status": "proved",
   "theorems": [
    "C106_set_position",
    "C106_bad_position",
    "C106_bad_bounds"
   ],
   "note": "All reachable defdicts; position 3 takes a tuple ([min],[max])."
  },
  {
   "property": "C107",
   "status": "partial",
   "theorems": [
    "C107_not_in_results",
    "C107_requested",
    "C107_constant_refuted",
    "C107_contributions_refuted"
   ],
   "note": "REFUTED: requesting a constant variable fails with AttributeError and the file is not exported (C107_constant_refuted); with pandas >= 1.5 (a set is no indexer) every file fails if a model contribution is requested (C107_contributions_refuted).  Proved: exact contents of both tables for the first fit if every parameter has a source (C107_requested), for all fits in C109_every_fit."
  },
  {
   "property": "C108",
   "status": "partial",
   "theorems": [
    "C108_options_refuted",
    "C108_not_converted_refuted",
    "C108_getparams"
   ],
   "note": "REFUTED: the options are not passed on, the result does not depend on them (C108_options_refuted, C108_not_converted_refuted).  Proved: the extraction itself converts (C108_getparams)."
  },
  {
   "property": "C109",
   "status": "partial",
   "theorems": [
    "C109_every_fit",
    "C109_scalar_once_refuted",
    "C109_contribution_refuted"
   ],
   "note": "REFUTED: if the function returns a number, the name is removed from the request that all later fits share, so that it is exported for the first fit of a process only (C109_scalar_once_refuted); a function for a model contribution is not called (C109_contribution_refuted).  Proved: exact contents for every configuration of every file if no function returns a number (C109_every_fit)."
  },
  {
   "property": "C110",
   "status": "proved",
   "theorems": [
    "C110_metrics",
    "C110_bad_metric"
   ],
   "note": "Every file that is written (C110_metrics); a metric that cannot be evaluated loses the file (C110_bad_metric)."
  },
  {
   "property": "C111",
   "status": "proved",
   "theorems": [
    "C111_angles",
    "C111_converges",
    "C111_shipped",
    "C111_combination",
    "C111_lambert",
    "C111_nadir"
   ],
   "note": "FULL: convergence for every continuous BRDF; real arithmetic; simps with even=\"avg\" (scipy up to 1.10)."
  },
  {
   "property": "C112",
   "status": "partial",
   "theorems": [
    "C112_odd_refuted",
    "C112_even",
    "C112_limit"
   ],
   "note": "REFUTED: for Isotropic with NormBRDF = 1 (reflectance exactly 1) the warning is given for every odd simps_N >= 3, because Simpson's rule overestimates the integral; not for even simps_N (default 1000).  C112_limit: right whenever no reflectance on the grid equals 1 and simps_N is large enough."
  },
  {
   "property": "C96",
   "status": "partial",
   "theorems": [
    "C96_sum_refuted",
    "C96_power_refuted",
    "C96_shapes",
    "C96_chain_rule",
    "C96_harmless",
    "C96_fitted_refuted",
    "C96_axis_refuted",
    "C96_repeat_refuted",
    "C96_shared_refuted",
    "C96_elsewhere_refuted"
   ],
   "note": "REFUTED: the inner derivative is evaluated with the list of the fitted values instead of the values of the observations. Derivatives that contain fitted parameters only are an error (C96_fitted_refuted); mixed with auxiliary data they can be silently wrong (C96_axis_refuted, C96_repeat_refuted). A symbol shared by two definitions is an error, one also used elsewhere in the model loses a contribution. C96_chain_rule: right for all other definitions (in particular those linear in the fitted symbols)."
  },
  {
   "property": "C113",
   "status": "partial",
   "theorems": [
    "C113_attributes",
    "C113_weights",
    "C113_component_attributes",
    "C113_components_refuted",
    "C113_free_symbols",
    "C113_free_symbols_refuted"
   ],
   "note": "REFUTED: components of a linear combination are initialised without the values: a fixed number is not used there (C113_components_refuted, exact: C113_component_attributes), and their symbols are not in free_symbols (C113_free_symbols_refuted).  Proved: attributes and weights of the function itself (C113_attributes, C113_weights) and the exact free_symbols (C113_free_symbols)."
  },
  {
   "property": "C114",
   "status": "partial",
   "theorems": [
    "C114_loaded",
    "C114_original",
    "C114_sum_refuted",
    "C114_multiple_refuted",
    "C114_float_refuted"
   ],
   "note": "REFUTED: set_V_SRF is called with the names as strings: x + y is stored as 'xy' (C114_sum_refuted), 2 * x as 'xx' (C114_multiple_refuted), 0.5 * x is a TypeError that is logged, nothing is stored and the file cannot be loaded (C114_float_refuted).  Proved: if no operator is applied to a bare variable, original and loaded attributes both have the value that is meant (C114_loaded, C114_original)."
  },
  {
   "property": "C115",
   "status": "partial",
   "theorems": [
    "C115_literal",
    "C115_error",
    "C115_bounds_refuted"
   ],
   "note": "REFUTED: infinite bounds (C115_bounds_refuted), nan, arrays and dates raise a ValueError when the file is loaded (C115_error).  Proved: read back exactly when made of None, booleans, finite numbers, strings, lists, tuples and dicts (C115_literal)."
  },
  {
   "property": "C116",
   "status": "proved",
   "theorems": [
    "C116_residuals",
    "C116_objective"
   ],
   "note": "FULL: C116_residuals (one entry for each observation, own parameter values) and C116_objective (sum of squares over the reals)."
  },
  {
   "property": "C117",
   "status": "partial",
   "theorems": [
    "C117_rows",
    "C117_order_refuted"
   ],
   "note": "REFUTED: rows are in the order of the combined groups, not of the dataset (C117_order_refuted).  Proved: one row for each observation, and dataset order exactly if the groups are contiguous (C117_rows)."
  },
  {
   "property": "C118",
   "status": "partial",
   "theorems": [
    "C118_exactly",
    "C118_res_df",
    "C118_dates",
    "C118_refuted"
   ],
   "note": "REFUTED: if observations of one date belong to different groups, values are dropped (C118_refuted).  Proved: the value is the one of the first processed observation of the date (C118_res_df); of all of them if the groups do not split dates (C118_dates). C118_exactly: the table holds the value of every observation if and only if observations of the same date have the same value."
  },
  {
   "property": "C119",
   "status": "proved",
   "theorems": [
    "C119_res_df_group"
   ],
   "note": "FULL: C119_res_df_group."
  },
  {
   "property": "C120",
   "status": "partial",
   "theorems": [
    "C120_exactly",
    "C120_nodes",
    "C120_recurring_refuted"
   ],
   "note": "REFUTED: whether groups recur is checked on the group numbers of the combined groups in order of first appearance, so that groups 1, 2, 1, 2 get one node each at the overall mean (C120_recurring_refuted).  Proved whenever increasing numbers imply contiguous groups (C120_nodes). C120_exactly: the nodes are those of the runs if and only if increasing numbers imply contiguous groups."
  },
  {
   "property": "C121",
   "status": "proved",
   "theorems": [
    "C121_roundtrip",
    "C121_cycles",
    "C121_multi",
    "C121_after_failure",
    "C121_old_dataset",
    "C121_old_results"
   ],
   "note": "FULL: C121_roundtrip, C121_cycles (any sequence), C121_multi."
  },
  {
   "property": "C122",
   "status": "partial",
   "theorems": [
    "C122_kept",
    "C122_second_refuted",
    "C122_failed_refuted"
   ],
   "note": "REFUTED: a second mini dump of the loaded fit empties fit_output (C122_second_refuted); if the file cannot be opened the object stays marked and its next copy is reduced (C122_failed_refuted).  Proved: the first dump keeps them (C122_kept)."
  },
  {
   "property": "C123",
   "status": "proved",
   "theorems": [
    "C123_first_order_solution",
    "C123_calc",
    "C123_printed_formula_differs"
   ],
   "note": "FULL: C123_first_order_solution (existence and uniqueness for general functions), C123_calc (the code, all expansions).  C123_printed_formula_differs: the formula printed in doc/theory.rst (same exponential in front of both interaction terms) is not the solution; the code is right."
  },
  {
   "property": "C124",
   "status": "partial",
   "theorems": [
    "C124_found",
    "C124_only",
    "C124_each_once",
    "C124_itself",
    "C124_suffix_refuted",
    "C124_nested_refuted",
    "C124_first_hundred"
   ],
   "note": "REFUTED: names with a dot are cut (C124_suffix_refuted: results['run'] is the folder run.bak; results['v1.2'] is not found); results inside a result, as in the documentation, are not reachable (C124_nested_refuted). Holds for names without dots and up to 100 entries (C124_found, C124_each_once, C124_itself); C124_only without conditions."
  },
  {
   "property": "C125",
   "status": "partial",
   "theorems": [
    "C125_listing",
    "C125_by_name",
    "C125_missing",
    "C125_nth",
    "C125_dump_fits",
    "C125_dumpname_refuted"
   ],
   "note": "REFUTED for IDs that end with .dump (C125_dumpname_refuted). Otherwise C125_listing, C125_by_name, C125_missing, C125_nth, C125_dump_fits."
  },
  {
   "property": "C126",
   "status": "partial",
   "theorems": [
    "C126_exactly",
    "C126_by_name",
    "C126_nth",
    "C126_nth_refuted",
    "C126_return_ID_refuted"
   ],
   "note": "REFUTED: return_ID=True always raises (C126_return_ID_refuted); the integer is the number of the feature, not its position (C126_nth_refuted). C126_by_name holds, C126_nth if the numbers are 0, 1, 2, ... in the order of storage. C126_exactly: load_fit(i) is the i-th feature for all i if and only if the numbers are 0, 1, 2, ... in the order of storage."
  },
  {
   "property": "C127",
   "status": "partial",
   "theorems": [
    "C127_absolute",
    "C127_relative_refuted",
    "C127_mode",
    "C127_mode_refuted",
    "C127_folder_refuted"
   ],
   "note": "REFUTED: with a relative save path no fit is loaded (C127_relative_refuted); later calls use the mode of the first one (C127_mode_refuted); a folder name with a dot raises AttributeError (C127_folder_refuted). C127_absolute, C127_mode hold."
  },
  {
   "property": "C128",
   "status": "partial",
   "theorems": [
    "C128_missing",
    "C128_access",
    "C128_hidden_refuted",
    "C128_get_data",
    "C128_get_data_const_refuted"
   ],
   "note": "REFUTED: get_data without config raises KeyError for every table (C128_get_data_const_refuted); a table with the name of a config is hidden (C128_hidden_refuted). C128_access, C128_get_data hold otherwise."
  },
  {
   "property": "C129",
   "status": "partial",
   "theorems": [
    "C129_exactly",
    "C129_levels",
    "C129_all_refuted",
    "C129_single_refuted"
   ],
   "note": "REFUTED: a table with a simple index ends the call with TypeError for 'all' and lists (C129_all_refuted), and by default its index is asked for a column '1' (C129_single_refuted). C129_levels for files with MultiIndex tables only. C129_exactly: with 'all' or a list it ends without an exception if and only if no table has a simple index; with the default a simple index never raises."
  },
  {
   "property": "C130",
   "status": "partial",
   "theorems": [
    "C130_untouched",
    "C130_exit",
    "C130_exit_refuted",
    "C130_errors_refuted",
    "C130_errors"
   ],
   "note": "REFUTED: with a log-file (the default) a refusal at the prompt and every error of setup() surface as UnboundLocalError, because the finally-block uses the variable queue that is not assigned yet (C130_exit_refuted, C130_errors_refuted). Proved: a refusal changes nothing (C130_untouched), exit without log-file (C130_exit), later errors are reported as they are (C130_errors)."
  },
  {
   "property": "C131",
   "status": "partial",
   "theorems": [
    "C131_processing_refuted",
    "C131_final"
   ],
   "note": "REFUTED: run_processing(logfile_level=None) always raises a TypeError (queue, proc_counter = None) and never processes a feature (C131_processing_refuted). run_finaloutput(logfile_level=None) works (C131_final)."
  },
  {
   "property": "C132",
   "status": "partial",
   "theorems": [
    "C132_during",
    "C132_handlers",
    "C132_warnings_refuted",
    "C132_level_refuted",
    "C132_capture"
   ],
   "note": "REFUTED: the handlers of py.warnings pile up, one for each run with a log-file (C132_warnings_refuted), and the level of the logger stays that of the last run (C132_level_refuted). Proved: the handlers of the rt1 logger (C132_handlers) and captureWarnings (C132_capture)."
  },
  {
   "property": "C133",
   "status": "partial",
   "theorems": [
    "C133_name",
    "C133_name_refuted",
    "C133_overrides_refuted",
    "C133_override",
    "C133_autocontinue",
    "C133_autocontinue_refuted"
   ],
   "note": "REFUTED: the name stays in effect for all later calls without a name (C133_name_refuted), overrides of other sections are lost (C133_overrides_refuted), and autocontinue stays True if setup fails, so that the next run does not ask (C133_autocontinue_refuted). Proved: the name is used (C133_name), overrides are in effect afterwards (C133_override), autocontinue after a call without error (C133_autocontinue)."
  },
  {
   "property": "C134",
   "status": "partial",
   "theorems": [
    "C134_initializer",
    "C134_first",
    "C134_reuse_refuted"
   ],
   "note": "REFUTED: the dict pool_kwargs is changed in place; with each further run with the same dict the workers are set up once more and connected to the queues of all earlier runs (C134_reuse_refuted). Proved: the initializer of the user is called once with its arguments in any case (C134_initializer), one setup in a first run (C134_first)."
  },
  {
   "property": "C135",
   "status": "proved",
   "theorems": [
    "C135_source"
   ],
   "note": "FULL: exact decision rule."
  },
  {
   "property": "C136",
   "status": "partial",
   "theorems": [
    "C136_exactly",
    "C136_refuted",
    "C136_default"
   ],
   "note": "REFUTED: the constructor only accepts strings as values, setup() only dicts: no non-empty init_kwargs can be used (C136_refuted); without the argument the config-file is used as it is (C136_default).  C136_exactly: the run can be set up exactly if init_kwargs is missing or empty."
  },
  {
   "property": "C137",
   "status": "proved",
   "theorems": [
    "C137_values",
    "C137_slopes_linear",
    "C137_curvatures_linear",
    "C137_dB",
    "C137_dB_surface",
    "C137_edge_needed"
   ],
   "note": "FULL: no differentiability or positivity hypothesis is left; the edge of a cosine lobe is excluded exactly where the function has no derivative (C137_edge_needed)."
  },
  {
   "property": "C138",
   "status": "proved",
   "theorems": [
    "C138_jacobian"
   ],
   "note": "FULL: asymmetry parameters and weighting factors as numbers or symbols; in dB the total must be positive (C139)."
  },
  {
   "property": "C139",
   "status": "proved",
   "theorems": [
    "C139_bounds",
    "C139_positive"
   ],
   "note": "FULL"
  },
  {
   "property": "C140",
   "status": "proved",
   "theorems": [
    "C140_reciprocity"
   ],
   "note": "FULL: surface, volume and total; the interaction term is C78."
  },
  {
   "property": "C141",
   "status": "proved",
   "theorems": [
    "C141_error",
    "C141_limit",
    "C141_unique"
   ],
   "note": "FULL for geometry 'vvvv' (mono and bistatic values of the angles); expi/expn are scipy oracles (is_expi, is_expn)."
  },
  {
   "property": "C142",
   "status": "proved",
   "theorems": [
    "C142_tail",
    "C142_rates",
    "C142_hg_over_hg"
   ],
   "note": "FULL"
  },
  {
   "property": "C143",
   "status": "proved",
   "theorems": [
    "C143_converges"
   ],
   "note": "FULL for the objects after _set_legexpansion; cosine lobes of power 0 excluded (C70: their series has another limit); all elements of a combination get the same ncoefs N."
  },
  {
   "property": "C144",
   "status": "proved",
   "theorems": [
    "C144_routing",
    "C144_calc",
    "C144_shared"
   ],
   "note": "FULL: exact results of _set_calc_values and calc for all overlaps of names (C144_routing, C144_calc, C144_shared)."
  },
  {
   "property": "C145",
   "status": "partial",
   "theorems": [
    "C145_all_values_partial",
    "C145_dict_partial",
    "C145_names",
    "C145_symbols",
    "C145_reserved_refuted",
    "C145_component_refuted"
   ],
   "note": "REFUTED: a function parameter named omega/tau/NormBRDF/bsf, and a symbol of a component of a linear combination that is also used in the definition of omega/tau/NormBRDF, pass the check at set-up but the evaluation is a NameError (C145_reserved_refuted, C145_component_refuted). Proved without reserved names for models whose symbols are known (C145_all_values_partial) and for all dicts with single functions (C145_dict_partial)."
  },
  {
   "property": "C146",
   "status": "partial",
   "theorems": [
    "C146_function_refuted",
    "C146_definition_refuted",
    "C146_number"
   ],
   "note": "REFUTED for constants that are arrays or frames: AssertionError when R is built if the name is a parameter of a function, KeyError at every evaluation if it is used in omega, tau or NormBRDF (C146_function_refuted, C146_definition_refuted). Constant numbers are put into the model and no longer required (C146_number)."
  },
  {
   "property": "C147",
   "status": "partial",
   "theorems": [
    "C147_exactly",
    "C147_assign",
    "C147_calc",
    "C147_no_assign_refuted"
   ],
   "note": "REFUTED: calc_model(assign=False) without explicit values writes the auxiliary values into res_dict, after which res_df raises KeyError (C147_no_assign_refuted). Proved: with assign=True (default, fits, jacobian) and for calc no dict is changed (C147_assign, C147_calc).  C147_exactly: the dicts stay unchanged exactly if the values are assigned or there are no auxiliary values; only the dict of the results can change, and its own values remain."
  },
  {
   "property": "C148",
   "status": "partial",
   "theorems": [
    "C148_lines",
    "C148_approximation",
    "C148_lincomb_refuted"
   ],
   "note": "REFUTED: with aprox=True (the default) a combination of phase functions (LinCombV) cannot be plotted: AttributeError for ncoefs (C148_lincomb_refuted). Proved for everything else: solid and dashed lines for every pair of parameters and incidence-angle (C148_lines) and uniform convergence of the dashed lines (C148_approximation)."
  },
  {
   "property": "C149",
   "status": "partial",
   "theorems": [
    "C149_figure_partial",
    "C149_axes_refuted",
    "C149_range",
    "C149_ticks_refuted"
   ],
   "note": "REFUTED: with given polarax everything is drawn but the call ends in an UnboundLocalError since fig is only bound for new figures (C149_axes_refuted); the tick at 125 degrees is labelled 135 (C149_ticks_refuted). Proved: without polarax the figure is returned (C149_figure_partial); range (C149_range, multip >= 5/6)."
  },
  {
   "property": "C150",
   "status": "partial",
   "theorems": [
    "C150_files_partial",
    "C150_only_messages",
    "C150_failed_start_refuted",
    "C150_root_refuted"
   ],
   "note": "REFUTED: if the root logger has handlers when rt1 is imported, the level of the logger is never set and messages below the root level reach no log-file (C150_root_refuted); a start that fails closes the log-file that was open with that name (C150_failed_start_refuted). Proved for all histories otherwise: C150_files_partial, C150_only_messages."
  },
  {
   "property": "C151",
   "status": "partial",
   "theorems": [
    "C151_console_name",
    "C151_console_partial",
    "C151_set_level",
    "C151_console_lost_refuted",
    "C151_root_refuted"
   ],
   "note": "REFUTED: stopping or starting a log-file named rt1_consolehandler raises AttributeError and removes the console (C151_console_lost_refuted); with root handlers at import there is no console handler (C151_root_refuted). Proved otherwise: C151_console_partial, C151_set_level."
  },
  {
   "property": "C152",
   "status": "partial",
   "theorems": [
    "C152_files",
    "C152_console_partial",
    "C152_aligned_partial",
    "C152_levels_refuted"
   ],
   "note": "REFUTED: the coloured formatter raises TypeError for any level but the six known ones, the message is lost (C152_levels_refuted); process names of more than 21 characters shift the first line (C152_aligned_partial). Proved: layout in files (C152_files) and on the console (C152_console_partial)."
  },
  {
   "property": "C153",
   "status": "partial",
   "theorems": [
    "C153_not_python",
    "C153_copies_partial",
    "C153_originals",
    "C153_frozen",
    "C153_same_name_refuted",
    "C153_copy_entry_refuted"
   ],
   "note": "REFUTED: with copy=True two modules with the same file name in different folders both get the code of the first (C153_same_name_refuted), the documented entry 'copy' of CONFIGFILES has no effect (C153_copy_entry_refuted). Proved otherwise: C153_copies_partial (distinct file names, new folder), C153_originals (copy=False), C153_frozen (all histories)."
  },
  {
   "property": "C154",
   "status": "partial",
   "theorems": [
    "C154_names_partial",
    "C154_replaced_refuted",
    "C154_broken_refuted"
   ],
   "note": "REFUTED: a file named like a module that is already imported (e.g. random.py) replaces it in sys.modules for the whole process (C154_replaced_refuted); a module whose import fails stays in sys.modules (C154_broken_refuted). Proved: C154_names_partial (other names unchanged; with distinct names each name refers to the module of the run)."
  },
  {
   "property": "C155",
   "status": "partial",
   "theorems": [
    "C155_slopes_partial",
    "C155_components",
    "C155_interaction_refuted"
   ],
   "note": "REFUTED: with int_Q=True the returned slope lacks the derivative of the interaction contribution that _calc_model includes (C155_interaction_refuted, exact difference given). Proved otherwise: C155_slopes_partial (int_Q=False: first and second derivative in all units, same failures), C155_components (parts)."
  },
  {
   "property": "C156",
   "status": "partial",
   "theorems": [
    "C156_few_objects_partial",
    "C156_many_objects_partial",
    "C156_access_refuted",
    "C156_failed_evaluation_refuted"
   ],
   "note": "REFUTED: with 129 objects an access of fit.V (printing the model definition), or a failed evaluation, keeps V while the functions of omega/tau are evicted; they are then re-created from the numbers of an earlier evaluation and new parameters are silently ignored (C156_access_refuted, C156_failed_evaluation_refuted). Proved otherwise: C156_few_objects_partial (at most maxsize objects since the last clearing: every history), C156_many_objects_partial (any number of objects: histories of successful evaluations and assignments)."
  },
  {
   "property": "C157",
   "status": "partial",
   "theorems": [
    "C157_by_name",
    "C157_unnamed",
    "C157_wrong_name_refuted",
    "C157_cfg"
   ],
   "note": "REFUTED: with exactly one file in the folder a name that does not exist gives a bare KeyError (C157_wrong_name_refuted). Proved otherwise: C157_by_name, C157_unnamed (exactly which file is opened), C157_cfg."
  },
  {
   "property": "C158",
   "status": "partial",
   "theorems": [
    "C158_version",
    "C158_rescan",
    "C158_unchanged",
    "C158_stale_refuted",
    "C158_created_refuted"
   ],
   "note": "REFUTED: a file re-written while it is open is read in its old version (C158_stale_refuted), one created after the folder was scanned is not found (C158_created_refuted). Proved: C158_rescan (after a re-scan the current file, for every history), C158_unchanged (no re-writing of this result: every history). C158_version: for every history, the version used is one of this result since the last re-scan, and the only other outcome is an AssertionError for a file that is (or was, when scanned) missing."
  },
  {
   "property": "C159",
   "status": "partial",
   "theorems": [
    "C159_single",
    "C159_multi",
    "C159_accepted",
    "C159_order_refuted",
    "C159_by_name",
    "C159_unknown_ignored_refuted",
    "C159_conflict"
   ],
   "note": "REFUTED: the order of the configurations (configs[0], and so MultiFits.ID) is that of a set, i.e. not determined by the file (C159_order_refuted); misspelled entries of fits_kwargs are silently ignored (C159_unknown_ignored_refuted). Proved: C159_single, C159_multi, C159_by_name (access by name is independent of the order), C159_accepted (exactly which files are accepted)."
  },
  {
   "property": "C160",
   "status": "partial",
   "theorems": [
    "C160_missing",
    "C160_dataset",
    "C160_shared_object_refuted",
    "C160_reader_ID",
    "C160_added_later_refuted"
   ],
   "note": "REFUTED: add_config hands over neither reader_arg nor ID (C160_added_later_refuted); a fit object in two MultiFits objects (C160_shared_object_refuted). Proved: C160_dataset (dataset and aux_data, every history without shared fit objects), C160_reader_ID (from set_reader_arg / set_ID until a configuration is added)."
  },
  {
   "property": "C161",
   "status": "partial",
   "theorems": [
    "C161_table",
    "C161_aligned",
    "C161_intercept_refuted",
    "C161_flatten",
    "C161_scatter",
    "C161_lost_refuted"
   ],
   "note": "REFUTED: \"intercept_stderr\" (in every regression of current scipy versions) breaks the columns (C161_intercept_refuted); equal names in different sub-dicts and integers are lost in the flat table, and a constant d1 is a TypeError in scatterplot (C161_lost_refuted). Proved: C161_table (the exact text for every dict), C161_aligned (exactly when a line is aligned), C161_flatten, C161_scatter (all rows for the registered metrics)."
  },
  {
   "property": "C162",
   "status": "partial",
   "theorems": [
    "C162_number",
    "C162_full",
    "C162_reduced",
    "C162_lost_refuted",
    "C162_combined_refuted",
    "C162_multi_refuted",
    "C162_pandas_refuted"
   ],
   "note": "REFUTED: with save_data=False the dataset is only restored if some fitted parameter is 'manual' and no other variability needs a column (C162_reduced, an equivalence). Without a 'manual' parameter the frame has no columns, is empty for HDFStore.append, and the index is lost (C162_lost_refuted); the column of '30D + manual' is not stored (C162_combined_refuted); nothing is stored for MultiFits since self.defdict raises an AttributeError that is swallowed (C162_multi_refuted), nor with pandas >= 2 since the indexer is a set (C162_pandas_refuted). save_data=True keeps the dataset (C162_full)."
  },
  {
   "property": "C163",
   "status": "partial",
   "theorems": [
    "C163_exactly",
    "C163_same_order",
    "C163_other_order_refuted",
    "C163_fit",
    "C163_number",
    "C163_swapped_refuted",
    "C163_loaded_refuted"
   ],
   "note": "REFUTED: the functions of the interaction term take their arguments by position; right if the dictionaries have the order of the definition (C163_same_order), as in every fit and its result (C163_fit); any other order of distinct values gives some parameter the value of another one without an error (C163_other_order_refuted; fit.calc: C163_swapped_refuted; loaded MultiFits whose configurations define the parameters in different orders: C163_loaded_refuted). A wrong number raises a TypeError (C163_number).  C163_exactly states this as an equivalence for different values."
  },
  {
   "property": "C164",
   "status": "partial",
   "theorems": [
    "C164_fresh",
    "C164_before",
    "C164_stale_refuted",
    "C164_pickle",
    "C164_assigned_refuted",
    "C164_pickle_refuted",
    "C164_switch_refuted",
    "C164_backend",
    "C164_silent"
   ],
   "note": "REFUTED: right as long as nothing is assigned (C164_fresh) or assignments come before the first evaluation (C164_before). After the first evaluation no assignment of V, SRF, geometry, names, int_Q or fn changes the functions (C164_stale_refuted); __getstate__ sets fn of the object itself to None, so that pickling loses an assigned fn (C164_assigned_refuted) and changes later results after an assignment of the definition (C164_pickle_refuted), otherwise not (C164_pickle); fn read while int_Q=False stays None (C164_switch_refuted). Unknown lambda_backend: AttributeError on evaluation (C164_backend)."
  },
  {
   "property": "C165",
   "status": "partial",
   "theorems": [
    "C165_line",
    "C165_initial",
    "C165_current",
    "C165_single",
    "C165_end_refuted",
    "C165_zoom_refuted"
   ],
   "note": "REFUTED: right for every position that leaves room for the whole range, after any history (C165_current, C165_single; C165_initial: no figure if the range exceeds the number of measurements). For range >= 2 the last positions of the slider raise an IndexError and leave the old lines (C165_end_refuted); zooming lets the slider reach -1, which shows the last measurement, or n, an IndexError (C165_zoom_refuted)."
  },
  {
   "property": "C166",
   "status": "partial",
   "theorems": [
    "C166_scatter",
    "C166_timeseries",
    "C166_error_refuted",
    "C166_mixed_refuted"
   ],
   "note": "REFUTED: both plots are right exactly if equal group-numbers are adjacent or no date occurs twice (C166_scatter, C166_timeseries, equivalences). Otherwise they raise a ValueError (C166_error_refuted) or, if only measurements of the same date are interchanged, draw measurements with the estimates of others (C166_mixed_refuted)."
  },
  {
   "property": "C167",
   "status": "partial",
   "theorems": [
    "C167_groups",
    "C167_dates",
    "C167_dates_refuted",
    "C167_abs",
    "C167_cancel_refuted"
   ],
   "note": "REFUTED: for groups the labels are right exactly if the group-numbers do not decrease in the dataset (C167_groups, an equivalence); for dates if no date occurs twice or groups are adjacent and dates belong to one group (C167_dates), wrong in C167_dates_refuted. The absolute value is taken after the mean: residuals that cancel are shown as 0 (C167_cancel_refuted; never larger than the mean absolute residual: C167_abs)."
  },
  {
   "property": "C168",
   "status": "partial",
   "theorems": [
    "C168_groups",
    "C168_dates",
    "C168_sorted",
    "C168_unsorted_refuted",
    "C168_twice_refuted",
    "C168_full_refuted",
    "C168_exactly"
   ],
   "note": "REFUTED: right for groups (C168_groups) and for dates if the dates of the groups are ascending and each belongs to one group (C168_dates, C168_sorted). Other orders of the dates combine a date with the measurements of another one (C168_unsorted_refuted); a date in two groups raises an IndexError (C168_twice_refuted); printfullt_0=False raises an UnboundLocalError (C168_full_refuted).  C168_exactly: right exactly if no date is in two groups and the dates of the fit ascend."
  },
  {
   "property": "C169",
   "status": "partial",
   "theorems": [
    "C169_bar",
    "C169_monotone",
    "C169_final",
    "C169_shown",
    "C169_thread",
    "C169_race_refuted",
    "C169_nodata_refuted",
    "C169_failed_refuted"
   ],
   "note": "REFUTED: the bar is proportional, monotone and full exactly at the end (C169_bar, C169_monotone, C169_final); every shown line is consistent in every interleaving (C169_shown), and the thread only dies by a ZeroDivisionError (C169_thread). This happens if the first result is counted between two reads (C169_race_refuted); 'finished' never appears if a task has no data (C169_nodata_refuted); the final number of failed tasks is wrong while results are still in the queue (C169_failed_refuted)."
  },
  {
   "property": "C170",
   "status": "partial",
   "theorems": [
    "C170_during",
    "C170_body",
    "C170_setup_refuted",
    "C170_handlers_refuted",
    "C170_after_refuted"
   ],
   "note": "REFUTED: signals during a run stop it with SystemExit (C170_during) and errors of the block are passed on (C170_body). Errors of the setup are replaced by an UnboundLocalError (C170_setup_refuted); after a run no signal has its usual effect, for any later history (C170_handlers_refuted): the first one raises an error of the manager, all later ones are ignored (C170_after_refuted)."
  },
  {
   "property": "C171",
   "status": "partial",
   "theorems": [
    "C171_lines",
    "C171_all",
    "C171_selection_refuted",
    "C171_order_refuted",
    "C171_dates",
    "C171_errors",
    "C171_dates_refuted",
    "C171_relative_refuted",
    "C171_single",
    "C171_indexes_refuted",
    "C171_default_refuted"
   ],
   "note": "REFUTED: results labels its lines correctly exactly if each selected number stands at its own position (C171_lines, an equivalence; C171_all for the default); other ascending selections raise an IndexError (C171_selection_refuted), other orders interchange labels (C171_order_refuted). Group r is drawn at one of its dates exactly if all groups before it have a single date (C171_dates, an equivalence; C171_errors, C171_dates_refuted). Relative residuals of negative estimates are negative (C171_relative_refuted). single_results is right for fit_numbers (C171_single), raises an AttributeError for fit_indexes (C171_indexes_refuted) and an IndexError by default if there is one group (C171_default_refuted)."
  },
  {
   "property": "C172",
   "status": "partial",
   "theorems": [
    "C172_consistent",
    "C172_others",
    "C172_bsf",
    "C172_entries",
    "C172_click",
    "C172_labels_refuted",
    "C172_old_refuted",
    "C172_start",
    "C172_mean_refuted",
    "C172_outside_refuted",
    "C172_grid_refuted"
   ],
   "note": "REFUTED: after any history the figure is consistent with sliders, buttons and ranges if start values lie inside their ranges and matplotlib is >= 3.5 (C172_consistent, C172_others); a button toggles its own parameter if labels are distinct from each other and from the names (C172_click); one slider per fitted/auxiliary parameter (C172_start). Exchanged labels give a button with the other parameter's name (C172_labels_refuted), with matplotlib < 3.5 every second shaded area remains (C172_old_refuted), the start value is the first fitted value and not the mean (C172_mean_refuted), a start value outside its range is not shown by the curves (C172_outside_refuted), and a single parameter gives an IndexError (C172_grid_refuted, an exact characterisation)."
  },
  {
   "property": "C173",
   "status": "partial",
   "theorems": [
    "C173_order",
    "C173_exchanged_refuted",
    "C173_exactly"
   ],
   "note": "REFUTED: holds for every model if the fitted parameters of V and SRF are defined before the auxiliary ones (C173_order); otherwise values are exchanged whenever they differ (C173_exchanged_refuted).  C173_exactly states both as one equivalence for sliders with different values."
  },
  {
   "property": "C174",
   "status": "partial",
   "theorems": [
    "C174_recorded",
    "C174_none",
    "C174_interrupted",
    "C174_later_refuted",
    "C174_constant",
    "C174_mean_refuted",
    "C174_drawn",
    "C174_colors_refuted",
    "C174_progress",
    "C174_limit_refuted"
   ],
   "note": "REFUTED: the record is exact for every fit with intermediate results, also if interrupted (C174_recorded, C174_interrupted, C174_none); constant parameters are shown and labelled correctly (C174_constant), lines are complete (C174_drawn), the progress is exact for an integer max_nfev (C174_progress). Later fits without intermediate results still append jacobians (C174_later_refuted); the first value is labelled '(mean)' (C174_mean_refuted); more than 18 varying parameters raise an IndexError (C174_colors_refuted, an equivalence); without max_nfev the limit shown is 1000, and max_nfev=None raises a TypeError (C174_limit_refuted)."
  },
  {
   "property": "C175",
   "status": "partial",
   "theorems": [
    "C175_parameters",
    "C175_exists",
    "C175_integers_refuted",
    "C175_scatter",
    "C175_lsq",
    "C175_lsq_refuted"
   ],
   "note": "REFUTED: tables of parameters, V and SRF are complete and exact (C175_parameters, C175_scatter), an even number of keywords is complete (C175_lsq). The report exists exactly if start values and boundaries are floats or strings (C175_exists); integers raise a ValueError, which also stops a run with a dump-folder (C175_integers_refuted). The middle one of an odd number of keywords is missing (C175_lsq_refuted)."
  },
  {
   "property": "C176",
   "status": "partial",
   "theorems": [
    "C176_configs",
    "C176_twice_refuted",
    "C176_property",
    "C176_loaded_refuted",
    "C176_calls",
    "C176_kept_refuted",
    "C176_positional_refuted",
    "C176_override_refuted"
   ],
   "note": "REFUTED: config_fits and properties are exact in sessions where an object was created and no fit has two names (C176_configs, C176_property); callbacks run on their own fit and do not influence each other (C176_calls, exact for every sequence). After loading a MultiFits in a new interpreter all properties raise an AttributeError (C176_loaded_refuted); a fit with two names is skipped once (C176_twice_refuted); keywords of a call stay in effect (C176_kept_refuted); positional arguments always raise (C176_positional_refuted), arguments given by position can not be overridden (C176_override_refuted)."
  },
  {
   "property": "C177",
   "status": "proved",
   "theorems": [
    "C177_whole",
    "C177_interrupted",
    "C177_all_or_nothing"
   ],
   "note": "FULL (C177_whole, C177_interrupted, C177_all_or_nothing) for results the writer accepts (good_task, see C48, C50); one HDFStore.append is atomic in the model."
  },
  {
   "property": "C178",
   "status": "proved",
   "theorems": [
    "C178_by_number",
    "C178_by_name",
    "C178_isolated",
    "C178_nothing_else"
   ],
   "note": "FULL (C178_by_number, C178_by_name, C178_isolated, C178_nothing_else): composition of Ids, Pip and Pag, for undisturbed complete runs whose tasks return tables indexed by their number with one row in reader_arg (sound_task). Interrupted runs: see C52; names of features that collide: see C53, C91."
  },
  {
   "property": "C179",
   "status": "partial",
   "theorems": [
    "C179_current",
    "C179_before_fit",
    "C179_static_reference",
    "C179_unnoticed_refuted",
    "C179_mixed_refuted"
   ],
   "note": "REFUTED: performfit(clear_cache=False), an assignment to res_dict or int_Q and MultiFits.set_dataset leave the metrics of the old state in place (C179_unnoticed_refuted); a kept metric object can compare old values of one variable with new values of the other after an eviction (C179_mixed_refuted). Proved: current after any history of the other operations, with any evictions (C179_current), AttributeError before a fit (C179_before_fit), kept pairs stay the same unless evicted (C179_static_reference)."
  },
  {
   "property": "C180",
   "status": "partial",
   "theorems": [
    "C180_between",
    "C180_nodes",
    "C180_outside",
    "C180_bounds",
    "C180_linear",
    "C180_order",
    "C180_result",
    "C180_arrays_refuted"
   ],
   "note": "REFUTED for lists and arrays: data.values raises an AttributeError for every list and array (C180_arrays_refuted). Proved for Series and DataFrames: C180_between, C180_nodes, C180_outside, C180_bounds, C180_linear, C180_order, C180_result."
  },
  {
   "property": "C181",
   "status": "partial",
   "theorems": [
    "C181_single",
    "C181_multi",
    "C181_by_name",
    "C181_lacking_refuted",
    "C181_ID",
    "C181_ID_refuted"
   ],
   "note": "REFUTED in two cases: a fit without dataset, auxiliary data or results cannot be loaded as soon as any other fit of the container has this part (KeyError, C181_lacking_refuted), and an ID that is no identifier after adding RT1_ is loaded with the prefix twice (C181_ID_refuted). Proved otherwise: C181_single, C181_multi, C181_by_name, C181_ID (results without NaN as in C63)."
  },
  {
   "property": "C182",
   "status": "partial",
   "theorems": [
    "C182_range",
    "C182_kept",
    "C182_one_by_one",
    "C182_at_once_refuted"
   ],
   "note": "REFUTED: reading and incrementing the counter is not atomic (initcounter.value += 1 without lock), all processes can be called RTprocess-1 (C182_at_once_refuted). Proved: the numbers are in 1..n (C182_range), they do not change (C182_kept), and they are different if the processes start one after the other (C182_one_by_one)."
  },
  {
   "property": "C183",
   "status": "partial",
   "theorems": [
    "C183_exactly",
    "C183_numbers",
    "C183_names",
    "C183_same_refuted",
    "C183_missing",
    "C183_no_IDs"
   ],
   "note": "REFUTED for two IDs with the same name: a ValueError for tables with MultiIndex (C183_same_refuted). Proved otherwise: C183_numbers, C183_names, C183_missing, C183_no_IDs.  C183_exactly: the named rows are returned exactly if every ID of the rows has a name and, with MultiIndex, the names differ."
  },
  {
   "property": "C184",
   "status": "partial",
   "theorems": [
    "C184_held",
    "C184_chain_refuted",
    "C184_collector_refuted",
    "C184_iff",
    "C184_session"
   ],
   "note": "REFUTED: the selector has only a weak reference to the accessor, so using it fails with an AttributeError once the accessor is not referenced (C184_chain_refuted), with a table init_dict after the next run of the garbage collector (C184_collector_refuted). Proved: C184_held, exact condition C184_iff, C184_session."
  },
  {
   "property": "C185",
   "status": "partial",
   "theorems": [
    "C185_unchanged",
    "C185_surface",
    "C185_volume_refuted",
    "C185_names_refuted",
    "C185_unknown",
    "C185_others",
    "C185_past"
   ],
   "note": "REFUTED: _clear_cache clears the cache of the surface twice and never the one of the volume, so after R.V = ... the derivative of the old function is used even after _clear_cache (C185_volume_refuted); after a change of the names in param_dict the jacobian raises a TypeError (C185_names_refuted). Proved: right for objects that are not changed after the first evaluation, as in performfit (C185_unchanged), and for a new SRF after _clear_cache (C185_surface); C185_unknown. C185_past: for every history the derivatives are with respect to this parameter, of functions that this very object had (the surface: since the last clearing); the only other outcome is a TypeError after a change of the names."
  },
  {
   "property": "C186",
   "status": "partial",
   "theorems": [
    "C186_exactly",
    "C186_others_kept",
    "C186_stopped",
    "C186_neighbours_refuted",
    "C186_folders"
   ],
   "note": "REFUTED: the loop iterates over the list from which removeHandler takes elements, so of two neighbouring handlers that write into the folder the second stays open (C186_neighbours_refuted). Proved: all others are kept in order (C186_others_kept), all are stopped if no two of them are neighbours (C186_stopped), folders after setup (C186_folders). C186_exactly: all are stopped if and only if no two of them are neighbours."
  },
  {
   "property": "C187",
   "status": "partial",
   "theorems": [
    "C187_named",
    "C187_unnamed",
    "C187_own",
    "C187_destination",
    "C187_later_refuted",
    "C187_override_refuted",
    "C187_again_refuted",
    "C187_set_up",
    "C187_raises"
   ],
   "note": "REFUTED: run_finaloutput after an export uses the folder and mode of the export (C187_later_refuted); an overridden dump-folder is ignored for the fits but not for the output if nothing was set up before (C187_override_refuted); the same export raises AttributeError for the second time, since the first made the parent folder one of results (C187_again_refuted). Proved: C187_named, C187_unnamed (after any history), C187_own (all sequences of calls on a configuration's own folder in one mode), C187_destination."
  },
  {
   "property": "C188",
   "status": "proved",
   "theorems": [
    "C188_bound",
    "C188_objects",
    "C188_thin",
    "C188_dense",
    "C188_factors"
   ],
   "note": "FULL: C188_thin, C188_dense for calc with the factors F_int, C188_factors that the factors of two scattering objects are of this kind (is_expi, is_expn describe scipy's functions), C188_bound and C188_objects for the interaction term itself."
  },
  {
   "property": "C189",
   "status": "proved",
   "theorems": [
    "C189_truth",
    "C189_reproduces",
    "C189_sensitive",
    "C189_blind",
    "C189_unique",
    "C189_tau_invisible"
   ],
   "note": "FULL: C189_tau_invisible (bare_surface = half_space: the optical depth cannot be found), C189_truth, C189_reproduces, C189_sensitive, C189_unique; C189_blind shows that the conditions are needed. That scipy's optimiser reaches the minimum is outside the model; several fitted parameters at once are not treated."
  },
  {
   "property": "C190",
   "status": "proved",
   "theorems": [
    "C190_between",
    "C190_towards",
    "C190_tau",
    "C190_affine",
    "C190_best",
    "C190_fit",
    "C190_linear_fit"
   ],
   "note": "FULL: C190_between, C190_towards, C190_tau, C190_affine, C190_best, C190_fit, C190_linear_fit. Best fit: minimum of the objective over the box of the bounds (that scipy's optimiser finds it is outside the model). dB: the modelled backscatter is assumed positive within the bounds."
  },
  {
   "property": "C191",
   "status": "partial",
   "theorems": [
    "C191_all",
    "C191_list",
    "C191_single",
    "C191_direct",
    "C191_error",
    "C191_rejects",
    "C191_direct_class_refuted",
    "C191_parameter_refuted",
    "C191_coefficients",
    "C191_run",
    "C191_string_refuted",
    "C191_missing_refuted"
   ],
   "note": "REFUTED: for strings (C191_string_refuted), for from_postprocess with the function of the class (C191_direct_class_refuted), for the name of the parameter (C191_parameter_refuted) and for stored results with other configurations (C191_missing_refuted). Everything else is proved: C191_all, C191_list, C191_single, C191_direct, C191_error, C191_rejects, C191_coefficients, C191_run."
  },
  {
   "property": "C192",
   "status": "partial",
   "theorems": [
    "C192_unique",
    "C192_exact",
    "C192_units",
    "C192_omega_NormBRDF",
    "C192_two_angles",
    "C192_tau_NormBRDF",
    "C192_tau_omega",
    "C192_tau_bsf",
    "C192_bsf_refuted",
    "C192_three_paths",
    "C192_one_measurement"
   ],
   "note": "REFUTED: two different geometries do not suffice for tau and NormBRDF if 0 < bsf < 1 (C192_bsf_refuted; three path lengths do: C192_three_paths). Everything else is proved: C192_unique, C192_exact, C192_units, C192_omega_NormBRDF, C192_two_angles, C192_tau_NormBRDF, C192_tau_omega, C192_tau_bsf, C192_one_measurement."
  },
  {
   "property": "C193",
   "status": "partial",
   "theorems": [
    "C193_errors",
    "C193_volume",
    "C193_surface_mono",
    "C193_surface",
    "C193_surface_constant",
    "C193_surface_refuted",
    "C193_rejects"
   ],
   "note": "REFUTED: for surfaces and non-monostatic geometries (C193_surface_refuted; exact: C193_surface, C193_surface_constant). Proved: C193_volume, C193_surface_mono, C193_rejects."
  },
  {
   "property": "C194",
   "status": "proved",
   "theorems": [
    "C194_closed",
    "C194_noise",
    "C194_bound",
    "C194_mean",
    "C194_projection"
   ],
   "note": "FULL (exact arithmetic, no interaction term). Optimum in the sense of best_fit (the solver itself is not modelled): C194_closed, C194_noise, C194_bound, C194_mean, C194_projection."
  },
  {
   "property": "C195",
   "status": "partial",
   "theorems": [
    "C195_complete",
    "C195_process",
    "C195_exact",
    "C195_always",
    "C195_ends",
    "C195_no_folder",
    "C195_low_levels_refuted",
    "C195_interrupt_refuted"
   ],
   "note": "REFUTED: for levels below 10 (C195_low_levels_refuted, exact: C195_exact) and after an interruption (C195_interrupt_refuted). Proved otherwise: C195_complete, C195_process, C195_always, C195_ends, C195_no_folder."
  },
  {
   "property": "C196",
   "status": "proved",
   "theorems": [
    "C196_bound",
    "C196_conserved",
    "C196_exists",
    "C196_bare"
   ],
   "note": "FULL"
  },
  {
   "property": "C197",
   "status": "proved",
   "theorems": [
    "C197_bound",
    "C197_conserved",
    "C197_exists",
    "C197_expansions",
    "C197_calc"
   ],
   "note": "FULL. Nonnegative expansions are a hypothesis: truncated expansions can be negative (see C141 ff. for the truncation error)."
  },
  {
   "property": "C198",
   "status": "proved",
   "theorems": [
    "C198_total",
    "C198_rotation",
    "C198_library",
    "C198_normalised",
    "C198_other_weights",
    "C198_halves",
    "C198_up_and_down",
    "C198_energy"
   ],
   "note": "FULL. Rotation invariance: the derivative of the integral with respect to the incidence angle is zero (integration by parts on the sphere). Energy statement for surface and volume contribution with the exact functions; for the interaction contribution see C197."
  },
  {
   "property": "C199",
   "status": "proved",
   "theorems": [
    "C199_history",
    "C199_session",
    "C199_exchanged",
    "C199_in_order",
    "C199_performfit",
    "C199_without_interaction",
    "C199_surface_volume",
    "C199_exact"
   ],
   "note": "FULL. Order of the names: see also the finding of C163; here it is stated for the resulting contributions, for every model with two parameters that is not symmetric."
  },
  {
   "property": "C200",
   "status": "proved",
   "theorems": [
    "C200_surface",
    "C200_volume",
    "C200_total",
    "C200_simple"
   ],
   "note": "FULL: error bounds in IEEE double precision (Flocq); intermediate results normal; np.exp/np.cos accuracies are hypotheses, the BRDF and phase function enter with their accuracy"
  },
  {
   "property": "C201",
   "status": "partial",
   "theorems": [
    "C201_cancellation_refuted",
    "C201_not_thin"
   ],
   "note": "REFUTED: volume() computes 1 - np.exp(-x); for optical depths with tau/cos <= 2^-56 the result is exactly 0 with a correctly rounded np.exp although the exact contribution is positive (np.expm1 would keep the accuracy). Proved: the relative error is below 2^-26 for optical paths from 2^-20 to 100, general bound in C200_volume."
  },
  {
   "property": "C202",
   "status": "proved",
   "theorems": [
    "C202_signs",
    "C202_monotone",
    "C202_bare"
   ],
   "note": "FULL: for all doubles, subnormal numbers included"
  },
  {
   "property": "C203",
   "status": "partial",
   "theorems": [
    "C203_accepts",
    "C203_bad_call",
    "C203_values",
    "C203_unknown_refuted",
    "C203_documented_refuted",
    "C203_lobe_refuted"
   ],
   "note": "REFUTED: every name that is not used is ignored without a message because of **kwargs (a misspelled NormBRDF or omega keeps its default); for Rayleigh the documented a and ncoefs are such names; CosineLobe(ncoefs=0.5) is accepted and has 0 coefficients. Proved: exact condition of success, TypeError otherwise for calls that cannot be bound, all attributes."
  },
  {
   "property": "C204",
   "status": "partial",
   "theorems": [
    "C204_stable",
    "C204_default",
    "C204_own_list",
    "C204_local",
    "C204_shared_refuted",
    "C204_broken_refuted"
   ],
   "note": "REFUTED: a=[..] is a mutable default argument: all objects of a class made without a share one list, changing the one in place changes all others and all later ones; appending makes later calls fail. Proved: without changes in place all lists are kept and defaults are the documented ones; a change in place concerns exactly the objects with the same list; Isotropic and Rayleigh always have a list of their own."
  },
  {
   "property": "C205",
   "status": "partial",
   "theorems": [
    "C205_recreated",
    "C205_lost_refuted"
   ],
   "note": "REFUTED: Isotropic and Rayleigh neither show nor store a, an assigned list is lost. Proved: same attributes otherwise (for CosineLobe if ncoefs is at least 1)."
  },
  {
   "property": "C206",
   "status": "partial",
   "theorems": [
    "C206_current",
    "C206_numeric",
    "C206_expansion",
    "C206_past",
    "C206_stale_refuted",
    "C206_others_refuted",
    "C206_classes"
   ],
   "note": "REFUTED: _func, legcoefs and _lambda_func are cached per object and never cleared: after the first use, assignments of t, i or a have no effect on values (CosineLobe, surface HenyeyGreenstein, HGRayleigh), derivatives and coefficients - unless 128 other objects of the class were used in between. Proved: everything is current if t, i, a are not assigned after the first use; the value of classes with _func_numeric, and a and ncoefs of the expansion are always current; what is used always was current at some time before."
  },
  {
   "property": "C207",
   "status": "partial",
   "theorems": [
    "C207_consistent",
    "C207_mixed_refuted",
    "C207_slope_refuted"
   ],
   "note": "REFUTED: evaluating brdf(), assigning t and expanding gives the old function with coefficients of the new t; for classes with _func_numeric the new function with old coefficients and old derivatives. Proved: consistent if t, i, a are not assigned after the first use."
  },
  {
   "property": "C208",
   "status": "partial",
   "theorems": [
    "C208_own_file",
    "C208_loaded",
    "C208_no_dump",
    "C208_lost_refuted",
    "C208_outside_refuted",
    "C208_replaced_refuted"
   ],
   "note": "REFUTED: an ID with a slash whose folder does not exist is fitted but neither dumped nor stored (with dump_fit only); an absolute ID is written outside of the folder; IDs with the same text replace each other's file. Proved for distinct IDs without slashes, with loading; results without dump_fit for all IDs."
  },
  {
   "property": "C209",
   "status": "partial",
   "theorems": [
    "C209_taken",
    "C209_index_refuted",
    "C209_missing"
   ],
   "note": "REFUTED: the stored results get the name of the feature as index instead of the number assigned to it, the reader_arg of the earlier run, and hdf_export_kwargs are ignored. Proved: the exact row, that no file changes, and that a missing file means skipping."
  },
  {
   "property": "C210",
   "status": "partial",
   "theorems": [
    "C210_accepts",
    "C210_specs",
    "C210_paths",
    "C210_functions",
    "C210_hidden_refuted"
   ],
   "note": "REFUTED: a process-spec with the name of a function of the class hides it (TypeError when it is called). Proved: when creation succeeds, all specs, the paths, and functions whose names are no specs."
  },
  {
   "property": "C211",
   "status": "partial",
   "theorems": [
    "C211_accepted",
    "C211_errors",
    "C211_numbers",
    "C211_arrays_refuted",
    "C211_unchecked_refuted"
   ],
   "note": "REFUTED: np.any instead of np.all: one non-negative element is enough, negative elements and nan are accepted next to it; any four characters are accepted as geometry (a misspelled \"mono\" is a bistatic geometry), bsf is not checked. Proved: exactly which arguments are accepted and which errors are raised; for numbers this is what is meant."
  },
  {
   "property": "C212",
   "status": "proved",
   "theorems": [
    "C212_accepted",
    "C212_shape",
    "C212_elements",
    "C212_index",
    "C212_angle"
   ],
   "note": "FULL. Discharges the restriction to one element in the other models of RT1 for these contributions (C01-C13)."
  },
  {
   "property": "C213",
   "status": "partial",
   "theorems": [
    "C213_elements",
    "C213_incompatible",
    "C213_axes_refuted",
    "C213_constant_refuted"
   ],
   "note": "REFUTED: if tau or a parameter has more axes than the zenith angle, the axis of the coefficients is aligned with another axis (ValueError, although surface() and volume() can be evaluated); if all coefficients are constants (sympy backend, e.g. HenyeyGreenstein(t=0) over an isotropic surface) a single angle gives as many values as there are coefficients. Proved for all shapes where no array has more axes than the zenith angle and a coefficient depends on an angle or parameter."
  },
  {
   "property": "C214",
   "status": "partial",
   "theorems": [
    "C214_elements",
    "C214_shape",
    "C214_one_element_refuted",
    "C214_exactly"
   ],
   "note": "REFUTED: with tau = 0 given as number the volume contribution has a single element, whatever the angles are. Proved: elements for all cases, shapes for positive tau and arrays. C214_exactly: total and surface always have all elements; the volume exactly if tau is an array or positive, or there is one angle."
  },
  {
   "property": "C215",
   "status": "proved",
   "theorems": [
    "C215_azimuth",
    "C215_accepted",
    "C215_shape",
    "C215_elements",
    "C215_one_azimuth"
   ],
   "note": "FULL. Discharges the restriction to one element in the other models of RT1 for slopes and curvatures (C01-C03). Side condition of the element theorem: the index is an index of the azimuth array as well (always the case for a single azimuth, C215_one_azimuth)."
  },
  {
   "property": "C216",
   "status": "proved",
   "theorems": [
    "C216_elements",
    "C216_shape",
    "C216_accepted"
   ],
   "note": "FULL. Whether an entry is the derivative of the total contribution is C04-C09. The entries of omega, NormBRDF and bsf do not have the shape of these parameters unless another array has it."
  },
  {
   "property": "C217",
   "status": "proved",
   "theorems": [
    "C217_elements",
    "C217_incompatible",
    "C217_coefficients"
   ],
   "note": "FULL with the side conditions of the statement. Together with C74 each element is the first-order interaction integral. The compiled coefficients of each element are those of Int_Model (hypothesis `coefficients`, met for all bounded scattering functions with three or more coefficients in total: C217_coefficients)."
  },
  {
   "property": "C218",
   "status": "partial",
   "theorems": [
    "C218_load",
    "C218_add",
    "C218_add_refuted",
    "C218_unpickle_refuted",
    "C218_empty_refuted",
    "C218_no_name_refuted"
   ],
   "note": "REFUTED: configurations added to an object that was loaded from an old dump are listed in config_names but not found (C218_add_refuted: the container belongs to another MultiFits object); unpickling an old dump without load() gives fits without dataset and aux_data (C218_unpickle_refuted); a dump without configurations cannot be loaded (C218_empty_refuted); fits without config_name are an AttributeError although __setstate__ wants to add the name (C218_no_name_refuted). Proved for all dumps of objects with at least one configuration: C218_load; C218_add for current dumps."
  },
  {
   "property": "C219",
   "status": "partial",
   "theorems": [
    "C219_attributes",
    "C219_functions",
    "C219_loaded_refuted",
    "C219_results_refuted"
   ],
   "note": "REFUTED: in a process that has only loaded current dumps no property or attribute can be read (C219_loaded_refuted); res_dict, fit_output, aux_data, reader_arg and config_name never (C219_results_refuted). Proved: properties and the attributes of a new Fits object once a MultiFits object has been created (C219_attributes), functions always (C219_functions)."
  },
  {
   "property": "C220",
   "status": "partial",
   "theorems": [
    "C220_list_refuted",
    "C220_array",
    "C220_array_all_refuted",
    "C220_last",
    "C220_negative"
   ],
   "note": "REFUTED: lists of IDs are a TypeError, arrays of several IDs a ValueError (C220_list_refuted); an array with one ID gives its rows (C220_array) but all rows if the number of the ID is not less than the number of IDs (C220_array_all_refuted). Proved: negative start (C220_last), negative numbers (C220_negative); natural numbers are C64."
  },
  {
   "property": "C221",
   "status": "proved",
   "theorems": [
    "C221_session",
    "C221_last"
   ],
   "note": "FULL, for one thread."
  },
  {
   "property": "C222",
   "status": "proved",
   "theorems": [
    "C222_cleared",
    "C222_kept",
    "C222_once",
    "C222_again",
    "C222_many"
   ],
   "note": "FULL; entries are keys, nested reads of cached properties are separate operations before."
  },
  {
   "property": "C223",
   "status": "proved",
   "theorems": [
    "C223_lines",
    "C223_incidence",
    "C223_parameters",
    "C223_legend",
    "C223_outcome"
   ],
   "note": "FULL, for a given table (its rows: C166, its units: C25); styles, ticks and order of the points of a scatter plot are not modelled."
  },
  {
   "property": "C224",
   "status": "partial",
   "theorems": [
    "C224_iterations",
    "C224_values",
    "C224_bins",
    "C224_points",
    "C224_image_iterations",
    "C224_image_groups",
    "C224_image_bins",
    "C224_image_bins_refuted",
    "C224_outcome",
    "C224_few_refuted"
   ],
   "note": "REFUTED for the 2D image and for short fits: the image covers only the range from the first to the last bin that holds a value, but has a row for every bin (C224_image_bins_refuted; C224_image_bins: right if and only if all bins have the same width and the outer ones are not empty), with a negative step the iterations are reversed (C224_image_iterations, if and only if); the default slice(2, None) raises after at most two evaluations (C224_few_refuted; C224_outcome is exact). Proved: C224_iterations, C224_values, C224_bins, C224_points, C224_image_groups. When a residual is at the position of its observation is C167."
  },
  {
   "property": "C225",
   "status": "partial",
   "theorems": [
    "C225_R",
    "C225_SRF",
    "C225_SRF_refuted",
    "C225_missing",
    "C225_none",
    "C225_column",
    "C225_array_refuted",
    "C225_plot",
    "C225_plot_column_refuted"
   ],
   "note": "REFUTED: SRF.hemreflect() with a symbolic NormBRDF is a TypeError whatever parameters are given, since rtplots.py:337 uses NormBRDF[0] (C225_SRF_refuted); a plain array with as many values as angles is combined with the angles, with any other number it is a ValueError (C225_array_refuted); for a column of values the axis is scaled to the last line only (C225_plot_column_refuted: all lines are within it if and only if no value exceeds 1.1 times the last one). Proved: C225_R (value of NormBRDF with R=), C225_SRF (numbers), C225_missing, C225_none, C225_column, C225_plot. The integrals are those of C111; arrays of symbols are not modelled."
  },
  {
   "property": "C226",
   "status": "partial",
   "theorems": [
    "C226_exactly",
    "C226_prints",
    "C226_ends",
    "C226_last_lines",
    "C226_clean",
    "C226_ended",
    "C226_race_refuted"
   ],
   "note": "REFUTED: run_starmap discards the thread and stop() shuts down the manager without waiting for it, so that a tick after manager.shutdown() accesses a dead proxy and the thread ends with an exception (C226_race_refuted: after every ordinary history). Proved for all interleavings: C226_prints (a line per tick while the processing goes on), C226_ends (it always ends), C226_last_lines (at most two more lines), C226_clean and C226_ended (no exception as long as the manager runs). Time (0.25 s per tick) and exceptions inside of the text of the line (C169) are not modelled. C226_exactly: it ends with an exception if and only if it does a step after the shutdown while it is neither ended nor cancelled and waiting."
  },
  {
   "property": "C227",
   "status": "proved",
   "theorems": [
    "C227_overview",
    "C227_no_folder"
   ],
   "note": "FULL: C227_overview for every listing; the folder does not change during the call; xarray.open_dataset is a parameter"
  }
 ]
}