# Formal model of rt1 in Rocq/Coq

## Trusted base

* Coq 8.16.1 kernel (`coqc`, optionally re-checked with `coqchk`).
* For every property theorem, the output of `Print Assumptions` printed at build time directly
  beneath the theorem (in the `*_Props.v` files).  The only axioms that appear are those of the
  Coq standard library:
  `ClassicalDedekindReals.sig_forall_dec`, `ClassicalDedekindReals.sig_not_dec`,
  `FunctionalExtensionality.functional_extensionality_dep` (the axioms of `Coq.Reals`), and, where Coquelicot
  lemmas need it, `Classical_Prop.classic` (also from the standard library).
  No axiom, parameter or section-less variable is declared by this development.
* Fidelity of the hand-written model to `/repo` (each definition cites file and lines).

## Modelling conventions

* Python floats are modelled as exact real numbers (`R`): all statements about the radiative
  transfer code are about exact arithmetic; rounding, overflow and NaN are not modelled except where a
  branch of the code tests for them, and in Flt (C200-C202), which is about binary64 arithmetic.
* numpy broadcasting: elementwise formulas are modelled for one element (scalar), and C212-C216 prove that
  arrays of any shape are evaluated element by element with these formulas; functions whose
  meaning depends on list/array structure (rectangularize, grouping, masks, sparse matrices, ...) are
  modelled on lists.
* sympy expressions are modelled by their denotation (real functions); symbolic substitution passes
  (`xreplace` of powers) are modelled on an explicit syntax of expanded sums of monomials.
* Python exceptions are values: `Ok x | Err e` with the exception class as constructor.
* dicts are modelled as association lists in insertion order (Python >= 3.7).
* numpy/pandas/scipy/sympy/pytables and the operating system are not verified; when the code
  depends on their result it appears as an explicit argument or is modelled by its documented semantics
  (e.g. `np.unique`, stable `groupby`, `HDFStore.append`), stated in the comment of the definition.

## Files (rocq/theories)

`X_Model.v` definitions mirroring the code, `X_Spec.v` independent specifications (when not inlined),
`X_Proofs.v` lemmas, `X_Props.v` only the property theorems, each with an example and `Print Assumptions`.

| topic | files | repo code | properties |
|---|---|---|---|
| Base | Base | python results, dicts | - |
| GF | GF_* | general_functions.py | C25-C34 |
| RT | RT_* | rt1.py surface/volume/slopes/curvatures/jacobian/calc/geometry/caches | C01-C13 |
| Int | Int_*, Int2_*, Int3_*, Ei_*, Ei2_*, Ei3_* | rt1.py interaction term, azimuth integration, coefficient extraction | C14, C21-C23, C74-C78 |
| Sca | Sca_*, Sca2_*, Sca3_*, Leg_* | scatter.py, volume.py, surface.py | C15-C20, C24, C69-C73 |
| Con | Con_*, Con2_Props | _containers.py | C35-C38, C79-C81, C106 |
| Str | Str_* | python string methods used by rtparse.py | - |
| Cfg | Cfg_*, Cfg2_* | rtparse.py | C39-C43, C82-C85, C104, C105 |
| Met | Met_*, Met2_*, Met3_Proofs | rtmetrics.py | C44-C47, C86-C89 |
| Pip | Pip_*, Pip2-4_Proofs, Perm_Tac | _rtprocess_writer.py | C48-C52, C90 |
| Ids | Ids_* | _rtprocess_writer.py, processing_config.py, rtprocess.py `_evalfunc` | C53, C54, C91-C93 |
| Fit | Fit_*, Fit2_* | rtfits.py | C55-C60, C94, C95 |
| Ses | Ses_* | rtfits.py (caches, sessions) | C61, C97 |
| Mf  | Mf_*  | rtfits.py (MultiFits), rtresults.py (stored results) | C62, C63, C98 |
| Pag | Pag_* | rtresults.py (paged reading of HDF tables) | C64, C99 |
| Prc | Prc_* | rtprocess.py (override_config, confirmation, setup) | C65, C66, C100 |
| Evf | Evf_* | rtprocess.py (_evalfunc), rtfits.py (reinit_object, MultiFits setters, export dict) | C67, C101-C103 |
| Exp | Exp_* | rtprocess.py (_defdict_parser, export_data_to_HDF, _HDF_export_postprocess, _postprocess_getparams) | C68, C107-C110 |
| Hem | Hem_*, Hem2_Proofs | rtplots.py (hemreflect), surface.py 29 | C111, C112 |
| Jac | Jac_*, Jac2_Proofs | rtfits.py (_calc_jac 1846-1941, _get_V_SRF_diff_funcs) | C96 |
| Ini | Ini_* | rtfits.py (_init_V_SRF, _get_V_SRF_dict), volume.py/surface.py init_dict, rtresults.py (_load_fit: literal_eval) | C113-C115 |
| Res | Res_*, Res2_Proofs | rtfits.py (performfit fun, _calc_model, calc_model, res_df, res_df_group, meandatetimes, _meandt_interp_assigns) | C116-C120 |
| Dmp | Dmp_* | rtfits.py (load, dump, __getstate__, __setstate__, __update__, MultiFits.dump, MultiFits.__setstate__) | C121, C122 |
| RTE | RTE_Spec, RTE_Proofs, RTE2_Proofs, RTE3_Proofs, RTE_Props | no new model: RT_Model.calc_scalar, Int_Model.calc_Fint against the equations of doc/theory.rst | C123 |
| Rdr | Rdr_* | rtresults.py (RTresults, _RT1_fitresult.load_fit/dump_files/dump_fits, HDFaccessor.__init__ and _load_fit by number/name), rtprocess.py (_get_files, _finalout_reader), _rtprocess_writer.py (create_index, get_data) | C124-C129 |
| Run | Run_* | rtprocess.py (RTprocess.__init__ init_kwargs, run_processing, run_finaloutput, _worker_configurer, _initializer, _processfunc up to the pool); setup and override_config of Prc | C130-C136 |
| Shp | Shp_* | volume.py and surface.py (`_func` of all shipped functions and linear combinations with numbers or symbols as parameters) plugged into RT_Model | C137-C140 |
| Cvg | Cvg_* | Legendre expansions (`legcoefs`, `ncoefs`) of all shipped functions and combinations in the interaction term of Int_Model | C141-C143, C70 |
| Par | Par_Model, Par_Spec, Par_Proofs, Par2_Proofs, Par_Props | routing of parameter values in rtfits: `_setdict`, `fixed_dict`, `_param_R_dict`, `_get_excludesymbs`, `_set_calc_values`, `calc`, aliasing of `res_dict` | C144-C147 |
| Pol | Pol_Model, Pol_Spec, Pol_Proofs, Pol_Props | `rtplots.polarplot`: lines, radial range, ticks, how the call ends | C148, C149 |
| Log | Log_Model, Log_Spec, Log_Proofs, Log2_Proofs, Log_Props | `rt1/__init__.py`: handlers of the logger, log-files, console, layout of messages | C150-C152 |
| Imp | Imp_Model, Imp_Spec, Imp_Proofs, Imp_Props | `rtparse.py` get_module, get_all_modules; `rtprocess.py` _copy_cfg_and_modules: modules of a config-file | C153, C154 |
| Slc | Slc_Model, Slc_Props | `rtfits.py` _calc_slope_curv (2003-2138): slopes and curvatures of a fit | C155 |
| Lru | Lru_Model, Lru_Spec, Lru_Proofs, Lru_Props | `rtfits.py` V, _omega_func, _tau_func, set_model with functools.lru_cache(maxsize=n) and evictions | C156 |
| Ldr | Ldr_Model, Ldr_Spec, Ldr_Props | `rtresults.py` _get_results, load_hdf, load_nc, load_cfg (212-300, 386-416); fit_db, rescan, _load_fit_from_HDF (175-207, 302-307) | C157, C158 |
| Cfo | Cfo_Model, Cfo_Spec, Cfo_Props | `rtparse.py` get_fitobject (434-478), `rtfits.py` Fits.__init__ (280-323) | C159 |
| Mfs | Mfs_Model, Mfs_Props | `rtfits.py` MultiFits: ID, set_dataset, set_aux_data, set_reader_arg, set_ID, add_config (3236-3300, 3345-3373) | C160 |
| Tab | Tab_Model, Tab_Spec, Tab_Props | `rtmetrics.py` _flatten_dictionary, metrics_table, _metrics_table_dict_entry, scatterplot (484-687) | C161 |
| Hds | Hds_Model, Hds_Spec, Hds_Props | `rtfits.py` _get_fit_to_hdf_dict (2951-2983), `_rtprocess_writer.py` (432-440), `rtresults.py` _load_fit: dataset of a stored fit | C162 |
| Pos | Pos_Model, Pos_Spec, Pos_Props | `rt1.py` arguments of the interaction functions (315-384, 1242-1324), `rtfits.py` _param_R_dict, _set_calc_values, calc | C163 |
| Fnl | Fnl_Model, Fnl_Spec, Fnl_Props | `rt1.py` __getstate__, fn, _fnevals (202-384), calc (680-720) | C164 |
| Sld | Sld_Model, Sld_Spec, Sld_Props | `rtplots.py` printsig0analysis: slider, animate (1780-2334) | C165 |
| Aln | Aln_Model, Aln_Spec, Aln_Proofs, Aln_Props | `rtplots.py` scatter, fit_timeseries, intermediate_residuals, printsig0analysis: combination of observations (452-625, 1562-1735, 2965-3060); `rtfits.py` index, calc_model | C166-C168 |
| Prg | Prg_Model, Prg_Spec, Prg_Props | `_rtprocess_writer.py` print_progress (156-202); `general_functions.py` update_progress (237-261) | C169 |
| Sig | Sig_Model, Sig_Props | `_rtprocess_writer.py` signals, manual_shutdown, writer_pool, stop (119-142, 533-546, 643-666) | C170 |
| Rsl | Rsl_Model, Rsl_Props | `rtplots.py` results, fit_errors, single_results: labels and dates (748-1220) | C171 |
| Anm | Anm_Model, Anm_Spec, Anm_Props | `rtplots.py` analyzemodel (2336-2858) | C172, C173 |
| Imr | Imr_Model, Imr_Props | `rtfits.py` performfit, _calc_jac: intermediate results (2291-2354, 1947-1948); `rtplots.py` intermediate_results (1246-1402) | C174 |
| Mdf | Mdf_Model, Mdf_Props | `rtfits.py` _model_definition (2545-2713) | C175 |
| Acc | Acc_Model, Acc_Spec, Acc_Props | `rtfits.py` _MultiAccessors (3053-3123) | C176 |
| E2e | E2e_Model, E2e_Spec, Pip5_Proofs, E2e_Proofs, E2e_Props | `_rtprocess_writer.py` run_starmap (556-641) as composition of Ids, Pip, Pag; `rtresults.py` HDFaccessor (487-520, 769-793) | C177, C178 |
| Mky | Mky_Model, Mky_Spec, Mky_Props | `rtmetrics.py` _metric_keys (17-87), _RTmetrics1 (136-201); `rtfits.py` metric (3029-3050), __setattr__ (404-413), _clear_cache (486-498), performfit (2278, 2383-2387), set_dataset (3281-3286) | C179 |
| Itp | Itp_Model, Itp_Spec, Itp_Props | `general_functions.py` interpolate_to_index (302-350); scipy interp1d by its documentation (sorted nodes, straight lines, missing outside) | C180 |
| Lof | Lof_Model, Lof_Spec, Lof_Proofs, Lof_Props | `rtfits.py` _get_fit_to_hdf_dict (2877-3027), `rtresults.py` _load_fit (587-681), composed with E2e, Pag, Mf, Ids: from the fit in a worker process over the container to the loaded fit | C181 |
| Wnm | Wnm_Model, Wnm_Spec, Wnm_Props | `rtprocess.py` _initializer (555-582): the shared counter of the worker processes | C182 |
| Sel | Sel_Model, Sel_Spec, Sel_Props | `rtresults.py` _subselector.select (919-931), life of the accessor behind a selector (weak references 900-917, __del__ 546-548, close 566-568) | C183, C184 |
| Dlc | Dlc_Model, Dlc_Spec, Dlc_Props | `rt1.py` _d_surface_dummy_lambda, _d_volume_dummy_lambda (1539-1628), jacobian (1699-1709), _clear_cache (235-239) with the caches as lru_cache keeps them | C185 |
| Edge | Edge_Props | further theorems about inputs that are rejected, for models of other rows (GF, Con, Cfg, Evf); found missing by the automatic survey of edits | C26, C30, C43, C81, C103, C106 |
| Rmd | Rmd_Model, Rmd_Spec, Rmd_Props | `rtprocess.py` _remove_dumpfolder (245-260: the loop with the index of python's list iterator), _make_folderstructure (64-76) | C186 |
| Fol | Fol_Model, Fol_Spec, Fol_Props | `rtprocess.py` export_data_to_HDF (1489-1556: choice of the folder), run_finaloutput (1061-1132), _get_files, the folder part of setup and override_config; RTresults of Rdr | C187 |
| Dns | Dns_Spec, Dns_Props | the definitions of RT_Model (calc, surface, volume, interaction) and Int_Model (interaction) as functions of the optical depth | C188 |
| Nfr | Nfr_Spec, Nfr_Props | residual_fun of Res_Model with surface + volume of RT_Model as the model | C189 |
| Rtv | Rtv_Spec, Rtv_Props | residual_fun of Res_Model with surface + volume of RT_Model as the model | C190 |
| Ppr | Ppr_Model, Ppr_Spec, Ppr_Props | rtprocess `_run_finalout`, `_finalout_reader`, `_run_postprocess`; rtfits `MultiFits.apply` | C191 |
| Idf | Idf_Spec, Idf_Props | (theorems about the models of Res, Fit and RT) rtfits `performfit`, `_calc_model`; rt1 `calc`, `surface`, `volume` | C192 |
| Evp | Evp_Model, Evp_Spec, Evp_Props | scatter `_eval_legpoly` with `legexpansion` of surface and volume, numbers as angles | C193 |
| Nse | Nse_Spec, Nse_Props | errors of the data and of the fitted parameters (model of Res, RT) | C194 |
| Lis | Lis_Model, Lis_Spec, Lis_Props | rtprocess `_listener_process` with the queue and the senders of a run | C195 |
| Nrg | Nrg_Spec, Nrg_Proofs, Nrg2_Proofs, Nrg3_Proofs, Nrg_Props | energy balance of the scene (models of RT and Int) | C196, C197 |
| Rot | Rot_Spec, Rot_Proofs, Rot2_Proofs, Rot_Props | integrals of the phase functions over all directions (models of Sca and Shp) | C198 |
| Ord | Ord_Model, Ord_Spec, Ord_Proofs, Ord_Props | rt1 _get_fnevals, _set_fnevals, calc, _calc_Fint_1/2 (arguments), rtfits _param_R_dict, R, _set_calc_values, calc, shared _fnevals | C199 |
| Flt | Flt_Model, Flt_Spec, Flt_Proofs, Flt2_Proofs, Flt_Props | rt1 surface, volume, calc (sum) in double precision: every operation rounded in the order of the source | C200-C202 |
| Kwd | Kwd_Model, Kwd_Spec, Kwd_Proofs, Kwd2_Proofs, Kwd_Props | constructors of all analytic scattering functions with binding of arguments, default lists on a heap, __repr__/init_dict | C203-C205 |
| Cch | Cch_Model, Cch_Spec, Cch_Proofs, Cch2_Proofs, Cch_Props | cached _func, legcoefs, _lambda_func of the scattering functions with functools.lru_cache, assignments of attributes | C206, C207 |
| Dmf | Dmf_Model, Dmf_Spec, Dmf_Props | dump-files of a processing run (_evalfunc with dump_fit, exceptfunc, Fits.dump), rt1_processing_config.__init__ | C208-C210 |
| Rin | Rin_Model, Rin_Spec, Rin_Props | constructor of RT1 (124-200) | C211 |
| Arr | Arr_Model, Arr_Spec, Arr_Proofs, Arr_Props | numpy broadcasting in surface, volume, calc and the interaction factors | C212-C214 |
| Ars | Ars_Model, Ars_Spec, Ars_Props | numpy broadcasting in slopes, curvatures and the jacobian | C215, C216 |
| Ari | Ari_Model, Ari_Spec, Ari_Props | numpy broadcasting in interaction() | C217 |
| Mfo | Mfo_Model, Mfo_Spec, Mfo_Proofs, Mfo_Props | `rtfits.py` load (51-78), _FitContainer (3126-3163), MultiFits.__setstate__, ID, set_dataset, set_aux_data, set_reader_arg, set_ID, add_config | C218 |
| Acs | Acs_Model, Acs_Props | `rtfits.py` _MultiAccessors (3053-3123) | C219 |
| Nid | Nid_Model, Nid_Props | `rtresults.py` _get_nids_iter with lists, arrays and negative numbers (795-861), _get_vals_with_IDs (711-727) | C220 |
| Sid | Sid_Model, Sid_Props | `rtresults.py` set_ID, _numeric_ID (570-578), _load_fit (587) | C221 |
| Clr | Clr_Model, Clr_Spec, Clr_Proofs, Clr_Props | `rtfits.py` __setattr__, _cached_props, _clear_cache, _cached_arg_number, set_model (406-552), _assignvals_log_message and the control flow of _assignvals (1499-1596) | C222 |
| Fts | Fts_Model, Fts_Spec, Fts_Proofs, Fts_Props | `rtplots.py` fit_timeseries (541-747), `rtfits.py` calc_model (2518-2543) | C223 |
| Exa | Exa_Spec, Exa_Props, Exa2_Spec, Exa2_Props, Exa3_Props, Exa4_Props, Exa5_Props, Exa6_Props, Exa7_Props, Exa8_Props, Exa9_Props, Exa10_Spec, Exa10_Proofs, Exa10_Props, Exa11_Props, Exa12_Props, Exa13_Spec, Exa13_Proofs, Exa13_Props, Exa14_Props, Exa15_Spec, Exa15_Props, Exa16_Props, Exa17_Spec, Exa17_Props, Exa18_Props, Exa19_Props | exact outcomes over the models of RT, Sca, Int, Met, Ids, Res, Rdr, Rmd, Mf, Thr, Ldr, Arr, Dlc, Pip, Par, Con, Run, Anm, Pos, Aln, Sel and Fit | C07, C13, C36, C47, C51, C59, C62, C69, C70, C72, C73, C75, C79, C86, C91, C93, C94, C98, C118, C120, C126, C129, C136, C147, C158, C163, C168, C173, C183, C185, C186, C214, C226 |
| Ibn | Ibn_Model, Ibn_Spec, Ibn_Proofs, Ibn_Props | `rtplots.py` intermediate_residuals (2860-3195) | C224 |
| Hmn | Hmn_Model, Hmn_Spec, Hmn_Props | `rtplots.py` hemreflect (265-406): NormBRDF, array and plot | C225 |
| Thr | Thr_Model, Thr_Spec, Thr_Proofs, Thr_Props | `_rtprocess_writer.py` RepeatTimer (30-59), print_progress (157-160), start_print_thread (548-554), stop (643-660) | C226 |
| Ncv | Ncv_Model, Ncv_Spec, Ncv_Props | `rtresults.py` NetCDF_variables (462-472), over the model Ldr of _get_results and load_nc | C227 |

## Plan per property

* C01-C02: scalar formulas of `surface`, `surface_slope`, `volume`, `volume_slope` as functions of the
  angle; BRDF/phase function are arbitrary real functions with a derivative hypothesis; Coquelicot
  `is_derive` by `auto_derive` + field.
* C03: model of the unit branches of the slope functions; spec = `is_derive` of an independently
  written unit conversion of the contribution (10*ln/ln 10, 4 pi cos).
* C04, C05: same for second derivatives (derivative of the slope function).
* C06, C08, C09: partial derivatives w.r.t. one parameter, the others fixed; model of `jacobian`
  including key dispatch and unit normalisation.
* C07: false of the code (`1/mu_ex ** (-1)`): refuted by a concrete geometry, plus exact
  characterisation of when the entry is right.
* C10, C11: algebra and monotonicity of exp.
* C12, C13: state machine over lists of setter/getter operations; C13 is false for the memoised
  powers (refuted), with a positive theorem for fresh objects and for the non-cached cosines.
* C14: scipy's expi/expn are oracles characterised by their defining integrals (`is_expi`: principal
  value, `is_expn`; existence proved, so the hypotheses are satisfiable).  The zeroth integral is evaluated
  with an antiderivative whose limit at 0 is computed; the others follow by the recurrence
  J_(n+1) = mu J_n - e^(-tau/mu)/(n+1) + E_(n+2)(tau).
* C74, C77, C78: composition of C14 and C22/C23 for arbitrary expansions; uniqueness and linearity of the
  integrals; linear combinations of surfaces and of volumes with any numbers of coefficients in Lin_Props.v.  C75 (NaN at nadir and at tau = 0) and C76 (fixed zenith angles) are false, refuted for
  all objects / for the Henyey-Greenstein function; positive parts proved.
* C15: trigonometric identities, Cauchy-Schwarz.
* C16: Legendre polynomials by the Bonnet recurrence (spec), finite sums.
* C17, C18: |P_n|<=1 on [-1,1], generating function by power series ODE; coefficient convergence.
* C19, C20: antiderivatives and `is_RInt`.
* C21: induction with integration by parts on `RInt (cos^n) 0 (2 pi)`.
* C22, C23: substitution passes on monomial lists; linearity of the integral.
* C24: lists of weighted components; grouping by equal weight vector; sums are permutation invariant.
* C69-C73: geometry-string resolution; Gamma recurrences and moment integrals for the cosine lobe; object state
  machines with memoised expressions (C69, C70, C72, C73 are false in part, refuted with witnesses).
* C25-C34: functions on lists / Z / R, induction.
* C35-C38, C79-C81: state machine for the defdict (operations with outcomes, arbitrary histories); round trip;
  order of the listing against the insertion times of the history; refutations for `_to_dict`, list assignment,
  omitted list entries, re-assignment of an existing attribute and misspelled keys.
* C39-C43, C82-C85: ini file = ordered map of ordered maps of strings; `float()`, `int()`, `strptime` and
  `Path.resolve` are arbitrary partial functions on strings (theorems hold for every such function; reading the
  ini file itself, i.e. configparser, is not modelled).  Overrides are compared with reading the override
  section in place of the base section; linear combinations with a letter-wise specification.  C43, C82, C83 and
  parts of C84, C85 are false: refuted for all files of the stated shape.
* C104, C105 (added after seeded bugs in `check_integrity`, `to_boolean` and the date lists survived): acceptance as
  an equivalence with a separate description of a complete file; `spells` describes upper/lower case letter by
  letter, `argument` the documented type of every keyword argument.  The `list_keys` branch of `_parse_dict` is
  modelled but unreachable (both property tables leave it empty), so no theorem speaks about it.
* C106 (added after a seeded bug in the order of `index_names` survived): assignment by position, stated on the
  documented property list.
* C44-C46, C86-C89: a series is a list of (label, optional value) rows; pandas
  alignment (outer join for arithmetic, inner join for corr, positional fast
  path for equal indexes), skipping of missing values, n - 1 standard deviation,
  scipy's rankdata and linregress are modelled from their documentation (trusted
  base).  All metrics are reduced to the list of common pairs; Cauchy-Schwarz
  and expansion of squares do the rest.  C47: lists of strings with source tags;
  the grouping is the `groupby_unsorted` model of C32.
  Findings: with missing values `bias` uses more values than `rmsd`; names ending
  in `__dataset` etc. are resolved wrongly; `_unify_idx_data` does not unify;
  `linregress` ignores labels.
* C48-C52, C90: labelled transition system with arbitrary numbers of workers, combiners, combine threads and
  writers.  Trusted: queues, events, locks and counters of `multiprocessing` are linearisable, one append to the
  HDF file is atomic, a timeout or a failed write may happen at any time; the order in which the pool hands out
  tasks is arbitrary.  Logging and the progress bar are not modelled.  Proofs by invariants over executions (row
  conservation for every execution; the shape invariant `Good` for undisturbed ones).  C90: from every reachable
  state of an undisturbed execution the processing can still be finished, with everything stored.  C50 is false
  (lstrip strips a set of characters), C51 is false (blocked workers after a failed write), C52 is false (the
  table of IDs is written before the other layers); positive variants: names not starting with one of
  c,o,n,s,t,_; all tasks started; table of IDs last.
* C96: the lambdified derivative is an expression tree evaluated with Python/numpy semantics on numbers, lists (values
  of a fitted parameter), arrays of one and two dimensions (broadcasting, `int * list` = repetition, `list + list` =
  concatenation).  Trusted: sympy's derivative and printer (the derivative is a hypothesis of the theorem), numpy's
  broadcasting, `R.jacobian` (C06-C09).  The general claim is false; a static classification `harmless` describes the
  derivatives for which it holds, for every shape of the data.
* C111, C112: the integration grid, scipy's `simps` (formula for arbitrary spacing; for an even number of samples
  the `even="avg"` rule, the default up to scipy 1.10; setup.py asks for scipy>=1.2) and numpy's `arange`, `linspace`
  are modelled from their documentation, over the reals.  The error of a quadrature rule on a grid of width d is bounded
  by the oscillation over d; uniform continuity on the (compact) hemisphere gives
  convergence of the iterated rule.  C112 is false: Simpson's rule overestimates the integral of sin(2x) for every odd
  number of samples.  Not modelled: plotting; replacing the symbols of NormBRDF (for `SRF=` lines 336-343 index the
  expression, the exception is swallowed and a symbolic NormBRDF is used as it is).
* C113-C115: `_init_V_SRF` and `init_dict` over expression trees; `sympify` and `str` of sympy are oracles (hypotheses:
  the names of parameters are read as symbols, a printed expression is read back), operators of numbers are exact.
  Python's `+` and `*` of strings and numbers are modelled, since the stored dictionary comes from calling the function
  with strings.  `literal_eval` works on the syntax tree of the text.  Induction on expressions and nested values; all
  three claims are false in general, with exact positive variants.  Not modelled: the list `a` of asymmetry factors
  (used as it is); the branch for arrays in `checkval`, which is never reached (`val in setdict` raises for an array);
  `lambda_backend` (not stored).
* C116-C120: the model values are a function of the parameters and the row of an observation (arbitrary), so the
  theorems hold for every scattering model.  Padded entries are followed through the mask; the residuals are a
  permutation of the dataset, over which the sum of squares is invariant.  C117, C118, C120 are false in general, with
  exact conditions.  Not modelled: `interp1d` between the nodes and the nodes added at both ends (C120 is about the
  assignment of the nodes); NaN among the values (pandas' `first` skips them).
* C121, C122: the attributes of an object are a dictionary; pickling is `__getstate__` followed by `__setstate__` (that
  pickle restores values is trusted).  Induction over the sequence of dumps with the invariant that the object has the
  shape the constructor gives it.  C122 is false from the second dump on.
* C123: the specification (RTE_Spec) is the differential equation along each direction with its boundary conditions;
  the layer is horizontally homogeneous, the surface reflects the beam and the singly scattered radiation once (second
  reflections neglected, as documented).  Uniqueness by integrating factors (a function with derivative zero inside and
  continuous up to the boundary is constant), existence by explicit solutions; the integral over the depth is exchanged
  with the integral over the directions by differentiating under the integral.  doc/theory.rst prints the wrong
  exponential in the interaction term (C123_printed_formula_differs); the code has the right one.
* C124-C129: a folder is the list of its entries in the order of os.scandir; paths are pathlib's (parts, absolute or not);
  which files can be loaded is an oracle (`dumps_of`: exactly the files of the folder).  The HDF container is the list of
  (number, name) rows plus an oracle for the stored fits.  Findings: `path.stem` cuts names at the last dot (C124, C127);
  results nested in a result are unreachable (C124); `return_ID` with HDF is an UnboundLocalError (C126); relative save
  paths are joined twice and every fit is skipped (C127); `_useres` is kept between calls (C127); `get_data(config=None)`
  looks for "None/key" (C128); `create_index("all")` calls len(1) (C129).  Not modelled: pandas' own behaviour for an
  index on a column that does not exist, attribute names of RTresults itself ("_paths").
* C130-C136: a session is a list of calls on one RTprocess object; the state is autocontinue, init_kwargs, the disc (that of
  Prc), and the part of `logging` that the runs change.  What the imports of setup, `_processfunc` and `_run_finalout` raise
  is an arbitrary argument of the call (`late`, `body`).  Not modelled: `finalizer` of the processing class, failures of
  multiprocessing itself, invalid config-files (setup returns).  Findings: `finally` uses unbound `queue` (C130);
  `queue, proc_counter = None` (C131); handlers of py.warnings pile up, the level stays (C132); finalout_name persists,
  overrides are dropped, autocontinue stays on after a failed setup (C133); pool_kwargs is nested in itself when reused
  (C134); init_kwargs of the constructor is unusable (C136).
* C53, C91: any finite history of runs as an inductive predicate over the container; each run stores an arbitrary
  part of its tasks.  Identifiers are ASCII.  C53's second half is false (the IDs "1" and "RT1_1" collide; a file
  without the table blocks every later run); C91 is false for custom `get_names_ids` and repeated arguments.
  C54, C92, C93: decision table for `exceptfunc` and `_evalfunc`; reader and fit are arbitrary.
  Further findings, not stated as properties: `exceptfunc` reloads dumps without the ID number;
  `zip(args_to_process, *starmap_args)` is misaligned for finite `starmap_args` after masking.
* C55-C60, C94, C95: a dataset is the list of its (integer) time stamps plus columns; group numbers are lists of
  integers, decimal strings are lists of characters.  Trusted from the documentation: numpy turns integer strings
  into int64 or (above 2^63) rounded doubles, pandas' Grouper puts a date in a numbered bin (arbitrary monotone
  function `bins`), csr_matrix adds duplicate entries, `np.put`/`np.take`/masked selection.  Parameter values are of
  an arbitrary type; the jacobian of the RT1 object is an arbitrary array.  Proofs: concatenated padded numbers are
  injective; stable grouping = flat map over distinct keys; jacobian by counting ranks.  C94/C95 use Coquelicot's
  is_derive.  C55, C57, C59, C60, C94, C95 are false in part (witnesses); the exact side conditions are proved.
  Not modelled: `least_squares` itself, the spline weights of interp1d (arbitrary linear weights in C95).
* C61, C97: a session is a list of operations on any number of fit objects; the lru_caches of the class are finite
  maps per object (trusted: `cache_clear` empties them for all objects; eviction from a full cache only recomputes
  and is not modelled, so the persistence found in C97 is for caches that are not full).  Definitions, datasets and
  the RT1 evaluation are arbitrary functions.  Invariant over the history: cached values agree with the attributes.
* C62, C98: attribute dictionary of the container; callbacks as records with mutable argument lists.
* C63: the stored frame is the list of rows of `pd.concat` of padded columns; loading = selection, dropna.  Trusted:
  pandas `concat`/`dropna`, the HDF table returns the rows appended in order.
* C64, C99: a stored table is a list of rows carrying the number of the ID; reading the rows of a list of IDs is a
  filter (trusted: pandas `HDFStore.select` with `IDs in [...]`, `concat`, `set_levels`).  Chunked reading, paging
  and renaming of the index are modelled as in the code; proved by induction over chunks with the invariant "chunks
  so far ++ remaining = all IDs".  C64 is false for the default chunk size (multi-index, page > 10, not a multiple).
* C65, C66, C100: configuration = dict of dicts of strings; file system = map from dumpfolder to (config-files,
  other files).  Trusted: configparser write/read round trip, no interpolation, `str.upper` on ASCII, shutil.rmtree
  and mkdir.  C65 and C100 are false (witness histories), the exact conditions are proved.
* C67, C101-C103: objects are attribute dictionaries with opaque values; what the reader does and the outcome of the
  fit (a function of definition, interaction functions, dataset) are arbitrary.  Invariant over the features of a
  chunk: the configurations keep their definition, and the functions of the interaction term that would be used stay
  the same (they are a function of the definition).  Trusted: one unpickled object per chunk of starmap_async;
  only frames can be stored as aux_data; `defdict.to_dict()` read back by `__init__` is the same definition (C35).
  Not modelled: dumps, exceptfunc's own return value.
* C68: the parser is a fold over the definition; each class is shown to be a filter of the names, the classes
  to be a partition (Permutation).
* C107-C110: the export of a list of files (each a list of named configurations) is a fold that threads the
  mutable set of requested names.  Columns, values, conversions, the pandas behaviour for sets as indexer and the
  metric functions are Section variables.  One process is modelled; with several the request is copied once per chunk,
  so that each chunk behaves like such a list.  Pre-evaluated coefficients and HDF storage are not part of it (Pip, Prc).
  C107 and C109 compare the tables with a relational description of where each name has its value (part_of), for
  all requests; refuted: constants, model contributions with current pandas, conversion options, functions that
  return a number.
* C137-C140: an RT1 object whose V and SRF are syntactically given shipped functions; `no differentiability/positivity
  hypothesis` is left: the kernels are shown to be (twice) differentiable in the angle and in every symbol by closure lemmas
  (sum, product, quotient, composition, `sqrt`, ramp), |scattering cosine| <= 1 from C15, positivity from the same
  bounds.  Sympy's differentiation stays the mathematical derivative.  The edge of a cosine lobe (power <= number of
  derivatives) is excluded exactly; C137_edge_needed shows that it has to be (power 1, default weights: 45 degrees).
  Observation outside the model: `sp.sign` of a complex symbol has no closed derivative in sympy, so slopes of a
  CosineLobe may not be evaluable numerically at all.
* C141-C143: the interaction term as a function of `ncoefs`. Cvg_Spec defines the error measures and the explicit HG
  tails without the model's helpers. The kernel of F_int is bounded (|K| <= mu_s/tau), so uniform closeness of the expansions
  gives closeness of the integrals; a uniform limit of the integrands gives existence of the exact integral. Legendre
  completeness (orthogonality by the differential/recurrence identities and Weierstrass-free maximum argument with peaked
  polynomials, Cvg2_Proofs) gives the series of the cosine lobes.  For combinations, `max_ncoefs` of the group is at least the
  element's own `ncoefs` and the tails are antitone.
* C144-C147: names as strings, values of an arbitrary type, definitions of omega/tau/NormBRDF as sets of symbols with a
  function of an environment that is only defined on those symbols. Par_Spec states where a value belongs (`right_values`)
  without the set operations of the code. `model_of` builds the sets of symbols from the dicts of Ini_Model. Dicts by
  reference are places in a list (C147). Not modelled: shapes of arrays, `lru_cache` on `_get_excludesymbs` (C97),
  alignment of frames in `calc`, interpolation in `_assignvals` (Fit).  Findings: reserved names and symbols of components
  pass the check at set-up and fail at evaluation (C145); constants that are frames are documented but never used (C146);
  `calc_model(assign=False)` writes into `res_dict` (C147).
* C148, C149: what is drawn as a value (list of lines and radial range) next to how the call ends. Values and expansions are
  those of Shp_Model/Cvg_Model (textbook values by C137/C138, convergence by the lemmas of Cvg). Not modelled: colours,
  labels, legend, arrows, partially drawn plots of failing calls. Findings: combinations of phase functions with aprox=True,
  user-supplied axes, label of the tick at 125 degrees.
* C150-C152: Python's logging module as a state (levels and handlers of the root logger and of "rt1", everything written so
  far); an induction over the history of calls relates the handlers to the last call about each name. Texts are lists of
  characters and colour-codes; `indent`, `splitlines`, `strip` are written out. Simplified: only "\n" ends a line, ASCII
  white space, no other loggers, an OSError is written RuntimeError. Findings: root handlers at import, failing start,
  name of the console, levels without a colour, long process names.
* C153, C154: the disc as a map from (folder, name) to contents, sys.modules as a map from names to modules; executing a file
  is an oracle (what it raises). Not modelled: the copy of the config-file itself (Run), relative paths, symbolic links,
  byte-code caches, modules that import each other. Findings: equal file names with copy=True, documented `copy` entry
  without effect, replaced and broken entries of sys.modules.
* C155: one observation; the numbers assigned to V, SRF, bsf and param_dict as in Par, slopes and curvatures as in RT. The
  derivative is taken with the same parameter values. Finding: with int_Q=True the slope lacks the interaction contribution.
  Not modelled: parameters that change from one observation to the next (each observation is handled by its own values).
* C156: lists of entries, most recently used first, cut to n entries on a miss (n arbitrary, 128 in the code); V with omega and tau
  only, symbols and functions one entry, SRF/NormBRDF not modelled (they are cached alike). Invariants: nothing evicted with at most n
  objects; entries of V and of the functions evicted together if all evaluations succeed. Findings: accesses of V and failed
  evaluations break the second one, values of omega/tau are then frozen.
* C157, C158: a folder is a list of names (files or directories), pathlib's stem as in Rdr; the contents of fit_db.h5 and the fit
  read from it are oracles, a handler is (contents when opened, is it open), the cache of fit_db one entry per result and cleared for
  all by _reset_fit_db_cache. Findings: KeyError for a wrong name if there is one file, stale contents without re-scan.
* C159: get_config and config_names as in Cfg, MultiFits as in Mf; the traversal of a set is an arbitrary function that returns a
  permutation; Fits objects are records of the attributes set by the constructor. Findings: order of a set, swallowed keywords.
* C160: MultiFits and Fits objects are numbers, attributes dicts; the sorting of a dataset is an idempotent function. Findings:
  reader_arg and ID are not handed over to configurations added later, fit objects in two containers.
* C161: numbers are represented by their printed texts; the figure is not modelled. Findings: see the note of C161.
* C162: a dataset is an index and named columns; pandas' offsets and groupers are oracles (as in Pip); HDFStore.append of an empty
  frame stores nothing. Findings: see the note of C162.
* C163: values are abstract; the order of a dictionary is the order of its entries. Findings: see the note of C163.
* C164: the expansion and the compilation are arbitrary functions of the definition, and of the names and coefficients; pickling is
  __getstate__, whose effect on the object itself is modelled. Findings: see the note of C164.
* C165: lines of the figure are represented by the measurement whose values they show; matplotlib calls the callback with the value
  of the slider. Findings: see the note of C165.
* C166-C168: an observation is the number of its row; the alignment of pandas (identical indexes by position, unique labels by label,
  otherwise an error), its groupby (sorted keys) and numpy's argsort (any sorting permutation) are the modelled parts of the libraries.
  Findings: see the notes.
* C169: the printing thread is one more process of the transition system of Pip_Model; each read of a shared counter is a step of its own,
  the lock of the counters is respected. The elapsed time is any number of milliseconds at each read of the clock. Findings: see the note of C169.
* C170: python's rule that a signal runs the handler installed last (in the main thread) and that signal.signal raises a ValueError in other
  threads is modelled; the errors of the manager's connection after its shutdown (OSError, EOFError) are written RuntimeError.
* C171: uses Aln_Model's fit_index. The attribute fit_index of Fits does not exist (grep of /repo). Findings: see the note of C171.
* C172, C173: curves are represented by the values they were calculated with (the calculation is RT's), a shaded area by its parameter and
  range; matplotlib clips the value of a slider to its range and calls the callback with it; removal of a collection while iterating
  over the live list (matplotlib < 3.5) or over a copy is a parameter. Findings: see the notes.
* C174: scipy's optimizer is any sequence of evaluations of the residuals and of the jacobian, either of which may raise. Findings: see the note.
* C175: the tables of the report with their cells (texts of numbers are arbitrary functions); Python's format raises for integers with a
  precision. Not modelled: header, date, section on the dataset. Findings: see the note.
* C176: the properties set on the class are one flag of the session; unpickling does not run __init__ (classes of importable modules are pickled
  by reference). Methods have named parameters only. Findings: see the note.
* C177: proved by a simulation between the pipeline and the same pipeline in which each table is one single row, then C48 for the latter.
* C178: by induction over the runs, with an invariant on numbers, IDs and rows of the container; freshness of numbers from Ids (C53), contents from C177, reading from
  Pag (C99), names from C91.
* C179: the session is a list of operations with adversarial evictions from the caches; invariant: the object cached by Fits.metric was made from the current attributes
  and each cached series is the current one. Findings: operations that do not clear the cache (performfit(clear_cache=False), res_dict, int_Q, MultiFits.set_dataset).
* C180: exact rational arithmetic, no missing values in the data. Finding: the branch for lists and arrays uses data.values, which they do not have.
* C181: composition of C178 (reading back after any runs), C63 (results) and C115 (arguments as text, here a hypothesis on literal_eval). Findings: `aux_data.loc[ID]` (and dataset, res_dict) is evaluated outside of the try-block, so a fit without auxiliary data raises a KeyError if the table exists because of other fits; the setter of ID adds the prefix RT1_ again to IDs such as "RT1_a-1".
* C182: a worker is a state machine with three steps (read, write, read for the name), interleaved in any order. Finding: `initcounter.value += 1` is not atomic, names can be the same.
* C183: set_levels keeps the codes of the index; the proof shows that code and name belong together. Finding: IDs with the same name (e.g. "7" and "RT1_7") make select(set_ID=True) fail with a ValueError.
* C184: reference counting and the garbage collector of CPython are modelled as events. Finding: `load_hdf("x").datasets.y.select()` raises an AttributeError ('NoneType' object has no attribute 'store') for containers without table init_dict, because the accessor is deleted before select is called.
* C185: invariant over operation lists (each cached function was made from what the object is). Finding: `_clear_cache` names `_d_surface_dummy_lambda` twice, `_d_volume_dummy_lambda` is never cleared.
* C186: induction over the positions of the handlers. Finding: of two neighbouring log-file handlers in the folder the second is skipped.
* C187: invariant over sequences of calls (folders, self.cfg, self._useres). Findings: `_useres` is kept between calls; `export_data_to_HDF` reads the .ini file without the overrides before the first setup; setup makes the sub-folders in a folder that only holds results.
* C188: the kernel of F_int is at most tau exp(-tau) / mu; limits by squeezing. So the value 0 that calc puts in place of NaN is the continuous one.
* C189: the objective is a sum of squares over the observations (C116); total = (bsf + (1 - bsf) E) bare_surface + (1 - bsf) (1 - E) half_space with E the two-way attenuation, so a change of tau or bsf is visible exactly if bare_surface and half_space differ. Finding: such scenes (a canopy as bright as the soil) leave tau and bsf undetermined, and nothing in performfit detects this.
* C190: total is a mean of bare_surface and half_space with weight bsf + (1 - bsf) E; tau enters through E = exp(-k tau), the other parameters linearly. Existence of a best value by compactness, uniqueness from continuity and injectivity (two different best values would enclose an exact one); for several measurements per value by the parallelogram identity.
* C191: fits are their definition with the coefficients assigned to them; a postprocess function is a parameter name and two maps (what it does with a Fits and with a MultiFits object); induction over the configurations. Findings: use_config as a string (documented) raises a KeyError for a MultiFits parent (rtprocess.py 1178 iterates over the letters); from_postprocess has no effect without an explicit postprocess function (1268-1279); apply calls f(fit=...), so functions with another parameter name work for single fits only.
* C192: the cost function of Res/Fit for two fitted parameters; per observation the backscatter is linear in omega and NormBRDF (determinant of two rows), and a function of exp(-tau k) with the path length k; injectivity by the mean value theorem ((1-exp(-k s))/(1-exp(-k t)) is strictly monotone in k), the refutation by the intermediate value theorem, the three-path theorem by Rolle's theorem (an exponential polynomial of three terms has at most two zeros). Finding: the pair (tau, NormBRDF) of a scene with bare soil cannot be retrieved from two incidence angles, even without noise.
* C193: substitution of the symbols by numbers after the geometry is resolved; sums of Legendre polynomials. Finding: scatter.py 91-100 substitutes t_s for theta_s and theta_ex, so surfaces are evaluated between a direction and itself (tests/test_surface.py 94 passes for any angles).
* C194: the cost of Res for a linear parameter is a sum over groups of one-dimensional quadratics; closed form of the minimum in a box; perturbation of the closed form. One measurement: intermediate value theorem, the fitted value is a projection to an interval.
* C195: transition system of senders, queue and listener; invariant: file and queue together are the messages sent before the end was announced. Finding: workers are configured with the default level 10 (rtprocess.py 564); `except Exception` (185) does not keep the listener alive after a KeyboardInterrupt.
* C196, C197: hemispherical integral as a positive linear operator on functions that are continuous in cosine and azimuth. Order of integration is exchanged for finite sums of products only (induction over the list), which covers all Legendre expansions. Kernels of the interaction term are bounded before the integration: what is scattered on a path has been removed from the beam (or from the radiation of the surface).
* C198: for a smooth function of the scattering angle the integral over the sphere changes by at most a multiple of h^2 when the incidence angle changes by h, since the first-order term is the integral of a divergence (integration by parts in the cosine, periodicity in the azimuth); hence it is constant, and it is known at the pole. Weights a turn the incidence direction into a vector of another length and direction. Observation: documented normalisation ("the normalization of a volume-scattering phase-function is fixed") holds for weights 1 or -1 only.
* C199: the functions _fnevals are made once and kept, or taken from another fit; invariant over all lists of calculations and shares: they have the names of the model in its order. The finding of C163 (values by position) is stated for the resulting contributions. A contribution is modelled as an arbitrary function of the dict of its own parameters; angles, omega, tau, NormBRDF and bsf are fixed; the error class of symengine for a wrong number of arguments is not distinguished from TypeError.
* C200-C202: doubles are reals rounded by Flocq's `round radix2 (FLT_exp (-1074) 53) ZnearestE` (nearest, ties to even, gradual underflow); overflow, infinities and NaN are not modelled. np.exp and np.cos are arbitrary functions with an accuracy (C200) or range and monotonicity (C202) as hypotheses, both met by correctly rounded functions (shown for np.exp). The values of the scattering functions are inputs with an accuracy. C201 (finding): `1 - np.exp(..)` loses all digits for thin layers.
* C203-C205: Python's binding of positional and keyword arguments is modelled, lists live on a heap with references so that the default arguments `a=[..]` are one list per class. Values are None, bool, int, float (rational), symbols, lists and others; numpy scalars are not distinguished from ints and floats. Linear combinations have no such arguments and are not part of Kwd. Findings: unknown names are ignored, shared default lists, lists that are not stored.
* C206, C207: the expressions made from class, parameter and list a are arbitrary functions (`efunc`, `elegc`), so results identify the parameters they were made from; the numeric function of a class is taken to be that of its expression. lru_cache is modelled with its order and size (one cache per class for _func and legcoefs, one per base class for _lambda_func). Linear combinations and changes of a in place (Kwd) are not part of Cch. Findings: stale values, dependence on other objects, value and expansion of different parameters.
* C208-C210: files are a finite map from paths (as pathlib parses them) to fits; writing succeeds iff the folder exists and the path is no folder; loading gives the object that was dumped (C121). Reader and fit are arbitrary functions (the reader may look at the files). Fits objects only, processed one after the other (two processes writing the same file at once are not modelled). Findings: IDs with slashes, absolute IDs, IDs of equal text; index and options of results taken from dump-files; process-specs named like functions.
* C211: values are None, expressions, rational numbers or nan, arrays of these, or objects without order.
* C212-C214: an array is its shape (any number of axes) and its elements by index; every arithmetic operation is numpy's with broadcasting; C212 proves that each element of surface() and volume() is the value of the one-element model (RT_Model) for the corresponding elements, C213 the same for the factors of the interaction term (Int_Model) where the numbers of axes permit it. A compiled function is its values and the arguments that occur in it; functions without arguments are vectorized (surface.py 126-138), which the model expresses by all arguments occurring. np.arccos(np.cos(t)) = t as in Int_Model. Not modelled: axes of length 0 in vectorized functions, lists as angles, the memoised powers (C13). Findings: see the notes of C213, C214.
* C215, C216: slopes, curvatures and jacobian as expressions over arrays (Arr_Model), evaluated operation by operation; each element is proved equal to the one-element model (RT_Model) for the corresponding elements. That sympy compiles the derivatives is the hypothesis `derivatives` (met by an example); np.unique(p_0) is modelled by comparing all elements, nan is not modelled.
* C217: interaction() as operations on arrays of numbers with infinities; each element is proved equal to `Int_Model.interaction` of the corresponding elements. The shapes an intermediate result depends on are tracked through all operations (`tracked`), so the common shape exists at each step.
* C218: Fits objects are numbers in a heap, a dump is the state of the MultiFits object and of its container. Findings: a dump of an old version (container without `_parent`) is attached to a second, new MultiFits object: its fits lose dataset and aux_data on unpickling (load() restores them), and configurations added afterwards are not found by the container; MultiFits objects without configurations cannot be loaded (`hasattr(fit, "ID")` passes the AssertionError on); the fallback for missing names in MultiFits.__setstate__ is never reached (AttributeError in config_fits).
* C219: the class attributes of _MultiAccessors are part of the state of the process. Findings: they are set by the constructor only, so in a process that only loads dumps `accessor.res_df` etc. is an AttributeError; attributes that a new Fits object does not have (res_dict, fit_output, ...) are never available.
* C220: the comparison in `min(len(self.IDs), nids)` is modelled per type of argument. Findings: the documented lists of IDs fail; an array with one ID that is not less than the number of IDs returns all IDs.
* C221: try/finally of the context manager; a session is any list of assignments, reads and loads (with any outcome).
* C222: one cache per decorated function name, shared by all objects; the specification lists the decorators of the source (36) instead of the names in `_cached_props`. Invariant: if no property has an entry then no function has one (set_model reads V first, _meandt_interp_assigns reads param_dyn_dict, messages come after _param_dyn_monotonic).
* C223: a table is a list of rows (date, year, month, values of the columns); the panel over the incidence-angle uses the model of rectangularize (GF). Finding: if no observation is in the selected years and months, the default call (printinc=True) raises StopIteration instead of drawing an empty panel.
* Exa: for C07, C13, C69, C70, C72, C73, C75 and C86, which do not hold in general, the outcome is stated exactly for all inputs or histories, so that the condition under which each holds is necessary as well as sufficient.
* C224: python slices are modelled by slice.indices, pandas.cut by its rule for given edges (the rounded boundaries that label the bins are given), the image by the positions of its pixels. Findings: the 2D image is stretched if the first or last bin is empty (ymin, ymax are taken from the bins that hold values, the rows are all bins) or the bins differ in width; a negative step of iter_slice reverses the iterations in the image; with the default iter_slice a fit with at most two evaluations gives an IndexError; iter_slice=None, for which a case exists at 2944, raises a TypeError.
* C225: the integrals are those of Hem_Model (C111). Findings: SRF.hemreflect() cannot evaluate a symbolic NormBRDF (the exception of NormBRDF[0] is swallowed, the comparison sol > 1 then raises a TypeError), hemreflect(R=R) can; the loop variable sol shadows the array, so that the axis is scaled to the last line.
* C226: a tick of the thread is two steps (test of the end, printing), so that the shutdown of the manager can fall between them; the accesses within each step are atomic. Finding: stop() does not join the print thread, a tick after manager.shutdown() ends it with an exception.
* C227: modelled over Ldr: the printed lines in their order and the exception that ends the loop; proved by induction over the list of names with C157_by_name. The printed text of a dataset is opaque.
